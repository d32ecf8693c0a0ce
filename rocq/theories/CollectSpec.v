(* The references that code holds: one for each bound name, wherever it is. *)
From Verif Require Import Base ScopeModel.

Fixpoint held_e (e : cexpr) : list (ref ifun) :=
  match e with
  | CInt _ | CNull => []
  | CName (LBound r) => [r]
  | CName _ => []
  | CFun _ b => held_l b
  | CCall f xs => held_e f ++ held_a xs
  | CList xs => held_a xs
  | CSet a b | CAdd a b => held_e a ++ held_e b
  | CCond c a b => held_e c ++ held_e a ++ held_e b
  | COut e => held_e e
  end
with held_a (xs : cargs) : list (ref ifun) :=
  match xs with
  | BNil => []
  | BCons _ e xs => held_e e ++ held_a xs
  end
with held_s (s : node) : list (ref ifun) :=
  match s with
  | NExpr e | NVar _ _ e | NRef _ e | NThrow e | NReturn _ e | NDefer e => held_e e
  | NBlock b => held_l b
  | NIf e a b | NWhile e a b | NEach _ _ e a b => held_e e ++ held_l a ++ held_l b
  | NDo a e b => held_l a ++ held_e e ++ held_l b
  | NSwitch e l => held_e e ++ held_k l
  | NFor _ _ i e st b c => held_e i ++ held_e e ++ held_e st ++ held_l b ++ held_l c
  | NTry b _ c => held_l b ++ held_l c
  | NVoid | NBreak | NContinue => []
  end
with held_l (l : code) : list (ref ifun) :=
  match l with
  | End => []
  | Then s l => held_s s ++ held_l l
  end
with held_k (l : cases) : list (ref ifun) :=
  match l with
  | JNil => []
  | JCase e _ b l => held_e e ++ held_l b ++ held_k l
  | JDefault _ b l => held_l b ++ held_k l
  end.

(* No body of a `for` holds a reference if it is inside a function or a deferred
   expression ([inner]) that is still to be created. *)
Fixpoint plain_e (inner : bool) (e : cexpr) : Prop :=
  match e with
  | CInt _ | CNull | CName _ => True
  | CFun _ b => plain_l true b
  | CCall f xs => plain_e inner f /\ plain_a inner xs
  | CList xs => plain_a inner xs
  | CSet a b | CAdd a b => plain_e inner a /\ plain_e inner b
  | CCond c a b => plain_e inner c /\ plain_e inner a /\ plain_e inner b
  | COut e => plain_e inner e
  end
with plain_a (inner : bool) (xs : cargs) : Prop :=
  match xs with
  | BNil => True
  | BCons _ e xs => plain_e inner e /\ plain_a inner xs
  end
with plain_s (inner : bool) (s : node) : Prop :=
  match s with
  | NExpr e | NVar _ _ e | NRef _ e | NThrow e | NReturn _ e => plain_e inner e
  | NDefer e => plain_e true e
  | NBlock b => plain_l inner b
  | NIf e a b | NWhile e a b | NEach _ _ e a b | NDo a e b => plain_e inner e /\ plain_l inner a /\ plain_l inner b
  | NSwitch e l => plain_e inner e /\ plain_k inner l
  | NFor _ _ i e st b c =>
    plain_e inner i /\ plain_e inner e /\ plain_e inner st /\ plain_l inner b /\ plain_l inner c /\
    (inner = true -> held_l b = [])
  | NTry b _ c => plain_l inner b /\ plain_l inner c
  | NVoid | NBreak | NContinue => True
  end
with plain_l (inner : bool) (l : code) : Prop :=
  match l with
  | End => True
  | Then s l => plain_s inner s /\ plain_l inner l
  end
with plain_k (inner : bool) (l : cases) : Prop :=
  match l with
  | JNil => True
  | JCase e _ b l => plain_e inner e /\ plain_l inner b /\ plain_k inner l
  | JDefault _ b l => plain_l inner b /\ plain_k inner l
  end.

(* The source of a function with no `for` inside a function or a deferred
   expression in it. *)
Fixpoint calm_e (inner : bool) (e : expr) : Prop :=
  match e with
  | EInt _ | ENull | EName _ => True
  | EFun _ b => calm_l true b
  | ECall f xs => calm_e inner f /\ calm_a inner xs
  | EList xs => calm_a inner xs
  | ESet a b | EAdd a b => calm_e inner a /\ calm_e inner b
  | ECond c a b => calm_e inner c /\ calm_e inner a /\ calm_e inner b
  | EOut e => calm_e inner e
  end
with calm_a (inner : bool) (xs : args) : Prop :=
  match xs with
  | ANil => True
  | ACons _ e xs => calm_e inner e /\ calm_a inner xs
  end
with calm_s (inner : bool) (s : stmt) : Prop :=
  match s with
  | SExpr e | SVar _ _ e | SRef _ e | SThrow e | SReturn _ e => calm_e inner e
  | SDefer e => calm_e true e
  | SBlock b => calm_l inner b
  | SIf e a b | SWhile e a b | SEach _ _ e a b | SDo a e b => calm_e inner e /\ calm_l inner a /\ calm_l inner b
  | SSwitch e l => calm_e inner e /\ calm_k inner l
  | SFor _ _ i e st b c =>
    inner = false /\ calm_e inner i /\ calm_e inner e /\ calm_e inner st /\ calm_l inner b /\ calm_l inner c
  | STry b _ c => calm_l inner b /\ calm_l inner c
  | SVoid | SBreak | SContinue => True
  end
with calm_l (inner : bool) (l : stmts) : Prop :=
  match l with
  | Nil => True
  | Cons s l => calm_s inner s /\ calm_l inner l
  end
with calm_k (inner : bool) (l : clauses) : Prop :=
  match l with
  | KNil => True
  | KCase e b l => calm_e inner e /\ calm_l inner b /\ calm_k inner l
  | KDefault b l => calm_l inner b /\ calm_k inner l
  end.

(* What code generation makes of a function, after any number of bindings as the
   functions around it are created *)
Inductive made (b : stmts) : code -> Prop :=
| made_here ps cs : made b (gen_body ps cs b)
| made_bound d fs c c' : made b c -> rebind_l d fs c = Ok c' -> made b c'.
