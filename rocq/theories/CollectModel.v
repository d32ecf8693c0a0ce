(* The references that the garbage collector finds in code.
   Sources: asteria/src/runtime/air_node.cpp 52-58 and 574-765
   (collect_variables of nodes), and the collectors of the solidified nodes in
   the same file: 831-837, 963-969, 1084-1092, 1154-1161, 1224-1230,
   1388-1394, 1478-1486, 1570-1575, 1857-1861, 1909-1913, 1959-1964, 4451-4455.
   Simplifications: as in ScopeModel; a reference is listed where it is found,
   and what is found through it is the subject of C34. *)
From Verif Require Import Base ScopeModel.

Definition collect_leaf (l : leaf) : list (ref ifun) := match l with LBound r => [r] | _ => [] end.

(* Nodes, of which functions and deferred expressions that have not been
   created yet consist *)
Fixpoint collect_e (e : cexpr) : list (ref ifun) :=
  match e with
  | CInt _ | CNull => []
  | CName l => collect_leaf l
  | CFun _ b => collect_l b
  | CCall f xs => collect_e f ++ collect_a xs
  | CList xs => collect_a xs
  | CSet a b | CAdd a b => collect_e a ++ collect_e b
  | CCond c a b => collect_e c ++ collect_e a ++ collect_e b
  | COut e => collect_e e
  end
with collect_a (xs : cargs) : list (ref ifun) :=
  match xs with
  | BNil => []
  | BCons _ e xs => collect_e e ++ collect_a xs
  end
with collect_s (s : node) : list (ref ifun) :=
  match s with
  | NExpr e | NVar _ _ e | NRef _ e | NThrow e | NReturn _ e | NDefer e => collect_e e
  | NBlock b => collect_l b
  | NIf e a b => collect_e e ++ collect_l a ++ collect_l b
  | NSwitch e l => collect_e e ++ collect_labels l ++ collect_bodies l
  | NDo b e c => collect_l b ++ collect_e e ++ collect_l c
  | NWhile e b c => collect_e e ++ collect_l b ++ collect_l c
  | NEach _ _ e b c => collect_e e ++ collect_l b ++ collect_l c
  (* the body is not there *)
  | NFor _ _ i e st b c => collect_e i ++ collect_e e ++ collect_e st ++ collect_l c
  | NTry b _ c => collect_l b ++ collect_l c
  | NVoid | NBreak | NContinue => []
  end
with collect_l (l : code) : list (ref ifun) :=
  match l with
  | End => []
  | Then s l => collect_s s ++ collect_l l
  end
with collect_labels (l : cases) : list (ref ifun) :=
  match l with
  | JNil => []
  | JCase e _ _ l => collect_e e ++ collect_labels l
  | JDefault _ _ l => collect_labels l
  end
with collect_bodies (l : cases) : list (ref ifun) :=
  match l with
  | JNil => []
  | JCase _ _ b l | JDefault _ b l => collect_l b ++ collect_bodies l
  end.

(* Solidified code, which an instantiated function has *)
Fixpoint rod_e (e : cexpr) : list (ref ifun) :=
  match e with
  | CInt _ | CNull => []
  | CName l => collect_leaf l
  | CFun _ b => collect_l b
  | CCall f xs => rod_e f ++ rod_a xs
  | CList xs => rod_a xs
  | CSet a b | CAdd a b => rod_e a ++ rod_e b
  | CCond c a b => rod_e c ++ rod_e a ++ rod_e b
  | COut e => rod_e e
  end
with rod_a (xs : cargs) : list (ref ifun) :=
  match xs with
  | BNil => []
  | BCons _ e xs => rod_e e ++ rod_a xs
  end
with rod_s (s : node) : list (ref ifun) :=
  match s with
  | NExpr e | NVar _ _ e | NRef _ e | NThrow e | NReturn _ e => rod_e e
  | NDefer e => collect_e e
  | NBlock b => rod_l b
  | NIf e a b => rod_e e ++ rod_l a ++ rod_l b
  | NSwitch e l => rod_e e ++ rod_labels l ++ rod_bodies l
  | NDo b e c => rod_l b ++ rod_e e ++ rod_l c
  | NWhile e b c => rod_e e ++ rod_l b ++ rod_l c
  | NEach _ _ e b c => rod_e e ++ rod_l b ++ rod_l c
  | NFor _ _ i e st b c => rod_e i ++ rod_e e ++ rod_e st ++ rod_l b ++ rod_l c
  | NTry b _ c => rod_l b ++ rod_l c
  | NVoid | NBreak | NContinue => []
  end
with rod_l (l : code) : list (ref ifun) :=
  match l with
  | End => []
  | Then s l => rod_s s ++ rod_l l
  end
with rod_labels (l : cases) : list (ref ifun) :=
  match l with
  | JNil => []
  | JCase e _ _ l => rod_e e ++ rod_labels l
  | JDefault _ _ l => rod_labels l
  end
with rod_bodies (l : cases) : list (ref ifun) :=
  match l with
  | JNil => []
  | JCase _ _ b l | JDefault _ b l => rod_l b ++ rod_bodies l
  end.
