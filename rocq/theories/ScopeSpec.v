(* What names mean: lexical scoping.  A program is run on its source.  An
   environment is a list of frames, the innermost first; a name means what the
   innermost frame that has it says, and is global if there is none.  A
   function is its source with the environment where it was created; so is a
   deferred expression. *)
From Verif Require Import Base Monad Text ScopeModel.

Inductive sfun := SFun (ps : list name) (b : stmts) (env : list (list (name * ref sfun))).
Definition env := list (frame sfun).

Fixpoint lookup (x : name) (en : env) : option (ref sfun) :=
  match en with
  | [] => None
  | f :: en => match find x f with Some r => Some r | None => lookup x en end
  end.

(* A statement after which nothing is reached; what follows it does not count. *)
Fixpoint ends (s : stmt) : bool :=
  match s with
  | SThrow _ | SReturn _ _ | SVoid | SBreak | SContinue => true
  | SBlock b => ends_l b
  | SIf _ a b => ends_l a && ends_l b
  | _ => false
  end
with ends_l (l : stmts) : bool :=
  match l with
  | Nil => false
  | Cons s l => ends s || ends_l l
  end.

(* The names that a statement adds to its scope *)
Definition decl (s : stmt) : list name :=
  match s with
  | SVar _ x _ | SRef x _ => [x]
  | _ => []
  end.
Fixpoint decls (l : stmts) : list name :=
  match l with
  | Nil => []
  | Cons s l => decl s ++ if ends s then [] else decls l
  end.

(* The names that something takes from outside; [bs] are those that are not
   from outside. *)
Fixpoint free_e (bs : list name) (e : expr) : list name :=
  match e with
  | EInt _ | ENull => []
  | EName x => if mem x bs then [] else [x]
  | EFun ps b => free_l (ps ++ bs) b
  | ECall f xs => free_e bs f ++ free_a bs xs
  | EList xs => free_a bs xs
  | ESet a b | EAdd a b => free_e bs a ++ free_e bs b
  | ECond c a b => free_e bs c ++ free_e bs a ++ free_e bs b
  | EOut e => free_e bs e
  end
with free_a (bs : list name) (xs : args) : list name :=
  match xs with
  | ANil => []
  | ACons _ e xs => free_e bs e ++ free_a bs xs
  end
with free_s (bs : list name) (s : stmt) : list name :=
  match s with
  | SExpr e | SThrow e | SReturn _ e | SDefer e => free_e bs e
  | SVar _ x e | SRef x e => free_e (x :: bs) e
  | SBlock b => free_l bs b
  | SIf e a b => free_e bs e ++ free_l bs a ++ free_l bs b
  | SSwitch e l => free_e bs e ++ free_k bs bs l
  | SWhile e b c => free_e bs e ++ free_l bs b ++ free_l bs c
  | SDo b e c => free_l bs b ++ free_e bs e ++ free_l bs c
  | SFor _ x i e st b c =>
    free_e (x :: bs) i ++ free_e (x :: bs) e ++ free_e (x :: bs) st ++ free_l (x :: bs) b ++ free_l bs c
  | SEach k m e b c => free_e (m :: k :: bs) e ++ free_l (m :: k :: bs) b ++ free_l bs c
  | STry b x c => free_l bs b ++ free_l (x :: bs) c
  | SVoid | SBreak | SContinue => []
  end
with free_l (bs : list name) (l : stmts) : list name :=
  match l with
  | Nil => []
  | Cons s l => free_s bs s ++ if ends s then [] else free_l (decl s ++ bs) l
  end
(* the labels are outside of the scope of the bodies *)
with free_k (bs inner : list name) (l : clauses) : list name :=
  match l with
  | KNil => []
  | KCase e b l => free_e bs e ++ free_l inner b ++ free_k bs (decls b ++ inner) l
  | KDefault b l => free_l inner b ++ free_k bs (decls b ++ inner) l
  end.

(* Some name means a thing whose initialization has been bypassed. *)
Definition bypassed (en : env) (xs : list name) : bool :=
  existsb (fun x => match lookup x en with Some RInvalid => true | _ => false end) xs.

(* `for each` has two different names. *)
Fixpoint fair_e (e : expr) : bool :=
  match e with
  | EInt _ | ENull | EName _ => true
  | EFun _ b => fair_l b
  | ECall f xs => fair_e f && fair_a xs
  | EList xs => fair_a xs
  | ESet a b | EAdd a b => fair_e a && fair_e b
  | ECond c a b => fair_e c && fair_e a && fair_e b
  | EOut e => fair_e e
  end
with fair_a (xs : args) : bool :=
  match xs with
  | ANil => true
  | ACons _ e xs => fair_e e && fair_a xs
  end
with fair_s (s : stmt) : bool :=
  match s with
  | SExpr e | SThrow e | SReturn _ e | SDefer e | SVar _ _ e | SRef _ e => fair_e e
  | SBlock b => fair_l b
  | SIf e a b | SWhile e a b | SDo a e b => fair_e e && fair_l a && fair_l b
  | SSwitch e l => fair_e e && fair_k l
  | SFor _ _ i e st b c => fair_e i && fair_e e && fair_e st && fair_l b && fair_l c
  | SEach k m e b c => negb (k =? m) && fair_e e && fair_l b && fair_l c
  | STry b _ c => fair_l b && fair_l c
  | SVoid | SBreak | SContinue => true
  end
with fair_l (l : stmts) : bool :=
  match l with
  | Nil => true
  | Cons s l => fair_s s && fair_l l
  end
with fair_k (l : clauses) : bool :=
  match l with
  | KNil => true
  | KCase e b l => fair_e e && fair_l b && fair_k l
  | KDefault b l => fair_l b && fair_k l
  end.

Notation W := (world sfun).
Notation R := (world sfun * eres sfun)%type.
Notation Q := (world sfun * sres sfun)%type.
(* A deferred expression has the environment of its `defer`. *)
Notation sc := (scope sfun (expr * list (list (name * ref sfun)))).
Notation P := (world sfun * scope sfun (expr * list (list (name * ref sfun))) * sres sfun)%type.

(* Sequencing: something that is not finished, or is thrown, is the result. *)
Definition with_ref (m : R) (k : ref sfun -> W -> R) : R :=
  match m with (w, ERef r) => k r w | _ => m end.
Definition with_val (m : R) (k : val sfun -> W -> R) : R :=
  with_ref m (fun r w => match read w r with Some v => k v w | None => (w, EThr (VStr (str "reference"))) end).
Definition then_ref (m : R) (k : ref sfun -> W -> Q) : Q :=
  match m with
  | (w, ERef r) => k r w
  | (w, EThr v) => (w, Thr v)
  | (w, EFuel) => (w, Fuel)
  | (w, EUB) => (w, Bad)
  end.
Definition then_val (m : R) (k : val sfun -> W -> Q) : Q :=
  then_ref m (fun r w => match read w r with Some v => k v w | None => (w, Thr (VStr (str "reference"))) end).
Definition keep (s : sc) (m : Q) : P := (fst m, s, snd m).
Definition scoped (s : sc) (m : R) (k : ref sfun -> W -> P) : P :=
  match m with
  | (w, ERef r) => k r w
  | _ => keep s (then_ref m (fun _ w => (w, Next)))
  end.
Definition scoped_val (s : sc) (m : R) (k : val sfun -> W -> P) : P :=
  scoped s m (fun r w => match read w r with Some v => k v w | None => (w, s, Thr (VStr (str "reference"))) end).

(* A round of a loop *)
Definition round (m : Q) (next : W -> Q) : Q :=
  match snd m with
  | Next | Continue => next (fst m)
  | Break => (fst m, Next)
  | _ => m
  end.
Fixpoint whiles (n : nat) (e : W -> R) (body fin : W -> Q) (w : W) : Q :=
  match n with
  | O => (w, Fuel)
  | S n => then_val (e w) (fun v w => if test v then round (body w) (whiles n e body fin) else fin w)
  end.
Fixpoint dos (n : nat) (body : W -> Q) (e : W -> R) (fin : W -> Q) (w : W) : Q :=
  match n with
  | O => (w, Fuel)
  | S n => round (body w) (fun w => then_val (e w) (fun v w => if test v then dos n body e fin w else fin w))
  end.
Fixpoint fors (n : nat) (e st : W -> R) (body fin : W -> Q) (w : W) : Q :=
  match n with
  | O => (w, Fuel)
  | S n =>
    then_val (e w) (fun v w =>
      if test v then round (body w) (fun w => then_ref (st w) (fun _ => fors n e st body fin)) else fin w)
  end.
(* the key counts the elements *)
Fixpoint eachs (i : Z) (vs : list (val sfun)) (l : nat) (body : val sfun -> W -> Q) (fin : W -> Q) (w : W) : Q :=
  match vs with
  | [] => fin w
  | v :: vs => round (body v (initialize l (VInt i) true w)) (eachs (i + 1) vs l body fin)
  end.

(* Deferred expressions run last first; what they throw replaces the result. *)
Fixpoint finish (ev : expr -> env -> W -> R) (ds : list (expr * env)) (w : W) (r : sres sfun) : Q :=
  match ds with
  | [] => (w, r)
  | (e, en) :: ds =>
    match ev e en w with
    | (w, ERef _) => finish ev ds w r
    | (w, EThr v) => finish ev ds w (Thr v)
    | (w, EFuel) => (w, Fuel)
    | (w, EUB) => (w, Bad)
    end
  end.

(* Parameters: those without arguments are null; more arguments are an error. *)
Definition parameters (ps : list name) (xs : list (ref sfun)) : option (frame sfun) :=
  if (length xs <=? length ps)%nat
  then Some (rev (combine ps (xs ++ repeat (RTemp VNull) (length ps - length xs))))
  else None.

Section Meaning.
Variable glob : name -> option Z.
Variable call : sfun -> list (ref sfun) -> W -> R.
Variable fuel : nat.

Fixpoint eval_s (e : expr) (en : env) (w : W) : R :=
  match e with
  | EInt n => (w, ERef (RTemp (VInt n)))
  | ENull => (w, ERef (RTemp VNull))
  | EName x =>
    match lookup x en with
    | Some RInvalid => (w, EThr (VStr (str "bypassed")))
    | Some r => (w, ERef r)
    | None =>
      match glob x with
      | Some n => (w, ERef (RTemp (VInt n)))
      | None => (w, EThr (VStr (str "undeclared")))
      end
    end
  | EFun ps b =>
    if bypassed en (free_l ps b) then (w, EThr (VStr (str "bypassed")))
    else (w, ERef (RTemp (VFun (SFun ps b en))))
  | ECall f xs =>
    with_ref (eval_s f en w) (fun r w =>
    eval_args xs en w (fun xs w =>
      match read w r with
      | Some (VFun f) => call f xs w
      | _ => (w, EThr (VStr (str "function")))
      end))
  | EList xs =>
    eval_args xs en w (fun xs w =>
      match all_some (map (read w) xs) with
      | Some vs => (w, ERef (RTemp (VArr vs)))
      | None => (w, EThr (VStr (str "reference")))
      end)
  | ESet a b =>
    with_ref (eval_s a en w) (fun r w =>
    with_val (eval_s b en w) (fun v w =>
      match assign r v w with
      | Some w => (w, ERef r)
      | None => (w, EThr (VStr (str "assignment")))
      end))
  | EAdd a b =>
    with_ref (eval_s a en w) (fun r w =>
    with_val (eval_s b en w) (fun v w =>
      match read w r with
      | Some u => match add u v with Some s => (w, ERef (RTemp s)) | None => (w, EThr (VStr (str "operands"))) end
      | None => (w, EThr (VStr (str "reference")))
      end))
  | ECond c a b => with_val (eval_s c en w) (fun v w => if test v then eval_s a en w else eval_s b en w)
  | EOut e => with_val (eval_s e en w) (fun v w => (print v w, ERef (RTemp VNull)))
  end
with eval_args (xs : args) (en : env) (w : W) (k : list (ref sfun) -> W -> R) : R :=
  match xs with
  | ANil => k [] w
  | ACons by_ref e xs =>
    with_ref (eval_s e en w) (fun r w =>
      match read w r with
      | Some v => eval_args xs en w (fun rs w => k ((if by_ref : bool then r else RTemp v) :: rs) w)
      | None => (w, EThr (VStr (str "reference")))
      end)
  end.

(* the end of a scope *)
Definition close (m : P) : Q :=
  let '(w, s, r) := m in
  match r with
  | Fuel | Bad => (w, r)
  | _ => finish eval_s (defers s) w r
  end.

(* the clause of a `switch` that has the value, or the last `default` before it *)
Fixpoint choose (v : val sfun) (l : clauses) (en : env) (w : W) (k : nat) (t : option nat) (found : option nat -> W -> P) (s : sc) : P :=
  match l with
  | KNil => found t w
  | KDefault _ l => choose v l en w (S k) (Some k) found s
  | KCase e _ l =>
    scoped_val s (eval_s e en w) (fun u w => if equal v u then found (Some k) w else choose v l en w (S k) t found s)
  end.

(* The names of clauses that are jumped over are there, but may not be used. *)
Definition skipped (ns : list name) (s : sc) : sc :=
  {| names := map (fun x => (x, RInvalid)) ns ++ names s; defers := defers s |}.

Fixpoint exec_s (c : stmt) (s : sc) (en : env) (w : W) : P :=
  let here := names s :: en in
  let block b w := close (exec_l b empty_scope here w) in
  match c with
  | SExpr e => scoped s (eval_s e here w) (fun _ w => (w, s, Next))
  | SVar im x e =>
    let (w, l) := create w in
    let s := declare x (RVar l) s in
    scoped_val s (eval_s e (names s :: en) w) (fun v w => (initialize l v im w, s, Next))
  | SRef x e =>
    let s := declare x RInvalid s in
    scoped s (eval_s e (names s :: en) w) (fun r w => (w, declare x r s, Next))
  | SBlock b => keep s (block b w)
  | SIf e a b => scoped_val s (eval_s e here w) (fun v w => keep s (if test v then block a w else block b w))
  | SSwitch e l =>
    scoped_val s (eval_s e here w) (fun v w =>
    choose v l here w 0%nat None (fun t w =>
      match t with
      | None => (w, s, Next)
      | Some t =>
        keep s (match close (exec_k l t empty_scope here w) with
                | (w, Break) => (w, Next)
                | m => m
                end)
      end) s)
  | SWhile e b d => keep s (whiles fuel (eval_s e here) (block b) (block d) w)
  | SDo b e d => keep s (dos fuel (block b) (eval_s e here) (block d) w)
  | SFor im x i e st b d =>
    let (w, l) := create w in
    let inside := [(x, RVar l)] :: here in
    scoped_val s (eval_s i inside w) (fun v w =>
      keep s (fors fuel (eval_s e inside) (eval_s st inside)
                (fun w => close (exec_l b empty_scope inside w)) (block d) (initialize l v im w)))
  | SEach k m e b d =>
    scoped_val s (eval_s e ([(m, RInvalid); (k, RInvalid)] :: here) w) (fun v w =>
      match v with
      | VNull => (w, s, Next)
      | VArr [] => keep s (block d w)
      | VArr vs =>
        let (w, l) := create w in
        keep s (eachs 0 vs l
                  (fun v w => close (exec_l b empty_scope ([(m, RTemp v); (k, RVar l)] :: here) w)) (block d) w)
      | _ => (w, s, Thr (VStr (str "range")))
      end)
  | STry b x d =>
    keep s (match block b w with
            | (w, Thr v) => close (exec_l d (declare x (RTemp v) empty_scope) here w)
            | m => m
            end)
  | SThrow e => scoped_val s (eval_s e here w) (fun v w => (w, s, Thr v))
  | SReturn by_ref e =>
    scoped s (eval_s e here w) (fun r w =>
      match r with
      | RVoid => (w, s, Ret RVoid)
      | _ =>
        match read w r with
        | Some v => (w, s, Ret (if by_ref : bool then r else RTemp v))
        | None => (w, s, Thr (VStr (str "reference")))
        end
      end)
  | SVoid => (w, s, Ret RVoid)
  | SBreak => (w, s, Break)
  | SContinue => (w, s, Continue)
  | SDefer e =>
    if bypassed here (free_e [] e) then (w, s, Thr (VStr (str "bypassed")))
    else (w, defer (e, here) s, Next)
  end
with exec_l (l : stmts) (s : sc) (en : env) (w : W) : P :=
  match l with
  | Nil => (w, s, Next)
  | Cons c l =>
    match exec_s c s en w with
    | (w, s, Next) => exec_l l s en w
    | m => m
    end
  end
with exec_k (l : clauses) (t : nat) (s : sc) (en : env) (w : W) : P :=
  match l with
  | KNil => (w, s, Next)
  | KCase _ b l | KDefault b l =>
    match t with
    | S t => exec_k l t (skipped (decls b) s) en w
    | O =>
      match exec_l b s en w with
      | (w, s, Next) => exec_k l 0 s en w
      | m => m
      end
    end
  end.
End Meaning.

Fixpoint apply (glob : name -> option Z) (n : nat) (f : sfun) (xs : list (ref sfun)) (w : W) : R :=
  match n with
  | O => (w, EFuel)
  | S n =>
    let 'SFun ps b en := f in
    match parameters ps xs with
    | None => (w, EThr (VStr (str "arguments")))
    | Some f =>
      match close glob (apply glob n) (exec_l glob (apply glob n) n b {| names := f; defers := [] |} en w) with
      | (w, Next) => (w, ERef RVoid)
      | (w, Ret r) => (w, ERef r)
      | (w, Break) | (w, Continue) => (w, EThr (VStr (str "stray")))
      | (w, Thr v) => (w, EThr v)
      | (w, Fuel) => (w, EFuel)
      | (w, Bad) => (w, EUB)
      end
    end
  end.

Definition meaning (glob : name -> option Z) (n : nat) (b : stmts) : R :=
  apply glob n (SFun [] b []) [] {| store := []; out := [] |}.

(* What can be seen from outside: the outputs and the result, where of a
   function only that it is one.  A result that is a variable is read. *)
Inductive seen := Null | Int (n : Z) | Str (s : bytes) | Arr (l : list seen) | Fun.
Fixpoint look {F} (v : val F) : seen :=
  match v with
  | VNull => Null
  | VInt n => Int n
  | VStr s => Str s
  | VArr l => Arr (map look l)
  | VFun _ => Fun
  end.
Inductive effect := Value (s : option seen) | Exception (s : seen) | Unfinished | Undefined.
Definition observe {F} (m : world F * eres F) : list seen * effect :=
  (map look (out (fst m)),
   match snd m with
   | ERef r => Value (match read (fst m) r with Some v => Some (look v) | None => None end)
   | EThr v => Exception (look v)
   | EFuel => Unfinished
   | EUB => Undefined
   end).
