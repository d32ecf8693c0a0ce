(* Names, scopes and closures: how names become (depth, name) pairs when code
   is generated, how they are bound when a function or a deferred expression
   is created, and how the code runs on chains of contexts.
   Sources: asteria/src/compiler/statement.cpp 17-650 (generate_code),
   asteria/src/compiler/expression_unit.cpp 112-160 (local references) and
   161-180 (closures), asteria/src/runtime/air_node.cpp 305-560 (rebind_opt)
   and 790-1960 (solidify), asteria/src/runtime/air_optimizer.cpp 30-75,
   asteria/src/runtime/executive_context.cpp 17-160,
   asteria/src/runtime/instantiated_function.cpp 55-110.
   Simplifications: expressions are trees (their linear code is the subject of
   C49); of the operators there are an addition without bounds, an
   assignment, ?: and one that appends a value to a list of outputs, which
   stands for native functions.  A statement that declares several names is
   several statements; a function statement is the declaration of an
   immutable variable, whose name is declared before its value is computed.
   `for` declares one variable and has a condition; the
   key of `for each` has a name, and the mapped reference is a copy of the
   element.  break and continue have no targets.  There are no tail calls, no
   variadic arguments, no pre-defined names such as __func, and undeclared
   names are global (implicit_global_names).  Names are numbers.  A dictionary
   is a list whose first entry for a name counts. *)
From Verif Require Import Base Monad Text.

Definition name := Z.

(* Source. *)
Inductive expr :=
| EInt (n : Z)
| ENull
| EName (x : name)
| EFun (ps : list name) (b : stmts)
| ECall (f : expr) (xs : args)
| EList (xs : args)
| ESet (a b : expr)
| EAdd (a b : expr)
| ECond (c a b : expr)
| EOut (e : expr)
with args :=
| ANil
| ACons (by_ref : bool) (e : expr) (xs : args)
with stmt :=
| SExpr (e : expr)
| SVar (immutable : bool) (x : name) (e : expr)
| SRef (x : name) (e : expr)
| SBlock (b : stmts)
| SIf (e : expr) (a b : stmts)
| SSwitch (e : expr) (l : clauses)
| SWhile (e : expr) (b c : stmts)
| SDo (b : stmts) (e : expr) (c : stmts)
| SFor (immutable : bool) (x : name) (i e st : expr) (b c : stmts)
| SEach (k m : name) (e : expr) (b c : stmts)
| STry (b : stmts) (x : name) (c : stmts)
| SThrow (e : expr)
| SReturn (by_ref : bool) (e : expr)
| SVoid
| SBreak
| SContinue
| SDefer (e : expr)
with stmts :=
| Nil
| Cons (s : stmt) (l : stmts)
with clauses :=
| KNil
| KCase (e : expr) (b : stmts) (l : clauses)
| KDefault (b : stmts) (l : clauses).

(* Values and references; F is what a function is. *)
Inductive val {F : Type} : Type := VNull | VInt (n : Z) | VStr (s : bytes) | VArr (l : list val) | VFun (f : F).
Arguments val : clear implicits.
Inductive ref {F : Type} : Type := RInvalid | RVoid | RTemp (v : val F) | RVar (l : nat).
Arguments ref : clear implicits.

Definition mem (x : name) (l : list name) : bool := existsb (Z.eqb x) l.

Fixpoint all_some {A} (l : list (option A)) : option (list A) :=
  match l with
  | [] => Some []
  | Some a :: l => match all_some l with Some l => Some (a :: l) | None => None end
  | None :: _ => None
  end.

Section World.
Context {F : Type}.
Definition frame := list (name * ref F).
(* reference_dictionary.hpp: find_opt, and insert which replaces what is found *)
Fixpoint find (x : name) (f : frame) : option (ref F) :=
  match f with
  | [] => None
  | (y, r) :: f => if x =? y then Some r else find x f
  end.

(* A variable has a value unless it is not initialized. *)
Record cell := { content : option (val F); fixed : bool }.
Record world := { store : list cell; out : list (val F) }.
Inductive eres := ERef (r : ref F) | EThr (v : val F) | EFuel | EUB.
Inductive sres := Next | Break | Continue | Ret (r : ref F) | Thr (v : val F) | Fuel | Bad.

Definition error (s : bytes) : val F := VStr s.
Definition read (w : world) (r : ref F) : option (val F) :=
  match r with
  | RTemp v => Some v
  | RVar l => match nth_error (store w) l with Some c => content c | None => None end
  | _ => None
  end.
Definition create (w : world) : world * nat :=
  ({| store := store w ++ [{| content := None; fixed := false |}]; out := out w |}, length (store w)).
Definition put (l : nat) (c : cell) (w : world) : world :=
  {| store := firstn l (store w) ++ c :: skipn (S l) (store w); out := out w |}.
Definition initialize (l : nat) (v : val F) (immutable : bool) (w : world) : world :=
  put l {| content := Some v; fixed := immutable |} w.
(* dereference_mutable, then the assignment *)
Definition assign (r : ref F) (v : val F) (w : world) : option world :=
  match r with
  | RVar l =>
    match nth_error (store w) l with
    | Some {| content := Some _; fixed := false |} => Some (initialize l v false w)
    | _ => None
    end
  | _ => None
  end.
Definition print (v : val F) (w : world) : world := {| store := store w; out := out w ++ [v] |}.

(* Value::test *)
Definition test (v : val F) : bool :=
  match v with
  | VNull => false
  | VInt n => negb (n =? 0)
  | VStr s => negb (Nat.eqb (length s) 0)
  | VArr l => negb (Nat.eqb (length l) 0)
  | VFun _ => true
  end.
(* compare_partial == compare_equal, but arrays are never equal *)
Definition equal (a b : val F) : bool :=
  match a, b with
  | VNull, VNull => true
  | VInt x, VInt y => x =? y
  | VStr x, VStr y => if list_eq_dec Z.eq_dec x y then true else false
  | _, _ => false
  end.
Definition add (a b : val F) : option (val F) :=
  match a, b with
  | VInt x, VInt y => Some (VInt (x + y))
  | _, _ => None
  end.

(* sequencing *)
Definition ebind (m : world * eres) (k : ref F -> world -> world * eres) : world * eres :=
  match m with
  | (w, ERef r) => k r w
  | _ => m
  end.
Definition vbind (m : world * eres) (k : val F -> world -> world * eres) : world * eres :=
  ebind m (fun r w => match read w r with Some v => k v w | None => (w, EThr (error (str "reference"))) end).

(* What a context has: its names and its deferred expressions, the last first. *)
Record scope {D : Type} := { names : frame; defers : list D }.
Definition empty_scope {D} : @scope D := {| names := []; defers := [] |}.
Definition declare {D} (x : name) (r : ref F) (sc : @scope D) : @scope D :=
  {| names := (x, r) :: names sc; defers := defers sc |}.
Definition defer {D} (d : D) (sc : @scope D) : @scope D :=
  {| names := names sc; defers := d :: defers sc |}.
Definition sbind {D} (sc : @scope D) (m : world * eres) (k : ref F -> world -> world * @scope D * sres) : world * @scope D * sres :=
  match m with
  | (w, ERef r) => k r w
  | (w, EThr v) => (w, sc, Thr v)
  | (w, EFuel) => (w, sc, Fuel)
  | (w, EUB) => (w, sc, Bad)
  end.
Definition rbind {D} (sc : @scope D) (m : world * eres) (k : val F -> world -> world * @scope D * sres) : world * @scope D * sres :=
  sbind sc m (fun r w => match read w r with Some v => k v w | None => (w, sc, Thr (error (str "reference"))) end).

(* executive_context.cpp:92-160: the end of a scope.  An exception thrown by a
   deferred expression replaces the result. *)
Fixpoint run_defers {D} (ev : D -> world -> world * eres) (ds : list D) (w : world) (r : sres) : world * sres :=
  match ds with
  | [] => (w, r)
  | d :: ds =>
    match ev d w with
    | (w, ERef _) => run_defers ev ds w r
    | (w, EThr v) => run_defers ev ds w (Thr v)
    | (w, EFuel) => (w, Fuel)
    | (w, EUB) => (w, Bad)
    end
  end.
Definition leave {D} (ev : D -> world -> world * eres) (m : world * @scope D * sres) : world * sres :=
  match m with
  | (w, sc, Fuel) => (w, Fuel)
  | (w, sc, Bad) => (w, Bad)
  | (w, sc, r) => run_defers ev (defers sc) w r
  end.

(* executive_context.cpp:33-60: the arguments; None if there are too many *)
Fixpoint bind_args (ps : list name) (xs : list (ref F)) (f : frame) : option frame :=
  match ps, xs with
  | [], [] => Some f
  | [], _ :: _ => None
  | p :: ps, [] => bind_args ps [] ((p, RTemp VNull) :: f)
  | p :: ps, x :: xs => bind_args ps xs ((p, x) :: f)
  end.
(* instantiated_function.cpp:80-107: the result *)
Definition result (m : world * sres) : world * eres :=
  match m with
  | (w, Next) => (w, ERef RVoid)
  | (w, Ret r) => (w, ERef r)
  | (w, Break) | (w, Continue) => (w, EThr (error (str "stray")))
  | (w, Thr v) => (w, EThr v)
  | (w, Fuel) => (w, EFuel)
  | (w, Bad) => (w, EUB)
  end.
(* air_node.cpp 1080-1420: a loop goes on after `continue` *)
Definition again (m : world * sres) (next : world -> world * sres) : world * sres :=
  match m with
  | (w, Next) | (w, Continue) => next w
  | (w, Break) => (w, Next)
  | _ => m
  end.
Definition after (m : world * eres) (k : ref F -> world -> world * sres) : world * sres :=
  match m with
  | (w, ERef r) => k r w
  | (w, EThr v) => (w, Thr v)
  | (w, EFuel) => (w, Fuel)
  | (w, EUB) => (w, Bad)
  end.
Definition when (m : world * eres) (k : bool -> world -> world * sres) : world * sres :=
  after m (fun r w => match read w r with Some v => k (test v) w | None => (w, Thr (error (str "reference"))) end).
Fixpoint while_loop (n : nat) (e : world -> world * eres) (body fin : world -> world * sres) (w : world) : world * sres :=
  match n with
  | O => (w, Fuel)
  | S n => when (e w) (fun t w => if t then again (body w) (while_loop n e body fin) else fin w)
  end.
Fixpoint do_loop (n : nat) (body : world -> world * sres) (e : world -> world * eres) (fin : world -> world * sres) (w : world)
    : world * sres :=
  match n with
  | O => (w, Fuel)
  | S n => again (body w) (fun w => when (e w) (fun t w => if t then do_loop n body e fin w else fin w))
  end.
Fixpoint for_loop (n : nat) (e st : world -> world * eres) (body fin : world -> world * sres) (w : world) : world * sres :=
  match n with
  | O => (w, Fuel)
  | S n =>
    when (e w) (fun t w =>
      if t then again (body w) (fun w => after (st w) (fun _ w => for_loop n e st body fin w)) else fin w)
  end.
(* the key is a variable that is set before each round *)
Fixpoint each_loop (i : Z) (vs : list (val F)) (l : nat) (body : val F -> world -> world * sres) (fin : world -> world * sres)
    (w : world) : world * sres :=
  match vs with
  | [] => fin w
  | v :: vs => again (body v (initialize l (VInt i) true w)) (each_loop (i + 1) vs l body fin)
  end.
End World.
Arguments frame : clear implicits.
Arguments world : clear implicits.
Arguments cell : clear implicits.
Arguments eres : clear implicits.
Arguments sres : clear implicits.
Arguments scope : clear implicits.

(* Code.  The leaves are push_local_reference, push_global_reference and
   push_bound_reference; clauses have names_added.  A function has its
   parameters and code in which the names from outside are bound. *)
Inductive ifun := IFun (ps : list name) (b : code)
with leaf := LLocal (depth : nat) (x : name) | LGlobal (x : name) | LBound (r : ref ifun)
with cexpr :=
| CInt (n : Z)
| CNull
| CName (l : leaf)
| CFun (ps : list name) (b : code)
| CCall (f : cexpr) (xs : cargs)
| CList (xs : cargs)
| CSet (a b : cexpr)
| CAdd (a b : cexpr)
| CCond (c a b : cexpr)
| COut (e : cexpr)
with cargs :=
| BNil
| BCons (by_ref : bool) (e : cexpr) (xs : cargs)
with node :=
| NExpr (e : cexpr)
| NVar (immutable : bool) (x : name) (e : cexpr)
| NRef (x : name) (e : cexpr)
| NBlock (b : code)
| NIf (e : cexpr) (a b : code)
| NSwitch (e : cexpr) (l : cases)
| NWhile (e : cexpr) (b c : code)
| NDo (b : code) (e : cexpr) (c : code)
| NFor (immutable : bool) (x : name) (i e st : cexpr) (b c : code)
| NEach (k m : name) (e : cexpr) (b c : code)
| NTry (b : code) (x : name) (c : code)
| NThrow (e : cexpr)
| NReturn (by_ref : bool) (e : cexpr)
| NVoid
| NBreak
| NContinue
| NDefer (e : cexpr)
with code :=
| End
| Then (s : node) (l : code)
with cases :=
| JNil
| JCase (e : cexpr) (ns : list name) (b : code) (l : cases)
| JDefault (ns : list name) (b : code) (l : cases).

Fixpoint app (a b : code) : code :=
  match a with
  | End => b
  | Then s a => Then s (app a b)
  end.

(* expression_unit.cpp:112-160: look for the name in the analytic contexts *)
Fixpoint resolve (d : nat) (cs : list (list name)) (x : name) : leaf :=
  match cs with
  | [] => LGlobal x
  | c :: cs => if mem x c then LLocal d x else resolve (S d) cs x
  end.

(* air_node.cpp:214-304, is_terminator, and whether code.back() is one *)
Fixpoint terminates (s : node) : bool :=
  match s with
  | NThrow _ | NReturn _ _ | NVoid | NBreak | NContinue => true
  | NBlock b => back_terminates b
  | NIf _ a b => back_terminates a && back_terminates b
  | _ => false
  end
with back_terminates (l : code) : bool :=
  match l with
  | End => false
  | Then s End => terminates s
  | Then _ l => back_terminates l
  end.

(* statement.hpp:248-255 *)
Definition scopeless (s : stmt) : bool :=
  match s with
  | SVar _ _ _ | SRef _ _ | SDefer _ => false
  | _ => true
  end.
Fixpoint all_scopeless (l : stmts) : bool :=
  match l with
  | Nil => true
  | Cons s l => scopeless s && all_scopeless l
  end.
(* statement.cpp:127-141: the innermost of nested blocks.  A block inside which
   there are only blocks around scopeless statements is generated in place,
   block after block. *)
Fixpoint flat (l : stmts) : bool :=
  match l with
  | Cons (SBlock b) Nil => flat b
  | _ => all_scopeless l
  end.

(* statement.cpp:17-28, do_user_declare; names_opt is a null pointer or points
   to names *)
Definition note (x : name) (na : option (list name)) : option (list name) :=
  match na with
  | None => None
  | Some l => Some (if mem x l then l else l ++ [x])
  end.
Definition noted (na : option (list name)) : list name := match na with Some l => l | None => [] end.

(* Code generation.  [c] is the current analytic context and [cs] are the ones
   around it. *)
Fixpoint gen_e (cs : list (list name)) (e : expr) : cexpr :=
  match e with
  | EInt n => CInt n
  | ENull => CNull
  | EName x => CName (resolve 0 cs x)
  | EFun ps b => CFun ps (fst (fst (gen_l b ps cs None)))
  | ECall f xs => CCall (gen_e cs f) (gen_a cs xs)
  | EList xs => CList (gen_a cs xs)
  | ESet a b => CSet (gen_e cs a) (gen_e cs b)
  | EAdd a b => CAdd (gen_e cs a) (gen_e cs b)
  | ECond c a b => CCond (gen_e cs c) (gen_e cs a) (gen_e cs b)
  | EOut e => COut (gen_e cs e)
  end
with gen_a (cs : list (list name)) (xs : args) : cargs :=
  match xs with
  | ANil => BNil
  | ACons by_ref e xs => BCons by_ref (gen_e cs e) (gen_a cs xs)
  end
(* statement.cpp:110-640 *)
with gen_s (s : stmt) (c : list name) (cs : list (list name)) (na : option (list name))
    : code * list name * option (list name) :=
  let one s := (Then s End, c, na) in
  let block b := fst (fst (gen_l b [] (c :: cs) None)) in
  match s with
  | SExpr e => one (NExpr (gen_e (c :: cs) e))
  | SVar im x e => (Then (NVar im x (gen_e ((x :: c) :: cs) e)) End, x :: c, note x na)
  | SRef x e => (Then (NRef x (gen_e ((x :: c) :: cs) e)) End, x :: c, note x na)
  | SBlock b =>
    if flat b then (fst (fst (gen_l b c cs None)), c, na)
    else one (NBlock (block b))
  | SIf e a b => one (NIf (gen_e (c :: cs) e) (block a) (block b))
  | SSwitch e l => one (NSwitch (gen_e (c :: cs) e) (gen_k l [] c cs))
  | SWhile e b d => one (NWhile (gen_e (c :: cs) e) (block b) (block d))
  | SDo b e d => one (NDo (block b) (gen_e (c :: cs) e) (block d))
  | SFor im x i e st b d =>
    let cf := [x] in
    one (NFor im x (gen_e (cf :: c :: cs) i) (gen_e (cf :: c :: cs) e) (gen_e (cf :: c :: cs) st)
           (fst (fst (gen_l b [] (cf :: c :: cs) None))) (block d))
  | SEach k m e b d =>
    let cf := [m; k] in
    (Then (NEach k m (gen_e (cf :: c :: cs) e) (fst (fst (gen_l b [] (cf :: c :: cs) None))) (block d)) End,
     c, note m (note k na))
  | STry b x d => (Then (NTry (block b) x (fst (fst (gen_l d [x] (c :: cs) None)))) End, c, note x na)
  | SThrow e => one (NThrow (gen_e (c :: cs) e))
  | SReturn by_ref e => one (NReturn by_ref (gen_e (c :: cs) e))
  | SVoid => one NVoid
  | SBreak => one NBreak
  | SContinue => one NContinue
  | SDefer e => one (NDefer (gen_e (c :: cs) e))
  end
with gen_l (l : stmts) (c : list name) (cs : list (list name)) (na : option (list name))
    : code * list name * option (list name) :=
  match l with
  | Nil => (End, c, na)
  | Cons s l =>
    let '(k1, c, na) := gen_s s c cs na in
    if back_terminates k1 then (k1, c, na)
    else let '(k2, c, na) := gen_l l c cs na in (app k1 k2, c, na)
  end
(* statement.cpp:287-322: [cb] is the context of the body *)
with gen_k (l : clauses) (cb c : list name) (cs : list (list name)) : cases :=
  match l with
  | KNil => JNil
  | KCase e b l =>
    let '(k, cb, na) := gen_l b cb (c :: cs) (Some []) in
    JCase (gen_e (c :: cs) e) (noted na) k (gen_k l cb c cs)
  | KDefault b l =>
    let '(k, cb, na) := gen_l b cb (c :: cs) (Some []) in
    JDefault (noted na) k (gen_k l cb c cs)
  end.
(* air_optimizer.cpp:30-50 *)
Definition gen_body (ps : list name) (cs : list (list name)) (b : stmts) : code := fst (fst (gen_l b ps cs None)).

(* Rebinding.  The first [d] contexts are analytic; [fs] are the executive ones
   around them.  air_node.cpp:497-518: *)
Definition rebind_leaf (d : nat) (fs : list (frame ifun)) (l : leaf) : outcome leaf :=
  match l with
  | LLocal n x =>
    if (n <? d)%nat then Ok l
    else match nth_error fs (n - d) with
         | None => UB
         | Some f =>
           match find x f with
           | None => Ok l
           | Some RInvalid => Throw
           | Some r => Ok (LBound r)
           end
         end
  | _ => Ok l
  end.
Fixpoint rebind_e (d : nat) (fs : list (frame ifun)) (e : cexpr) : outcome cexpr :=
  match e with
  | CInt n => Ok (CInt n)
  | CNull => Ok CNull
  | CName l => do l <- rebind_leaf d fs l ; Ok (CName l)
  | CFun ps b => do b <- rebind_l (S d) fs b ; Ok (CFun ps b)
  | CCall f xs => do f <- rebind_e d fs f ; do xs <- rebind_a d fs xs ; Ok (CCall f xs)
  | CList xs => do xs <- rebind_a d fs xs ; Ok (CList xs)
  | CSet a b => do a <- rebind_e d fs a ; do b <- rebind_e d fs b ; Ok (CSet a b)
  | CAdd a b => do a <- rebind_e d fs a ; do b <- rebind_e d fs b ; Ok (CAdd a b)
  | CCond c a b => do c <- rebind_e d fs c ; do a <- rebind_e d fs a ; do b <- rebind_e d fs b ; Ok (CCond c a b)
  | COut e => do e <- rebind_e d fs e ; Ok (COut e)
  end
with rebind_a (d : nat) (fs : list (frame ifun)) (xs : cargs) : outcome cargs :=
  match xs with
  | BNil => Ok BNil
  | BCons by_ref e xs => do e <- rebind_e d fs e ; do xs <- rebind_a d fs xs ; Ok (BCons by_ref e xs)
  end
with rebind_s (d : nat) (fs : list (frame ifun)) (s : node) : outcome node :=
  match s with
  | NExpr e => do e <- rebind_e d fs e ; Ok (NExpr e)
  | NVar im x e => do e <- rebind_e d fs e ; Ok (NVar im x e)
  | NRef x e => do e <- rebind_e d fs e ; Ok (NRef x e)
  | NBlock b => do b <- rebind_l (S d) fs b ; Ok (NBlock b)
  | NIf e a b => do e <- rebind_e d fs e ; do a <- rebind_l (S d) fs a ; do b <- rebind_l (S d) fs b ; Ok (NIf e a b)
  | NSwitch e l => do e <- rebind_e d fs e ; do l <- rebind_k d fs l ; Ok (NSwitch e l)
  | NWhile e b c =>
    do e <- rebind_e d fs e ; do b <- rebind_l (S d) fs b ; do c <- rebind_l (S d) fs c ; Ok (NWhile e b c)
  | NDo b e c =>
    do b <- rebind_l (S d) fs b ; do e <- rebind_e d fs e ; do c <- rebind_l (S d) fs c ; Ok (NDo b e c)
  | NFor im x i e st b c =>
    do i <- rebind_e (S d) fs i ; do e <- rebind_e (S d) fs e ; do st <- rebind_e (S d) fs st ;
    do b <- rebind_l (S (S d)) fs b ; do c <- rebind_l (S d) fs c ; Ok (NFor im x i e st b c)
  | NEach k m e b c =>
    do e <- rebind_e (S d) fs e ; do b <- rebind_l (S (S d)) fs b ; do c <- rebind_l (S d) fs c ; Ok (NEach k m e b c)
  | NTry b x c => do b <- rebind_l (S d) fs b ; do c <- rebind_l (S d) fs c ; Ok (NTry b x c)
  | NThrow e => do e <- rebind_e d fs e ; Ok (NThrow e)
  | NReturn by_ref e => do e <- rebind_e d fs e ; Ok (NReturn by_ref e)
  | NVoid => Ok NVoid
  | NBreak => Ok NBreak
  | NContinue => Ok NContinue
  | NDefer e => do e <- rebind_e d fs e ; Ok (NDefer e)
  end
with rebind_l (d : nat) (fs : list (frame ifun)) (l : code) : outcome code :=
  match l with
  | End => Ok End
  | Then s l => do s <- rebind_s d fs s ; do l <- rebind_l d fs l ; Ok (Then s l)
  end
with rebind_k (d : nat) (fs : list (frame ifun)) (l : cases) : outcome cases :=
  match l with
  | JNil => Ok JNil
  | JCase e ns b l =>
    do e <- rebind_e d fs e ; do b <- rebind_l (S d) fs b ; do l <- rebind_k d fs l ; Ok (JCase e ns b l)
  | JDefault ns b l => do b <- rebind_l (S d) fs b ; do l <- rebind_k d fs l ; Ok (JDefault ns b l)
  end.

(* Running.  [inv] calls a function; [fuel] bounds the rounds of a loop. *)
Section Run.
Variables (glob : name -> option Z).
Variable inv : ifun -> list (ref ifun) -> world ifun -> world ifun * eres ifun.
Variable fuel : nat.
Notation W := (world ifun).
Notation R := (world ifun * eres ifun)%type.
Notation sc := (scope ifun cexpr).

(* push_local_reference air_node.cpp:1772-1826 *)
Definition get_leaf (l : leaf) (fs : list (frame ifun)) (w : W) : R :=
  match l with
  | LLocal n x =>
    match nth_error fs n with
    | None => (w, EUB)
    | Some f =>
      match find x f with
      | None => (w, EThr (error (str "undeclared")))
      | Some RInvalid => (w, EThr (error (str "bypassed")))
      | Some r => (w, ERef r)
      end
    end
  | LGlobal x =>
    match glob x with
    | Some n => (w, ERef (RTemp (VInt n)))
    | None => (w, EThr (error (str "undeclared")))
    end
  | LBound r => (w, ERef r)
  end.

Fixpoint eval (e : cexpr) (fs : list (frame ifun)) (w : W) : R :=
  match e with
  | CInt n => (w, ERef (RTemp (VInt n)))
  | CNull => (w, ERef (RTemp VNull))
  | CName l => get_leaf l fs w
  (* define_function air_node.cpp:1869-1920 *)
  | CFun ps b =>
    match rebind_l 1 fs b with
    | Ok b => (w, ERef (RTemp (VFun (IFun ps b))))
    | Throw => (w, EThr (error (str "bypassed")))
    | UB => (w, EUB)
    end
  | CCall f xs =>
    ebind (eval f fs w) (fun r w =>
    evals xs fs w (fun xs w =>
      match read w r with
      | Some (VFun f) => inv f xs w
      | _ => (w, EThr (error (str "function")))
      end))
  | CList xs =>
    evals xs fs w (fun xs w =>
      match all_some (map (read w) xs) with
      | Some vs => (w, ERef (RTemp (VArr vs)))
      | None => (w, EThr (error (str "reference")))
      end)
  | CSet a b =>
    ebind (eval a fs w) (fun r w =>
    vbind (eval b fs w) (fun v w =>
      match assign r v w with
      | Some w => (w, ERef r)
      | None => (w, EThr (error (str "assignment")))
      end))
  | CAdd a b =>
    ebind (eval a fs w) (fun r w =>
    vbind (eval b fs w) (fun v w =>
      match read w r with
      | Some u => match add u v with Some s => (w, ERef (RTemp s)) | None => (w, EThr (error (str "operands"))) end
      | None => (w, EThr (error (str "reference")))
      end))
  | CCond c a b =>
    vbind (eval c fs w) (fun v w => if test v then eval a fs w else eval b fs w)
  | COut e => vbind (eval e fs w) (fun v w => (print v w, ERef (RTemp VNull)))
  end
(* check_argument after each argument *)
with evals (xs : cargs) (fs : list (frame ifun)) (w : W) (k : list (ref ifun) -> W -> R) : R :=
  match xs with
  | BNil => k [] w
  | BCons by_ref e xs =>
    ebind (eval e fs w) (fun r w =>
      match read w r with
      | Some v => evals xs fs w (fun rs w => k ((if by_ref : bool then r else RTemp v) :: rs) w)
      | None => (w, EThr (error (str "reference")))
      end)
  end.

(* a deferred expression runs in the context that it was added to *)
Definition end_scope (fs : list (frame ifun)) (m : W * sc * sres ifun) : W * sres ifun :=
  leave (fun d w => eval d (names (snd (fst m)) :: fs) w) m.

(* the value of the label that is found is not needed afterwards *)
Fixpoint find_clause (v : val ifun) (l : cases) (fs : list (frame ifun)) (w : W) (k : nat) (t : option nat)
    (cont : option nat -> W -> W * sc * sres ifun) (s : sc) : W * sc * sres ifun :=
  match l with
  | JNil => cont t w
  | JDefault _ _ l => find_clause v l fs w (S k) (Some k) cont s
  | JCase e _ _ l =>
    rbind s (eval e fs w) (fun u w =>
      if equal v u then cont (Some k) w else find_clause v l fs w (S k) t cont s)
  end.
Definition bypass (ns : list name) (s : sc) : sc := fold_left (fun s x => declare x RInvalid s) ns s.

Definition same (s : sc) (m : W * sres ifun) : W * sc * sres ifun := (fst m, s, snd m).
Definition breakable (m : W * sres ifun) : W * sres ifun := match m with (w, Break) => (w, Next) | _ => m end.

(* [fs] are the contexts around the one that the statement runs in *)
Fixpoint exec (c : node) (s : sc) (fs : list (frame ifun)) (w : W) : W * sc * sres ifun :=
  let here := names s :: fs in
  let block b w := end_scope here (execs b empty_scope here w) in
  match c with
  | NExpr e => sbind s (eval e here w) (fun _ w => (w, s, Next))
  | NVar im x e =>
    let (w, l) := create w in
    let s := declare x (RVar l) s in
    rbind s (eval e (names s :: fs) w) (fun v w => (initialize l v im w, s, Next))
  | NRef x e =>
    let s := declare x RInvalid s in
    sbind s (eval e (names s :: fs) w) (fun r w => (w, declare x r s, Next))
  | NBlock b => same s (block b w)
  | NIf e a b => rbind s (eval e here w) (fun v w => same s (if test v then block a w else block b w))
  | NSwitch e l =>
    rbind s (eval e here w) (fun v w =>
    find_clause v l here w 0%nat None (fun t w =>
      match t with
      | None => (w, s, Next)
      | Some t => same s (breakable (end_scope here (jump l t empty_scope here w)))
      end) s)
  | NWhile e b d => same s (while_loop fuel (eval e here) (block b) (block d) w)
  | NDo b e d => same s (do_loop fuel (block b) (eval e here) (block d) w)
  | NFor im x i e st b d =>
    let (w, l) := create w in
    let inside := [(x, RVar l)] :: here in
    rbind s (eval i inside w) (fun v w =>
      same s (for_loop fuel (eval e inside) (eval st inside)
                (fun w => end_scope inside (execs b empty_scope inside w)) (block d) (initialize l v im w)))
  | NEach k m e b d =>
    sbind s (eval e ([(m, RInvalid); (k, RInvalid)] :: here) w) (fun r w =>
      match read w r with
      | None => (w, s, Thr (error (str "reference")))
      | Some VNull => (w, s, Next)
      | Some (VArr []) => same s (block d w)
      | Some (VArr vs) =>
        if k =? m then
          (* there is one reference, and unphase_variable_opt finds the variable
             of the range; then an element of the key is wanted *)
          (match r with RVar l => initialize l (VInt 0) true w | _ => w end, s, Thr (error (str "subscript")))
        else
          let (w, l) := create w in
          same s (each_loop 0 vs l
                    (fun v w => let inside := [(m, RTemp v); (k, RVar l)] :: here in
                                end_scope inside (execs b empty_scope inside w))
                    (block d) w)
      | Some _ => (w, s, Thr (error (str "range")))
      end)
  | NTry b x d =>
    same s (match block b w with
            | (w, Thr v) => end_scope here (execs d (declare x (RTemp v) empty_scope) here w)
            | m => m
            end)
  | NThrow e => rbind s (eval e here w) (fun v w => (w, s, Thr v))
  | NReturn by_ref e =>
    sbind s (eval e here w) (fun r w =>
      match r with
      | RVoid => (w, s, Ret RVoid)
      | _ =>
        match read w r with
        | Some v => (w, s, Ret (if by_ref : bool then r else RTemp v))
        | None => (w, s, Thr (error (str "reference")))
        end
      end)
  | NVoid => (w, s, Ret RVoid)
  | NBreak => (w, s, Break)
  | NContinue => (w, s, Continue)
  (* defer_expression air_node.cpp:4412-4443 *)
  | NDefer e =>
    match rebind_e 0 here e with
    | Ok e => (w, defer e s, Next)
    | Throw => (w, s, Thr (error (str "bypassed")))
    | UB => (w, s, Bad)
    end
  end
with execs (l : code) (s : sc) (fs : list (frame ifun)) (w : W) : W * sc * sres ifun :=
  match l with
  | End => (w, s, Next)
  | Then c l =>
    match exec c s fs w with
    | (w, s, Next) => execs l s fs w
    | m => m
    end
  end
(* air_node.cpp:1049-1066: the clauses from the one found *)
with jump (l : cases) (t : nat) (s : sc) (fs : list (frame ifun)) (w : W) : W * sc * sres ifun :=
  match l with
  | JNil => (w, s, Next)
  | JCase _ ns b l | JDefault ns b l =>
    match t with
    | S t => jump l t (bypass ns s) fs w
    | O =>
      match execs b s fs w with
      | (w, s, Next) => jump l 0 s fs w
      | m => m
      end
    end
  end.
End Run.

(* instantiated_function.cpp:55-107 *)
Fixpoint invoke (glob : name -> option Z) (n : nat) (f : ifun) (xs : list (ref ifun)) (w : world ifun)
    : world ifun * eres ifun :=
  match n with
  | O => (w, EFuel)
  | S n =>
    let 'IFun ps b := f in
    match bind_args ps xs [] with
    | None => (w, EThr (error (str "arguments")))
    | Some f =>
      result (end_scope glob (invoke glob n) []
                (execs glob (invoke glob n) n b {| names := f; defers := [] |} [] w))
    end
  end.

(* A whole program: the code is generated without a context around it. *)
Definition run (glob : name -> option Z) (n : nat) (b : stmts) : world ifun * eres ifun :=
  invoke glob n (IFun [] (gen_body [] [] b)) [] {| store := []; out := [] |}.
