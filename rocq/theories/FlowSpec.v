(* What statements mean, without statuses, stacks or generated code.

   A list of statements runs to an outcome: it reaches its end, leaves through
   `break` or `continue` (with the kind of statement that is meant), returns,
   or throws.  A scope runs its statements, then the expressions they deferred,
   the latest first; an exception from one of these takes the place of the
   outcome. *)
From Verif Require Import Base FlowModel.

Section Spec.

Context {W E R V X A F It : Type}.
Notation ops := (@ops W E R V X A F It).
Notation expr := (@expr W E R X A F).
Notation stmt := (@stmt W E R X A F It).
Notation label := (@label W E R X A F).
Notation result := (@result R).

Variable o : ops.
Variable body : F -> list stmt.

Inductive out : Type :=
  | ONext
  | OBreak (t : target)
  | OContinue (t : target)
  | OReturn (r : result)
  | OThrow (x : X).

(* Does a statement of kind [k] (TSwitch, TWhile or TFor) end a `break t`? *)
Definition meant (k t : target) : Prop := t = TNone \/ t = k.

(* Reading the value of a result. *)
Definition read (w : W) (r : result) : V + X :=
  match r with
  | Void => inr (void_used o)
  | Val r => value o w r
  end.

(* What a function does when its body has been executed. *)
Definition finish (r : out) : result + X :=
  match r with
  | ONext => inl Void
  | OReturn r => inl r
  | OThrow x => inr x
  | OBreak _ | OContinue _ => inr (stray o)
  end.

(* `return e` when [e] gave [r] *)
Definition returned (by_ref : bool) (w : W) (r : result) : out :=
  match r with
  | Void => OReturn Void
  | Val r =>
      match value o w r with
      | inl v => OReturn (Val (if by_ref then r else temp o v))
      | inr x => OThrow x
      end
  end.

(* The interval of an `each` label. *)
Definition within (lc uc : bool) (lo up : cmp) : Prop :=
  (lo = cmp_greater \/ (lc = true /\ lo = cmp_equal))
  /\ (up = cmp_less \/ (uc = true /\ up = cmp_equal)).

(* How a loop of kind [k] goes on after its body. *)
Inductive goes_on (k : target) : out -> Prop :=
  | go_next : goes_on k ONext
  | go_continue t : meant k t -> goes_on k (OContinue t).
(* The outcome of a loop or a switch of kind [k] that is left from its body. *)
Inductive leaves (k : target) : out -> out -> Prop :=
  | leave_break t : meant k t -> leaves k (OBreak t) ONext
  | leave_other_break t : ~ meant k t -> leaves k (OBreak t) (OBreak t)
  | leave_other_continue t : ~ meant k t -> leaves k (OContinue t) (OContinue t)
  | leave_return r : leaves k (OReturn r) (OReturn r)
  | leave_throw x : leaves k (OThrow x) (OThrow x).
(* A switch also ends at its end, and lets every `continue` through. *)
Inductive leaves_switch : out -> out -> Prop :=
  | ls_next : leaves_switch ONext ONext
  | ls_break t : meant TSwitch t -> leaves_switch (OBreak t) ONext
  | ls_other_break t : ~ meant TSwitch t -> leaves_switch (OBreak t) (OBreak t)
  | ls_continue t : leaves_switch (OContinue t) (OContinue t)
  | ls_return r : leaves_switch (OReturn r) (OReturn r)
  | ls_throw x : leaves_switch (OThrow x) (OThrow x).

Definition clause_ : Type := (label * (E -> E) * list stmt)%type.

(* The names at the beginning of clause [k], and what is executed from there. *)
Definition skipped (k : nat) (cl : list clause_) (e : E) : E :=
  fold_left (fun e '(_, skip, _) => skip e) (firstn k cl) e.
Definition from (k : nat) (cl : list clause_) : list (list stmt) := map snd (skipn k cl).

(* An expression that fails: the outcome of a statement that evaluates it. *)
Inductive eval : E -> expr -> W -> W -> result + X -> Prop :=
  | ev_step e a w w' r : a e w = (w', inl r) -> eval e (EStep a) w w' (inl (Val r))
  | ev_step_throw e a w w' x : a e w = (w', inr x) -> eval e (EStep a) w w' (inr x)
  | ev_call e p w w1 w2 f a r :
      p e w = (w1, inl (f, a)) -> call f a w1 w2 r -> eval e (ECall p) w w2 r
  | ev_call_throw e p w w1 x : p e w = (w1, inr x) -> eval e (ECall p) w w1 (inr x)
  | ev_then e e1 k w w1 w2 r1 r :
      eval e e1 w w1 (inl r1) -> eval e (k r1) w1 w2 r -> eval e (EThen e1 k) w w2 r
  | ev_then_throw e e1 k w w1 x :
      eval e e1 w w1 (inr x) -> eval e (EThen e1 k) w w1 (inr x)
  | ev_catch_none e e1 k w w1 w2 r1 r :
      eval e e1 w w1 (inl r1) -> eval e (k None) w1 w2 r -> eval e (ECatch e1 k) w w2 r
  | ev_catch_some e e1 k w w1 w2 x r :
      eval e e1 w w1 (inr x) -> eval e (k (Some x)) w1 w2 r -> eval e (ECatch e1 k) w w2 r

with call : F -> A -> W -> W -> result + X -> Prop :=
  | call_throw f a w w1 x : binds o f a w = (w1, inr x) -> call f a w w1 (inr x)
  | call_body f a w w1 w2 e r :
      binds o f a w = (w1, inl e) -> scope e (body f) w1 w2 r -> call f a w w2 (finish r)

(* [scope e l w w' r]: the statements [l] in a scope of their own *)
with scope : E -> list stmt -> W -> W -> out -> Prop :=
  | sc e l w w1 w2 e' ds r r' :
      stmts e [] l w e' ds w1 r -> unwind ds r w1 w2 r' -> scope e l w w2 r'

(* [unwind ds r w w' r']: the deferred expressions [ds], the latest first *)
with unwind : list (E * expr) -> out -> W -> W -> out -> Prop :=
  | un_nil r w : unwind [] r w w r
  | un_ok e x ds r w w1 w2 r1 r' :
      eval e x w w1 (inl r1) -> unwind ds r w1 w2 r' -> unwind ((e, x) :: ds) r w w2 r'
  | un_throw e x ds r w w1 w2 y r' :
      eval e x w w1 (inr y) -> unwind ds (OThrow y) w1 w2 r' -> unwind ((e, x) :: ds) r w w2 r'

(* [stmts e ds l w e' ds' w' r]: [e] and [ds] are the names and the deferred
   expressions of the scope before, [e'] and [ds'] after *)
with stmts : E -> list (E * expr) -> list stmt -> W ->
             E -> list (E * expr) -> W -> out -> Prop :=
  | ss_nil e ds w : stmts e ds [] w e ds w ONext
  | ss_next e ds s l w e1 ds1 w1 e2 ds2 w2 r :
      stmt_ e ds s w e1 ds1 w1 ONext -> stmts e1 ds1 l w1 e2 ds2 w2 r ->
      stmts e ds (s :: l) w e2 ds2 w2 r
  | ss_stop e ds s l w e1 ds1 w1 r :
      stmt_ e ds s w e1 ds1 w1 r -> r <> ONext -> stmts e ds (s :: l) w e1 ds1 w1 r

with stmt_ : E -> list (E * expr) -> stmt -> W ->
             E -> list (E * expr) -> W -> out -> Prop :=
  | st_expr e ds x w w1 r :
      eval e x w w1 (inl r) -> stmt_ e ds (SExpr x) w e ds w1 ONext
  | st_expr_throw e ds x w w1 y :
      eval e x w w1 (inr y) -> stmt_ e ds (SExpr x) w e ds w1 (OThrow y)
  | st_block e ds l w w1 r : scope e l w w1 r -> stmt_ e ds (SBlock l) w e ds w1 r
  | st_decl e ds d w w1 e1 :
      d e w = (w1, e1) -> stmt_ e ds (SDecl d None) w e1 ds w1 ONext
  | st_decl_init e ds d x i w w1 w2 w3 e1 e2 r :
      d e w = (w1, e1) -> eval e1 x w1 w2 (inl r) -> i r e1 w2 = (w3, inl e2) ->
      stmt_ e ds (SDecl d (Some (x, i))) w e2 ds w3 ONext
  | st_decl_init_throw e ds d x i w w1 w2 w3 e1 r y :
      d e w = (w1, e1) -> eval e1 x w1 w2 (inl r) -> i r e1 w2 = (w3, inr y) ->
      stmt_ e ds (SDecl d (Some (x, i))) w e1 ds w3 (OThrow y)
  | st_decl_throw e ds d x i w w1 w2 e1 y :
      d e w = (w1, e1) -> eval e1 x w1 w2 (inr y) ->
      stmt_ e ds (SDecl d (Some (x, i))) w e1 ds w2 (OThrow y)
  | st_if e ds neg x t f w w1 w2 v r :
      cond e x w w1 (inl v) -> scope e (if xorb (test o v) neg then t else f) w1 w2 r ->
      stmt_ e ds (SIf neg x t f) w e ds w2 r
  | st_if_throw e ds neg x t f w w1 y :
      cond e x w w1 (inr y) -> stmt_ e ds (SIf neg x t f) w e ds w1 (OThrow y)
  | st_switch e ds x cl w w1 w2 w3 w4 v k e' ds' r r' r'' :
      cond e x w w1 (inl v) -> find e v 0 None cl w1 w2 (inl (Some k)) ->
      fall (skipped k cl e) [] (from k cl) w2 e' ds' w3 r -> leaves_switch r r' ->
      unwind ds' r' w3 w4 r'' ->
      stmt_ e ds (SSwitch x cl) w e ds w4 r''
  | st_switch_none e ds x cl w w1 w2 v :
      cond e x w w1 (inl v) -> find e v 0 None cl w1 w2 (inl None) ->
      stmt_ e ds (SSwitch x cl) w e ds w2 ONext
  | st_switch_label e ds x cl w w1 w2 v y :
      cond e x w w1 (inl v) -> find e v 0 None cl w1 w2 (inr y) ->
      stmt_ e ds (SSwitch x cl) w e ds w2 (OThrow y)
  | st_switch_throw e ds x cl w w1 y :
      cond e x w w1 (inr y) -> stmt_ e ds (SSwitch x cl) w e ds w1 (OThrow y)
  | st_do_leave e ds b neg x c w w1 r r' :
      scope e b w w1 r -> leaves TWhile r r' -> stmt_ e ds (SDoWhile b neg x c) w e ds w1 r'
  | st_do_throw e ds b neg x c w w1 w2 r y :
      scope e b w w1 r -> goes_on TWhile r -> cond e x w1 w2 (inr y) ->
      stmt_ e ds (SDoWhile b neg x c) w e ds w2 (OThrow y)
  | st_do_end e ds b neg x c w w1 w2 w3 v r r' :
      scope e b w w1 r -> goes_on TWhile r -> cond e x w1 w2 (inl v) -> test o v = neg ->
      scope e c w2 w3 r' -> stmt_ e ds (SDoWhile b neg x c) w e ds w3 r'
  | st_do_again e ds b neg x c w w1 w2 w3 v r r' :
      scope e b w w1 r -> goes_on TWhile r -> cond e x w1 w2 (inl v) -> test o v <> neg ->
      stmt_ e ds (SDoWhile b neg x c) w2 e ds w3 r' ->
      stmt_ e ds (SDoWhile b neg x c) w e ds w3 r'
  | st_while_throw e ds neg x b c w w1 y :
      cond e x w w1 (inr y) -> stmt_ e ds (SWhile neg x b c) w e ds w1 (OThrow y)
  | st_while_end e ds neg x b c w w1 w2 v r :
      cond e x w w1 (inl v) -> test o v = neg -> scope e c w1 w2 r ->
      stmt_ e ds (SWhile neg x b c) w e ds w2 r
  | st_while_leave e ds neg x b c w w1 w2 v r r' :
      cond e x w w1 (inl v) -> test o v <> neg -> scope e b w1 w2 r -> leaves TWhile r r' ->
      stmt_ e ds (SWhile neg x b c) w e ds w2 r'
  | st_while_again e ds neg x b c w w1 w2 w3 v r r' :
      cond e x w w1 (inl v) -> test o v <> neg -> scope e b w1 w2 r -> goes_on TWhile r ->
      stmt_ e ds (SWhile neg x b c) w2 e ds w3 r' ->
      stmt_ e ds (SWhile neg x b c) w e ds w3 r'
  | st_each_throw e ds nm x set item b c w w1 y :
      eval (nm e) x w w1 (inr y) -> stmt_ e ds (SForEach nm x set item b c) w e ds w1 (OThrow y)
  | st_each_read e ds nm x set item b c w w1 r y :
      eval (nm e) x w w1 (inl r) -> read w1 r = inr y ->
      stmt_ e ds (SForEach nm x set item b c) w e ds w1 (OThrow y)
  | st_each_range e ds nm x set item b c w w1 r v y :
      eval (nm e) x w w1 (inl (Val r)) -> value o w1 r = inl v -> range o v = inr y ->
      stmt_ e ds (SForEach nm x set item b c) w e ds w1 (OThrow y)
  | st_each_null e ds nm x set item b c w w1 r v :
      eval (nm e) x w w1 (inl (Val r)) -> value o w1 r = inl v -> range o v = inl None ->
      stmt_ e ds (SForEach nm x set item b c) w e ds w1 ONext
  | st_each e ds nm x set item b c w w1 w2 r v l r' :
      eval (nm e) x w w1 (inl (Val r)) -> value o w1 r = inl v -> range o v = inl (Some l) ->
      each l item b c e (set r (nm e)) w1 w2 r' ->
      stmt_ e ds (SForEach nm x set item b c) w e ds w2 r'
  | st_for e ds i cn sp b c w w1 w2 e1 r :
      stmts e [] i w e1 [] w1 ONext -> loop cn sp b c e e1 w1 w2 r ->
      stmt_ e ds (SFor i cn sp b c) w e ds w2 r
  | st_for_throw e ds i cn sp b c w w1 e1 y :
      stmts e [] i w e1 [] w1 (OThrow y) ->
      stmt_ e ds (SFor i cn sp b c) w e ds w1 (OThrow y)
  | st_try e ds t caught c w w1 r :
      scope e t w w1 r -> (forall x, r <> OThrow x) ->
      stmt_ e ds (STry t caught c) w e ds w1 r
  | st_try_catch e ds t caught c w w1 w2 w3 x e1 r :
      scope e t w w1 (OThrow x) -> caught x e w1 = (w2, e1) -> scope e1 c w2 w3 r ->
      stmt_ e ds (STry t caught c) w e ds w3 r
  | st_break_ e ds t w : stmt_ e ds (SBreak t) w e ds w (OBreak t)
  | st_continue_ e ds t w : stmt_ e ds (SContinue t) w e ds w (OContinue t)
  | st_throw e ds x w w1 v :
      cond e x w w1 (inl v) -> stmt_ e ds (SThrow x) w e ds w1 (OThrow (throwing o v))
  | st_throw_throw e ds x w w1 y :
      cond e x w w1 (inr y) -> stmt_ e ds (SThrow x) w e ds w1 (OThrow y)
  | st_return_void_ e ds by_ref w :
      stmt_ e ds (SReturn by_ref None) w e ds w (OReturn Void)
  | st_return_ e ds by_ref x w w1 r :
      eval e x w w1 (inl r) ->
      stmt_ e ds (SReturn by_ref (Some x)) w e ds w1 (returned by_ref w1 r)
  | st_return_throw e ds by_ref x w w1 y :
      eval e x w w1 (inr y) -> stmt_ e ds (SReturn by_ref (Some x)) w e ds w1 (OThrow y)
  | st_assert e ds x y w w1 v :
      cond e x w w1 (inl v) ->
      stmt_ e ds (SAssert x y) w e ds w1 (if test o v then ONext else OThrow y)
  | st_assert_throw e ds x y w w1 z :
      cond e x w w1 (inr z) -> stmt_ e ds (SAssert x y) w e ds w1 (OThrow z)
  | st_defer e ds x w : stmt_ e ds (SDefer x) w e ((e, x) :: ds) w ONext

(* an expression whose value is used *)
with cond : E -> expr -> W -> W -> V + X -> Prop :=
  | co_ok e x w w1 r : eval e x w w1 (inl r) -> cond e x w w1 (read w1 r)
  | co_throw e x w w1 y : eval e x w w1 (inr y) -> cond e x w w1 (inr y)

(* [find e v k d cl w w' r]: which clause of a switch is executed; [k] is the
   number of the first clause of [cl], [d] the default clause seen so far *)
with find : E -> V -> nat -> option nat -> list clause_ -> W -> W -> option nat + X -> Prop :=
  | fi_nil e v k d w : find e v k d [] w w (inl d)
  | fi_default e v k d skip b cl w w1 r :
      find e v (S k) (Some k) cl w w1 r -> find e v k d ((LDefault, skip, b) :: cl) w w1 r
  | fi_case e v k d x skip b cl w w1 a :
      cond e x w w1 (inl a) -> compare o v a = cmp_equal ->
      find e v k d ((LCase x, skip, b) :: cl) w w1 (inl (Some k))
  | fi_case_no e v k d x skip b cl w w1 w2 a r :
      cond e x w w1 (inl a) -> compare o v a <> cmp_equal ->
      find e v (S k) d cl w1 w2 r -> find e v k d ((LCase x, skip, b) :: cl) w w2 r
  | fi_case_throw e v k d x skip b cl w w1 y :
      cond e x w w1 (inr y) -> find e v k d ((LCase x, skip, b) :: cl) w w1 (inr y)
  | fi_each e v k d lc uc x y skip b cl w w1 w2 rx ry lo up :
      eval e x w w1 (inl rx) -> eval e y w1 w2 (inl ry) ->
      read w2 rx = inl lo -> read w2 ry = inl up ->
      within lc uc (compare o v lo) (compare o v up) ->
      find e v k d ((LEach lc uc x y, skip, b) :: cl) w w2 (inl (Some k))
  | fi_each_no e v k d lc uc x y skip b cl w w1 w2 w3 rx ry lo up r :
      eval e x w w1 (inl rx) -> eval e y w1 w2 (inl ry) ->
      read w2 rx = inl lo -> read w2 ry = inl up ->
      ~ within lc uc (compare o v lo) (compare o v up) ->
      find e v (S k) d cl w2 w3 r ->
      find e v k d ((LEach lc uc x y, skip, b) :: cl) w w3 r
  | fi_each_throw1 e v k d lc uc x y skip b cl w w1 z :
      eval e x w w1 (inr z) -> find e v k d ((LEach lc uc x y, skip, b) :: cl) w w1 (inr z)
  | fi_each_throw2 e v k d lc uc x y skip b cl w w1 w2 rx z :
      eval e x w w1 (inl rx) -> eval e y w1 w2 (inr z) ->
      find e v k d ((LEach lc uc x y, skip, b) :: cl) w w2 (inr z)
  | fi_each_read1 e v k d lc uc x y skip b cl w w1 w2 rx ry z :
      eval e x w w1 (inl rx) -> eval e y w1 w2 (inl ry) -> read w2 rx = inr z ->
      find e v k d ((LEach lc uc x y, skip, b) :: cl) w w2 (inr z)
  | fi_each_read2 e v k d lc uc x y skip b cl w w1 w2 rx ry lo z :
      eval e x w w1 (inl rx) -> eval e y w1 w2 (inl ry) ->
      read w2 rx = inl lo -> read w2 ry = inr z ->
      find e v k d ((LEach lc uc x y, skip, b) :: cl) w w2 (inr z)

(* [fall e ds bs w e' ds' w' r]: the bodies [bs] of the clauses, one after the
   other, in one scope *)
with fall : E -> list (E * expr) -> list (list stmt) -> W ->
            E -> list (E * expr) -> W -> out -> Prop :=
  | fa_nil e ds w : fall e ds [] w e ds w ONext
  | fa_next e ds b bs w e1 ds1 w1 e2 ds2 w2 r :
      stmts e ds b w e1 ds1 w1 ONext -> fall e1 ds1 bs w1 e2 ds2 w2 r ->
      fall e ds (b :: bs) w e2 ds2 w2 r
  | fa_stop e ds b bs w e1 ds1 w1 r :
      stmts e ds b w e1 ds1 w1 r -> r <> ONext -> fall e ds (b :: bs) w e1 ds1 w1 r

(* [each l item b c e0 e w w' r]: the elements [l] that are left; [e0] is
   outside the loop, [e] has the key and the element *)
with each : list It -> (It -> E -> W -> W * (E + X)) -> list stmt -> list stmt ->
            E -> E -> W -> W -> out -> Prop :=
  | ea_end item b c e0 e w w1 r :
      scope e0 c w w1 r -> each [] item b c e0 e w w1 r
  | ea_throw x l item b c e0 e w w1 y :
      item x e w = (w1, inr y) -> each (x :: l) item b c e0 e w w1 (OThrow y)
  | ea_leave x l item b c e0 e w w1 w2 e1 r r' :
      item x e w = (w1, inl e1) -> scope e1 b w1 w2 r -> leaves TFor r r' ->
      each (x :: l) item b c e0 e w w2 r'
  | ea_again x l item b c e0 e w w1 w2 w3 e1 r r' :
      item x e w = (w1, inl e1) -> scope e1 b w1 w2 r -> goes_on TFor r ->
      each l item b c e0 e1 w2 w3 r' -> each (x :: l) item b c e0 e w w3 r'

(* [loop cn sp b c e0 e w w' r]: the loop `for(; cn; sp) b`, whose variables
   are in [e] *)
with loop : option expr -> option expr -> list stmt -> list stmt ->
            E -> E -> W -> W -> out -> Prop :=
  | lo_throw x sp b c e0 e w w1 y :
      cond e x w w1 (inr y) -> loop (Some x) sp b c e0 e w w1 (OThrow y)
  | lo_end x sp b c e0 e w w1 w2 v r :
      cond e x w w1 (inl v) -> test o v = false -> scope e0 c w1 w2 r ->
      loop (Some x) sp b c e0 e w w2 r
  | lo_leave cn sp b c e0 e w w1 w2 r r' :
      holds cn e w w1 -> scope e b w1 w2 r -> leaves TFor r r' -> loop cn sp b c e0 e w w2 r'
  | lo_step cn x b c e0 e w w1 w2 w3 r y :
      holds cn e w w1 -> scope e b w1 w2 r -> goes_on TFor r -> eval e x w2 w3 (inr y) ->
      loop cn (Some x) b c e0 e w w3 (OThrow y)
  | lo_again cn sp b c e0 e w w1 w2 w3 w4 r r' :
      holds cn e w w1 -> scope e b w1 w2 r -> goes_on TFor r -> steps sp e w2 w3 ->
      loop cn sp b c e0 e w3 w4 r' -> loop cn sp b c e0 e w w4 r'

(* no condition always holds *)
with holds : option expr -> E -> W -> W -> Prop :=
  | ho_none e w : holds None e w w
  | ho_some e x w w1 v : cond e x w w1 (inl v) -> test o v = true -> holds (Some x) e w w1

with steps : option expr -> E -> W -> W -> Prop :=
  | sp_none e w : steps None e w w
  | sp_some e x w w1 r : eval e x w w1 (inl r) -> steps (Some x) e w w1.

(* ---- programs whose tail calls are harmless ---- *)

(* Every tail call is made in the same way [md]: all of them return a value, or
   all of them are statements before the end of the function.  [q] says what
   follows the statement. *)
Definition may_call (e : expr) : bool := match e with EStep _ => false | _ => true end.
Definition mode_eqb (a b : ptc_aware) : bool :=
  match a, b with
  | ptc_none, ptc_none | ptc_by_ref, ptc_by_ref
  | ptc_by_val, ptc_by_val | ptc_void, ptc_void => true
  | _, _ => false
  end.

Section UList.
  Variable u : ptc_aware -> stmt -> bool.
  Fixpoint uni_list (q : ptc_aware) (l : list stmt) : bool :=
    match l with
    | [] => true
    | s :: r =>
        u (match r with
           | [] => q
           | s' :: _ => if is_empty_return s' then ptc_void else ptc_none
           end) s
        && uni_list q r
    end.
End UList.

Fixpoint uniform (md q : ptc_aware) (s : stmt) : bool :=
  match s with
  | SExpr e => mode_eqb q ptc_none || negb (may_call e) || mode_eqb q md
  | SReturn by_ref (Some e) =>
      negb (may_call e) || mode_eqb (if by_ref then ptc_by_ref else ptc_by_val) md
  | SBlock l => uni_list (uniform md) q l
  | SIf _ _ t f => uni_list (uniform md) q t && uni_list (uniform md) q f
  | SSwitch _ cl => forallb (fun '(_, b) => uni_list (uniform md) ptc_none b) cl
  | SDoWhile b _ _ c | SWhile _ _ b c | SForEach _ _ _ _ b c | STry b _ c =>
      uni_list (uniform md) ptc_none b && uni_list (uniform md) q c
  | SFor i _ _ b c =>
      uni_list (uniform md) ptc_none i && uni_list (uniform md) ptc_none b
      && uni_list (uniform md) q c
  | _ => true
  end.

Definition is_defer (s : stmt) : bool := match s with SDefer _ => true | _ => false end.
(* There is a scope inside [s] which defers expressions and which a tail call
   can leave; a `try` block completes the tail calls in it. *)
Fixpoint inner (s : stmt) : bool :=
  let has l := existsb is_defer l || existsb inner l in
  match s with
  | SBlock l => has l
  | SIf _ _ t f => has t || has f
  | SSwitch _ cl => existsb (fun '(_, b) => has b) cl
  | SDoWhile b _ _ c | SWhile _ _ b c | SForEach _ _ _ _ b c | SFor _ _ _ b c => has b || has c
  | STry _ _ c => has c
  | _ => false
  end.
(* No scope that defers expressions is inside another one. *)
Fixpoint nest (s : stmt) : bool :=
  let one l := negb (existsb is_defer l && existsb inner l) && forallb nest l in
  match s with
  | SBlock l => one l
  | SIf _ _ t f => one t && one f
  | SSwitch _ cl =>
      negb (existsb (fun '(_, b) => existsb is_defer b) cl
            && existsb (fun '(_, b) => existsb inner b) cl)
      && forallb (fun '(_, b) => forallb nest b) cl
  | SDoWhile b _ _ c | SWhile _ _ b c | SForEach _ _ _ _ b c | SFor _ _ _ b c | STry b _ c =>
      one b && one c
  | _ => true
  end.

Definition harmless (md : ptc_aware) (l : list stmt) : bool :=
  uni_list (uniform md) ptc_void (l ++ [SReturn true None])
  && negb (existsb is_defer l && existsb inner l) && forallb nest l.

(* ---- deferred expressions ---- *)

(* [evaluated ds w w' xs]: the expressions [ds] are evaluated once each, in
   this order; [xs] are the exceptions that they throw *)
Inductive evaluated : list (E * expr) -> W -> W -> list X -> Prop :=
  | each_nil w : evaluated [] w w []
  | each_ok e x ds w w1 w2 r xs :
      eval e x w w1 (inl r) -> evaluated ds w1 w2 xs -> evaluated ((e, x) :: ds) w w2 xs
  | each_throw e x ds w w1 w2 y xs :
      eval e x w w1 (inr y) -> evaluated ds w1 w2 xs -> evaluated ((e, x) :: ds) w w2 (y :: xs).

(* ---- programs whose calls are all tail calls ---- *)

(* no calls at all *)
Inductive quiet : expr -> Prop :=
  | quiet_step a : quiet (EStep a)
  | quiet_then e k : quiet e -> (forall r, quiet (k r)) -> quiet (EThen e k)
  | quiet_catch e k : quiet e -> (forall x, quiet (k x)) -> quiet (ECatch e k).
(* no call but one at the end *)
Inductive last_call : expr -> Prop :=
  | last_quiet e : quiet e -> last_call e
  | last_call_ p : last_call (ECall p)
  | last_then e k : quiet e -> (forall r, last_call (k r)) -> last_call (EThen e k)
  | last_catch e k : quiet e -> (forall x, last_call (k x)) -> last_call (ECatch e k).

Section TList.
  Variable u : ptc_aware -> stmt -> Prop.
  Fixpoint tails_list (q : ptc_aware) (l : list stmt) : Prop :=
    match l with
    | [] => True
    | s :: r =>
        u (match r with
           | [] => q
           | s' :: _ => if is_empty_return s' then ptc_void else ptc_none
           end) s
        /\ tails_list q r
    end.
End TList.

Definition quiet_opt (e : option expr) : Prop := match e with Some e => quiet e | None => True end.
Definition quiet_label (l : label) : Prop :=
  match l with LDefault => True | LCase e => quiet e | LEach _ _ x y => quiet x /\ quiet y end.

(* Calls are made only by `return` and by statements before `return;`, not
   in a `try` block ([b] is false there). *)
Fixpoint tails (b : bool) (q : ptc_aware) (s : stmt) : Prop :=
  match s with
  | SExpr e => if b then match q with ptc_none => quiet e | _ => last_call e end else quiet e
  | SBlock l => tails_list (tails b) q l
  | SDecl _ None => True
  | SDecl _ (Some (e, _)) => quiet e
  | SIf _ e t f => quiet e /\ tails_list (tails b) q t /\ tails_list (tails b) q f
  | SSwitch e cl =>
      quiet e /\
      fold_right (fun '(lb, _, x) P => (quiet_label lb /\ tails_list (tails b) ptc_none x) /\ P) True cl
  | SDoWhile x _ e c => quiet e /\ tails_list (tails b) ptc_none x /\ tails_list (tails b) q c
  | SWhile _ e x c => quiet e /\ tails_list (tails b) ptc_none x /\ tails_list (tails b) q c
  | SForEach _ e _ _ x c => quiet e /\ tails_list (tails b) ptc_none x /\ tails_list (tails b) q c
  | SFor i cn sp x c =>
      tails_list (tails b) ptc_none i /\ quiet_opt cn /\ quiet_opt sp
      /\ tails_list (tails b) ptc_none x /\ tails_list (tails b) q c
  | STry t _ c => tails_list (tails false) ptc_none t /\ tails_list (tails b) q c
  | SThrow e | SAssert e _ | SDefer e => quiet e
  | SReturn _ None => True
  | SReturn _ (Some e) => if b then last_call e else quiet e
  | SBreak _ | SContinue _ => True
  end.
Definition all_tails (l : list stmt) : Prop :=
  tails_list (tails true) ptc_void (l ++ [SReturn true None]).

End Spec.
