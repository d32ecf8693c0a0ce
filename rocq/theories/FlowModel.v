(* Statements: code generation and execution.

   Models asteria/src/compiler/statement.cpp:36-646 (generate_code),
   asteria/src/runtime/air_optimizer.cpp:29-54 (the body of a function),
   asteria/src/runtime/air_node.cpp:92-170 (blocks and calls), 213-304
   (is_terminator), 790-1690 (statements), 4414-4462 (defer), 4682-4712
   (return), asteria/src/llds/avm_rod.cpp:147-178 (execute),
   asteria/src/runtime/executive_context.cpp:93-155 (leaving a scope),
   asteria/src/runtime/instantiated_function.cpp:48-99 (functions),
   asteria/src/runtime/reference.cpp:266-336 (tail calls) and the checks of
   `break` and `continue` in asteria/src/compiler/statement_sequence.cpp:315-338,
   724-1255.

   Simplifications.
   - What an expression does between two calls is an arbitrary function of the
     names in scope ([E]) and of everything else ([W]): variables, the garbage
     collector, output.  An expression is such steps, calls and `catch`, in
     sequence ([expr]); the nodes of one expression are one node here, so only
     an expression that is nothing but a call is recognised as a terminator.
   - A context is the names visible in it and its deferred expressions.  A
     deferred expression carries the names it captured.
   - Values ([V]), references ([R]), exceptions ([X]), argument lists ([A]) and
     functions ([F]) are abstract.  A reference never is one that
     check_function_result would refuse (reference.hpp:281-284).
   - Source locations, backtraces, hooks, single-step traps, the folding of
     `return constant` and the recursion limit are left out.
   - The program is fixed: [body f] is the body of the function [f].
   - [run] has fuel, which bounds the number of nested steps. *)
From Verif Require Import Base.

Inductive target : Type := TNone | TSwitch | TWhile | TFor.

(* asteria/runtime/enums.hpp:79-91 *)
Inductive status : Type :=
  | st_next
  | st_return_void
  | st_return
  | st_break (t : target)
  | st_continue (t : target).

(* asteria/runtime/enums.hpp:93-99 *)
Inductive ptc_aware : Type := ptc_none | ptc_by_ref | ptc_by_val | ptc_void.

Inductive cmp : Type := cmp_unordered | cmp_less | cmp_equal | cmp_greater.

Definition is_next (s : status) : bool := match s with st_next => true | _ => false end.
Definition target_eqb (a b : target) : bool :=
  match a, b with
  | TNone, TNone | TSwitch, TSwitch | TWhile, TWhile | TFor, TFor => true
  | _, _ => false
  end.
Definition cmp_eqb (a b : cmp) : bool :=
  match a, b with
  | cmp_unordered, cmp_unordered | cmp_less, cmp_less
  | cmp_equal, cmp_equal | cmp_greater, cmp_greater => true
  | _, _ => false
  end.
(* is_any_of(status, { air_status_break, air_status_break_xxx }) *)
Definition is_break (k : target) (s : status) : bool :=
  match s with st_break t => target_eqb t TNone || target_eqb t k | _ => false end.
Definition is_continue (k : target) (s : status) : bool :=
  match s with st_continue t => target_eqb t TNone || target_eqb t k | _ => false end.

Section Flow.

Context {W E R V X A F It : Type}.

(* The primitives that control flow depends on. *)
Record ops : Type := mk_ops {
  value : W -> R -> V + X;             (* dereference_readonly *)
  temp : V -> R;                       (* set_temporary *)
  test : V -> bool;
  compare : V -> V -> cmp;
  throwing : V -> X;                   (* what `throw` throws; there is another
                                          exception for null *)
  range : V -> option (list It) + X;   (* the elements; None for null *)
  binds : F -> A -> W -> W * (E + X);  (* the context of a function *)
  void_used : X;                       (* a void reference is dereferenced *)
  stray : X                            (* "Stray `break` statement" *)
}.

(* The result of a call that has been completed. *)
Inductive result : Type := Void | Val (r : R).

Inductive expr : Type :=
  | EStep (a : E -> W -> W * (R + X))
  | ECall (prepare : E -> W -> W * ((F * A) + X))
  | EThen (e : expr) (k : result -> expr)
  | ECatch (e : expr) (k : option X -> expr).

Inductive label : Type :=
  | LDefault
  | LCase (e : expr)
  | LEach (lower_closed upper_closed : bool) (lo up : expr).

Inductive stmt : Type :=
  | SExpr (e : expr)
  | SBlock (l : list stmt)
  | SDecl (d : E -> W -> W * E) (init : option (expr * (result -> E -> W -> W * (E + X))))
      (* variables, functions, references: the names are declared first, then the
         initializer is evaluated, then they are initialized *)
  | SIf (negative : bool) (e : expr) (t f : list stmt)
  | SSwitch (e : expr) (clauses : list (label * (E -> E) * list stmt))
      (* label, the names that are declared in the clause, body *)
  | SDoWhile (b : list stmt) (negative : bool) (e : expr) (c : list stmt)
  | SWhile (negative : bool) (e : expr) (b c : list stmt)
  | SForEach (names : E -> E) (e : expr) (set : R -> E -> E)
      (item : It -> E -> W -> W * (E + X)) (b c : list stmt)
  | SFor (init : list stmt) (cond step : option expr) (b c : list stmt)
  | STry (t : list stmt) (caught : X -> E -> W -> W * E) (c : list stmt)
  | SBreak (t : target)
  | SContinue (t : target)
  | SThrow (e : expr)
  | SReturn (by_ref : bool) (e : option expr)
  | SAssert (e : expr) (x : X)
  | SDefer (e : expr).

(* Switch_Clause_Type, with the two flags of `each` *)
Inductive clause_type : Type :=
  | clause_default
  | clause_case
  | clause_each (lower_closed upper_closed : bool).

Inductive node : Type :=
  | NClear
  | NExpr (p : ptc_aware) (e : expr)
  | NDeclare (d : E -> W -> W * E)
  | NInit (i : result -> E -> W -> W * (E + X))
  | NBlock (b : list node)
  | NIf (negative : bool) (t f : list node)
  | NSwitch (clauses : list (clause_type * list node * (E -> E) * list node))
  | NDoWhile (b : list node) (negative : bool) (cond c : list node)
  | NWhile (negative : bool) (cond b c : list node)
  | NForEach (names : E -> E) (init : list node) (set : R -> E -> E)
      (item : It -> E -> W -> W * (E + X)) (b c : list node)
  | NFor (init cond step b c : list node)
  | NTry (t : list node) (caught : X -> E -> W -> W * E) (c : list node)
  | NStatus (s : status)
  | NThrow
  | NReturn (by_ref is_void : bool)
  | NAssert (x : X)
  | NDefer (b : list node).

(* ---- the parser's checks ---- *)

(* scope_flags, statement_sequence.cpp:317-323: whether a switch, a while loop
   and a for loop enclose the statement. *)
Record flags : Type := mk_flags { in_switch : bool; in_while : bool; in_for : bool }.
Definition scope_plain : flags := mk_flags false false false.
Definition or_switch (s : flags) : flags := mk_flags true (in_while s) (in_for s).
Definition or_while (s : flags) : flags := mk_flags (in_switch s) true (in_for s).
Definition or_for (s : flags) : flags := mk_flags (in_switch s) (in_while s) true.

(* do_accept_break_statement_opt and do_accept_continue_statement_opt,
   statement_sequence.cpp:1164-1255; the scopes that are passed on, 724-1162. *)
Fixpoint accepted (s : flags) (x : stmt) : bool :=
  match x with
  | SExpr _ | SDecl _ _ | SThrow _ | SReturn _ _ | SAssert _ _ | SDefer _ => true
  | SBlock l => forallb (accepted s) l
  | SIf _ _ t f => forallb (accepted s) t && forallb (accepted s) f
  | SSwitch _ cl => forallb (fun '(_, b) => forallb (accepted (or_switch s)) b) cl
  | SDoWhile b _ _ c => forallb (accepted (or_while s)) b && forallb (accepted s) c
  | SWhile _ _ b c => forallb (accepted (or_while s)) b && forallb (accepted s) c
  | SForEach _ _ _ _ b c => forallb (accepted (or_for s)) b && forallb (accepted s) c
  | SFor i _ _ b c =>
      (* do_accept_for_initializer_opt: a definition, an expression or nothing *)
      match i with
      | [SDecl _ _] | [SExpr _] | [] => true
      | _ => false
      end && forallb (accepted (or_for s)) b && forallb (accepted s) c
  | STry t _ c => forallb (accepted s) t && forallb (accepted s) c
  | SBreak TNone => in_switch s || in_while s || in_for s
  | SBreak TSwitch => in_switch s
  | SBreak TWhile => in_while s
  | SBreak TFor => in_for s
  | SContinue TNone => in_while s || in_for s
  | SContinue TSwitch => false
  | SContinue TWhile => in_while s
  | SContinue TFor => in_for s
  end.

(* ---- code generation ---- *)

(* statement.hpp:240-255 *)
Definition is_empty_return (s : stmt) : bool :=
  match s with SReturn _ None => true | _ => false end.
Definition is_scopeless (s : stmt) : bool :=
  match s with SDecl _ _ | SDefer _ => false | _ => true end.

(* is_terminator, air_node.cpp:213-304 *)
Fixpoint is_terminator (x : node) : bool :=
  let back := fix back (l : list node) : bool :=
    match l with
    | [] => false
    | [y] => is_terminator y
    | _ :: l => back l
    end in
  match x with
  | NThrow | NReturn _ _ => true
  | NStatus s => negb (is_next s)
  | NExpr p (ECall _) => match p with ptc_none => false | _ => true end
  | NBlock b => back b
  | NIf _ t f => back t && back f
  | _ => false
  end.
Fixpoint back_terminator (l : list node) : bool :=
  match l with
  | [] => false
  | [y] => is_terminator y
  | _ :: l => back_terminator l
  end.

(* whether the innermost of the blocks that contain nothing but each other has
   neither declarations nor deferred expressions, statement.cpp:138-151 *)
Fixpoint flat (s : stmt) : bool :=
  match s with
  | SBlock [s'] => match s' with SBlock _ => flat s' | _ => is_scopeless s' end
  | SBlock l => forallb is_scopeless l
  | _ => false
  end.

Variable proper_tail_calls : bool.   (* Compiler_Options *)

(* expression_unit.cpp:209, 304 *)
Definition rptc (p : ptc_aware) : ptc_aware := if proper_tail_calls then p else ptc_none.

(* do_generate_expression and do_generate_subexpression, statement.cpp:36-64 *)
Definition gen_expr (p : ptc_aware) (e : option expr) : list node :=
  NClear :: match e with Some e => [NExpr (rptc p) e] | None => [] end.

Section List.
  Variable gen : ptc_aware -> list node -> stmt -> list node.

  (* do_generate_statement_list, statement.cpp:77-88 *)
  Fixpoint gen_list (p : ptc_aware) (code : list node) (l : list stmt) : list node :=
    match l with
    | [] => code
    | s :: r =>
        let q := match r with
                 | [] => p
                 | s' :: _ => if is_empty_return s' then ptc_void else ptc_none
                 end in
        gen_list p (gen q code s) r
    end.
End List.

(* Statement::generate_code, statement.cpp:114-642: appends to [code] *)
Fixpoint gen (p : ptc_aware) (code : list node) (s : stmt) : list node :=
  if back_terminator code then code
  else
    match s with
    | SExpr e => code ++ gen_expr p (Some e)
    | SBlock l =>
        if flat s then gen_list gen p code l
        else code ++ [NBlock (gen_list gen p [] l)]
    | SDecl d None => code ++ [NDeclare d]
    | SDecl d (Some (e, i)) =>
        code ++ [NClear; NDeclare d; NExpr (rptc ptc_none) e; NInit i]
    | SIf neg e t f =>
        code ++ gen_expr ptc_none (Some e)
          ++ [NIf neg (gen_list gen p [] t) (gen_list gen p [] f)]
    | SSwitch e cl =>
        code ++ gen_expr ptc_none (Some e)
          ++ [NSwitch (map (fun '(lb, skip, b) =>
                 match lb with
                 | LDefault => (clause_default, [], skip, gen_list gen ptc_none [] b)
                 | LCase x =>
                     (clause_case, gen_expr ptc_none (Some x), skip, gen_list gen ptc_none [] b)
                 | LEach lc uc lo up =>
                     (clause_each lc uc,
                      gen_expr ptc_none (Some lo) ++ [NExpr (rptc ptc_none) up],
                      skip, gen_list gen ptc_none [] b)
                 end) cl)]
    | SDoWhile b neg e c =>
        code ++ [NDoWhile (gen_list gen ptc_none [] b) neg (gen_expr ptc_none (Some e))
                   (gen_list gen p [] c)]
    | SWhile neg e b c =>
        code ++ [NWhile neg (gen_expr ptc_none (Some e)) (gen_list gen ptc_none [] b)
                   (gen_list gen p [] c)]
    | SForEach names e set item b c =>
        code ++ [NForEach names (gen_expr ptc_none (Some e)) set item
                   (gen_list gen ptc_none [] b) (gen_list gen p [] c)]
    | SFor i cond step b c =>
        code ++ [NFor (gen_list gen ptc_none [] i) (gen_expr ptc_none cond)
                   (gen_expr ptc_none step) (gen_list gen ptc_none [] b) (gen_list gen p [] c)]
    | STry t caught c =>
        code ++ [NTry (gen_list gen ptc_none [] t) caught (gen_list gen p [] c)]
    | SBreak t => code ++ [NStatus (st_break t)]
    | SContinue t => code ++ [NStatus (st_continue t)]
    | SThrow e => code ++ gen_expr ptc_none (Some e) ++ [NThrow]
    | SReturn _ None => code ++ [NReturn false true]
    | SReturn by_ref (Some e) =>
        code ++ gen_expr (if by_ref then ptc_by_ref else ptc_by_val) (Some e)
          ++ [NReturn by_ref false]
    | SAssert e x => code ++ gen_expr ptc_none (Some e) ++ [NAssert x]
    | SDefer e => code ++ [NDefer (gen_expr ptc_none (Some e))]
    end.

Variable body : F -> list stmt.

(* AIR_Optimizer::reload, air_optimizer.cpp:29-54, of a body to which
   statement_sequence.cpp:675-677 has added `return;` *)
Definition code_of (f : F) : list node :=
  gen_list gen ptc_void [] (body f ++ [SReturn true None]).

(* ---- execution ---- *)

Variable o : ops.

(* An element of m_defer: the names that were captured, and code. *)
Definition deferred : Type := (E * list node)%type.

(* PTC_Arguments, runtime/ptc_arguments.hpp:14-31.  Vectors of deferred
   expressions are written with the back first. *)
Record ptc : Type := mk_ptc {
  p_mode : ptc_aware; p_target : F; p_args : A; p_defer : list deferred }.

Inductive ref : Type := RBad | RVoid | RVal (r : R) | RPtc (p : ptc).

(* Executive_Context *)
Record ctx : Type := mk_ctx { names : E; dfr : list deferred }.

Record mst : Type := mk_mst {
  world : W;
  stat : status;           (* of the current function *)
  stk : list ref;          (* of the current function *)
  depth : nat;             (* native frames of invoke_ptc_aware *)
  peak : nat               (* the largest such number so far *)
}.
Definition set_world (m : mst) (w : W) : mst := mk_mst w (stat m) (stk m) (depth m) (peak m).
Definition set_stat (m : mst) (s : status) : mst := mk_mst (world m) s (stk m) (depth m) (peak m).
Definition set_stk (m : mst) (l : list ref) : mst := mk_mst (world m) (stat m) l (depth m) (peak m).
Definition push (m : mst) (r : ref) : mst := set_stk m (r :: stk m).

(* What a piece of code does: returns, throws, violates an assertion, or runs
   out of fuel. *)
Inductive res : Type :=
  | Go (c : ctx) (m : mst)
  | Exn (x : X) (c : ctx) (m : mst)
  | Bad
  | Fuel.

Definition clause : Type := (clause_type * list node * (E -> E) * list node)%type.

Inductive job : Type :=
  | JRod (code : list node) (c : ctx)
  | JSeq (code : list node) (c : ctx)
  | JNode (x : node) (c : ctx)
  | JExpr (p : ptc_aware) (e : expr) (c : ctx)
  | JBlock (code : list node) (c : ctx)
  | JExit (c : ctx)
  | JExitLoop (c : ctx) (saved : option ref) (s : status)
  | JExitExn (x : X) (c : ctx)
  | JFind (v : V) (k : nat) (found : option nat) (rest cl : list clause) (c : ctx)
  | JClauses (k : nat) (cl : list clause) (c : ctx)
  | JDoWhile (b : list node) (neg : bool) (cond co : list node) (c : ctx)
  | JWhile (neg : bool) (cond b co : list node) (c : ctx)
  | JForEach (l : list It) (item : It -> E -> W -> W * (E + X)) (b co : list node) (outer c : ctx)
  | JFor (cond step b co : list node) (outer c : ctx)
  | JInvoke (f : F) (a : A) (c : ctx)
  | JPtcInvoke (f : F) (a : A) (c : ctx)
  | JUse (p : ptc) (frames : list ptc) (c : ctx)
  | JReturn (r : ref) (v : option V) (frames : list ptc) (c : ctx)
  | JUnwind (x : X) (frames : list ptc) (c : ctx).

(* the interval test of `each`, air_node.cpp:985-986, 1038-1042 *)
Definition in_interval (lc uc : bool) (lo up : cmp) : bool :=
  (cmp_eqb lo cmp_greater || cmp_eqb lo (if lc then cmp_equal else cmp_greater))
  && (cmp_eqb up cmp_less || cmp_eqb up (if uc then cmp_equal else cmp_less)).

(* `dereference_readonly()` of a reference on the stack, and what follows *)
Definition deref (m : mst) (c : ctx) (r : ref) (k : V -> res) : res :=
  match r with
  | RVal r => match value o (world m) r with inl v => k v | inr x => Exn x c m end
  | RVoid => Exn (void_used o) c m
  | RBad | RPtc _ => Bad
  end.
Definition with_top (m : mst) (c : ctx) (k : V -> res) : res :=
  match stk m with
  | r :: _ => deref m c r k
  | [] => Bad
  end.

(* the part of a loop that looks at the status of the body: go on, or leave *)
Definition after_body (k : target) (c : ctx) (m : mst) (again : mst -> res) : res :=
  if is_continue k (stat m) then again (set_stat m st_next)
  else if is_next (stat m) then again m
  else Go c (if is_break k (stat m) then set_stat m st_next else m).

(* run a piece of code for its effect, then go on in [c] *)
Definition seq (r : res) (c : ctx) (k : mst -> res) : res :=
  match r with
  | Go _ m => k m
  | Exn x _ m => Exn x c m
  | r => r
  end.
(* the same for expressions; ASTERIA_ASSERT(ctx.status() == air_status_next) *)
Definition seq_next (r : res) (c : ctx) (k : mst -> res) : res :=
  seq r c (fun m => if is_next (stat m) then k m else Bad).

Fixpoint run (n : nat) (j : job) (m : mst) {struct n} : res :=
  match n with
  | O => Fuel
  | S n =>
      (* on_scope_exit_normal or on_scope_exit_exceptional at the end of a scope *)
      let leave (c : ctx) (r : res) : res :=
        match r with
        | Go c' m' => seq (run n (JExit c') m') c (Go c)
        | Exn x c' m' => seq (run n (JExitExn x c') m') c (Go c)
        | r => r
        end in
      match j with

      (* AVM_Rod::execute, avm_rod.cpp:147-178 *)
      | JRod code c => run n (JSeq code c) (set_stat m st_next)
      | JSeq [] c => Go c m
      | JSeq (x :: code) c =>
          match run n (JNode x c) m with
          | Go c' m' => if is_next (stat m') then run n (JSeq code c') m' else Go c' m'
          | r => r
          end

      (* do_execute_block, air_node.cpp:93-105 *)
      | JBlock code c => leave c (run n (JRod code (mk_ctx (names c) [])) m)

      (* on_scope_exit_normal, executive_context.hpp:125-130, and
         do_on_scope_exit_normal_slow, executive_context.cpp:93-135 *)
      | JExit c =>
          match dfr c with
          | [] => Go c m
          | _ =>
              match stat m with
              | st_return =>
                  match stk m with
                  | RPtc p :: s =>
                      (* ptc->mut_defer().append(m_defer...) *)
                      Go (mk_ctx (names c) [])
                        (set_stk m
                           (RPtc (mk_ptc (p_mode p) (p_target p) (p_args p) (dfr c ++ p_defer p))
                            :: s))
                  | [] | RBad :: _ => Bad
                  | r :: s => run n (JExitLoop c (Some r) st_return) (set_stk m (RBad :: s))
                  end
              | s => run n (JExitLoop c None s) m
              end
          end
      | JExitLoop c saved s =>
          match dfr c with
          | [] => Go c (set_stat (match saved with Some r => push m r | None => m end) s)
          | (e, code) :: d =>
              match run n (JRod code (mk_ctx e [])) m with
              | Go _ m' =>
                  if is_next (stat m') then run n (JExitLoop (mk_ctx (names c) d) saved s) m'
                  else Bad
              | Exn x _ m' => run n (JExitExn x (mk_ctx (names c) d)) m'
              | r => r
              end
          end
      (* do_on_scope_exit_exceptional_slow, executive_context.cpp:137-155 *)
      | JExitExn x c =>
          match dfr c with
          | [] => Exn x c m
          | (e, code) :: d =>
              match run n (JRod code (mk_ctx e [])) m with
              | Go _ m' =>
                  if is_next (stat m') then run n (JExitExn x (mk_ctx (names c) d)) m' else Bad
              | Exn x' _ m' => run n (JExitExn x' (mk_ctx (names c) d)) m'
              | r => r
              end
          end

      (* expressions; do_invoke_partial, air_node.cpp:149-169, and
         catch_expression, 4641-4660 *)
      | JExpr p (EStep a) c =>
          match a (names c) (world m) with
          | (w, inl r) => Go c (push (set_world m w) (RVal r))
          | (w, inr x) => Exn x c (set_world m w)
          end
      | JExpr p (EThen e k) c =>
          seq_next (run n (JExpr ptc_none e c) m) c (fun m' =>
            match stk m' with
            | RVoid :: s => run n (JExpr p (k Void) c) (set_stk m' s)
            | RVal r :: s => run n (JExpr p (k (Val r)) c) (set_stk m' s)
            | _ => Bad
            end)
      | JExpr p (ECatch e k) c =>
          match run n (JExpr ptc_none e c) (set_stk m []) with
          | Go _ m' => run n (JExpr p (k None) c) (set_stat (set_stk m' (stk m)) st_next)
          | Exn x _ m' => run n (JExpr p (k (Some x)) c) (set_stat (set_stk m' (stk m)) st_next)
          | r => r
          end
      | JExpr p (ECall prepare) c =>
          match prepare (names c) (world m) with
          | (w, inr x) => Exn x c (set_world m w)
          | (w, inl (f, a)) =>
              match p with
              | ptc_none =>
                  (* the callee has its own status and stack *)
                  match run n (JInvoke f a c) (set_world m w) with
                  | Go _ m' =>
                      match stk m' with
                      | r :: _ => Go c (mk_mst (world m') (stat m) (r :: stk m) (depth m) (peak m'))
                      | [] => Bad
                      end
                  | Exn x _ m' => Exn x c (mk_mst (world m') (stat m) (stk m) (depth m) (peak m'))
                  | r => r
                  end
              | _ => Go c (set_stat (push (set_world m w) (RPtc (mk_ptc p f a []))) st_return)
              end
          end

      (* Instantiated_Function::invoke_ptc_aware, instantiated_function.cpp:48-99;
         the result is left on the stack *)
      | JPtcInvoke f a c =>
          let d := S (depth m) in
          let pk := Nat.max (peak m) d in
          match binds o f a (world m) with
          | (w, inr x) => Exn x c (mk_mst w st_next [] (depth m) pk)
          | (w, inl e) =>
              match leave c (run n (JRod (code_of f) (mk_ctx e [])) (mk_mst w st_next [] d pk)) with
              | Exn x _ m' => Exn x c (mk_mst (world m') st_next [] (depth m) (peak m'))
              | Go _ m' =>
                  let ret r := Go c (mk_mst (world m') st_next [r] (depth m) (peak m')) in
                  match stat m' with
                  | st_next | st_return_void => ret RVoid
                  | st_return => match stk m' with r :: _ => ret r | [] => Bad end
                  | st_break _ | st_continue _ =>
                      Exn (stray o) c (mk_mst (world m') st_next [] (depth m) (peak m'))
                  end
              | r => r
              end
          end
      (* cow_function::invoke, fwd.cpp:73-80 *)
      | JInvoke f a c =>
          seq (run n (JPtcInvoke f a c) m) c (fun m' =>
            match stk m' with
            | RPtc p :: _ => run n (JUse p [] c) m'
            | _ => Go c m'
            end)
      (* do_use_function_result_slow, reference.cpp:266-336: the loop that unpacks *)
      | JUse p frames c =>
          match run n (JPtcInvoke (p_target p) (p_args p) c) m with
          | Go _ m' =>
              match stk m' with
              | RPtc p' :: _ => run n (JUse p' (p :: frames) c) m'
              | r :: _ =>
                  match p_mode p, r with
                  | ptc_void, _ => run n (JReturn RVoid None (p :: frames) c) m'
                  | _, RVoid => run n (JReturn RVoid None (p :: frames) c) m'
                  | _, RVal r0 =>
                      match value o (world m') r0 with
                      | inl v => run n (JReturn r (Some v) (p :: frames) c) m'
                      | inr x => run n (JUnwind x (p :: frames) c) m'
                      end
                  | _, _ => Bad
                  end
              | [] => Bad
              end
          | Exn x _ m' => run n (JUnwind x (p :: frames) c) m'
          | r => r
          end
      (* the normal return path *)
      | JReturn r v frames c =>
          match frames with
          | [] => Go c (set_stk m [r])
          | p :: fs =>
              let r' :=
                match p_mode p, v with
                | ptc_by_val, Some v => RVal (temp o v)
                | _, _ => r
                end in
              match run n (JExit (mk_ctx (names c) (p_defer p))) (set_stk (set_stat m st_next) []) with
              | Go _ m' => run n (JReturn r' None fs c) m'
              | Exn x _ m' => run n (JUnwind x fs c) m'
              | r => r
              end
          end
      (* the exceptional path *)
      | JUnwind x frames c =>
          match frames with
          | [] => Exn x c m
          | p :: fs =>
              match run n (JExitExn x (mk_ctx (names c) (p_defer p))) (set_stk (set_stat m st_next) []) with
              | Exn x' _ m' => run n (JUnwind x' fs c) m'
              | Go _ _ => Bad
              | r => r
              end
          end

      (* the switch, air_node.cpp:1003-1080 *)
      | JFind _ _ found [] cl c =>
          match found with
          | None => Go c m
          | Some t => leave c (run n (JClauses t cl (mk_ctx (names c) [])) m)
          end
      | JFind v k found ((lb, labels, _, _) :: rest) cl c =>
          match lb with
          | clause_default => run n (JFind v (S k) (Some k) rest cl c) m
          | clause_case =>
              seq_next (run n (JRod labels c) m) c (fun m' =>
                with_top m' c (fun a =>
                  if cmp_eqb (compare o v a) cmp_equal then run n (JFind v k (Some k) [] cl c) m'
                  else run n (JFind v (S k) found rest cl c) m'))
          | clause_each lc uc =>
              seq_next (run n (JRod labels c) m) c (fun m' =>
                match stk m' with
                | up :: lo :: _ =>
                    deref m' c lo (fun lo => deref m' c up (fun up =>
                      if in_interval lc uc (compare o v lo) (compare o v up)
                      then run n (JFind v k (Some k) [] cl c) m'
                      else run n (JFind v (S k) found rest cl c) m'))
                | _ => Bad
                end)
          end
      | JClauses _ [] c => Go c m
      | JClauses (S k) ((_, _, skip, _) :: r) c =>
          run n (JClauses k r (mk_ctx (skip (names c)) (dfr c))) m
      | JClauses O ((_, _, _, b) :: r) c =>
          match run n (JRod b c) m with
          | Go c' m' =>
              if is_next (stat m') then run n (JClauses O r c') m'
              else Go c' (if is_break TSwitch (stat m') then set_stat m' st_next else m')
          | r => r
          end

      (* loops, air_node.cpp:1124-1146, 1192-1218, 1262-1375, 1424-1470 *)
      | JDoWhile b neg cond co c =>
          seq (run n (JBlock b c) m) c (fun m1 =>
          after_body TWhile c m1 (fun m2 =>
          seq_next (run n (JRod cond c) m2) c (fun m3 =>
          with_top m3 c (fun v =>
            if Bool.eqb (test o v) neg then seq (run n (JBlock co c) m3) c (Go c)
            else run n (JDoWhile b neg cond co c) m3))))
      | JWhile neg cond b co c =>
          seq_next (run n (JRod cond c) m) c (fun m1 =>
          with_top m1 c (fun v =>
            if Bool.eqb (test o v) neg then seq (run n (JBlock co c) m1) c (Go c)
            else
              seq (run n (JBlock b c) m1) c (fun m2 =>
              after_body TWhile c m2 (run n (JWhile neg cond b co c)))))
      | JForEach l item b co outer c =>
          match l with
          | [] => seq (run n (JBlock co outer) m) c (Go c)
          | x :: l =>
              match item x (names c) (world m) with
              | (w, inr x) => Exn x c (set_world m w)
              | (w, inl e) =>
                  let c := mk_ctx e (dfr c) in
                  seq (run n (JBlock b c) (set_world m w)) c (fun m1 =>
                  after_body TFor c m1 (run n (JForEach l item b co outer c)))
              end
          end
      | JFor cond step b co outer c =>
          let loop m1 :=
            seq (run n (JBlock b c) m1) c (fun m2 =>
            after_body TFor c m2 (fun m3 =>
            seq_next (run n (JRod step c) m3) c (run n (JFor cond step b co outer c)))) in
          seq_next (run n (JRod cond c) m) c (fun m1 =>
            match stk m1 with
            | [] => loop m1
            | r :: _ =>
                deref m1 c r (fun v =>
                  if test o v then loop m1
                  else seq (run n (JBlock co outer) m1) c (Go c))
            end)

      | JNode NClear c => Go c (set_stk m [])
      | JNode (NExpr p e) c => run n (JExpr p e c) m
      | JNode (NDeclare d) c =>
          let '(w, e) := d (names c) (world m) in
          Go (mk_ctx e (dfr c)) (set_world m w)
      | JNode (NInit i) c =>
          let init r s :=
            match i r (names c) (world m) with
            | (w, inl e) => Go (mk_ctx e (dfr c)) (set_stk (set_world m w) s)
            | (w, inr x) => Exn x c (set_world m w)
            end in
          match stk m with
          | RVoid :: s => init Void s
          | RVal r :: s => init (Val r) s
          | _ => Bad
          end
      | JNode (NBlock b) c => run n (JBlock b c) m
      | JNode (NIf neg t f) c =>
          with_top m c (fun v =>
            if xorb (test o v) neg then run n (JBlock t c) m else run n (JBlock f c) m)
      | JNode (NSwitch cl) c => with_top m c (fun v => run n (JFind v O None cl cl c) m)
      | JNode (NDoWhile b neg cond co) c => run n (JDoWhile b neg cond co c) m
      | JNode (NWhile neg cond b co) c => run n (JWhile neg cond b co c) m
      | JNode (NForEach nm init set item b co) c =>
          let c1 := mk_ctx (nm (names c)) [] in
          leave c
            (seq_next (run n (JRod init c1) m) c1 (fun m1 =>
              match stk m1 with
              | RVal r :: s =>
                  let c2 := mk_ctx (set r (names c1)) [] in
                  let m2 := set_stk m1 (RBad :: s) in
                  deref m2 c2 (RVal r) (fun v =>
                    match range o v with
                    | inl None => Go c2 m2
                    | inl (Some l) => run n (JForEach l item b co c c2) m2
                    | inr x => Exn x c2 m2
                    end)
              | RVoid :: _ => Exn (void_used o) c1 m1
              | _ => Bad
              end))
      | JNode (NFor init cond step b co) c =>
          leave c
            (match run n (JRod init (mk_ctx (names c) [])) m with
             | Go c1 m1 =>
                 if is_next (stat m1) then run n (JFor cond step b co c c1) m1 else Bad
             | r => r
             end)
      (* air_node.cpp:1518-1560 *)
      | JNode (NTry t caught k) c =>
          match
            seq (run n (JBlock t c) m) c (fun m1 =>
              match stat m1, stk m1 with
              | st_return, RPtc p :: s =>
                  match run n (JUse p [] c) m1 with
                  | Go _ m2 =>
                      match stk m2 with
                      | r :: _ => Go c (mk_mst (world m2) st_return (r :: s) (depth m1) (peak m2))
                      | [] => Bad
                      end
                  | r => r
                  end
              | _, _ => Go c m1
              end)
          with
          | Exn x _ m1 =>
              let '(w, e) := caught x (names c) (world m1) in
              leave c (run n (JRod k (mk_ctx e [])) (set_world m1 w))
          | r => r
          end
      | JNode (NStatus s) c => Go c (set_stat m s)
      (* air_node.cpp:1597-1608 *)
      | JNode NThrow c => with_top m c (fun v => Exn (throwing o v) c m)
      (* air_node.cpp:1638-1645 *)
      | JNode (NAssert x) c => with_top m c (fun v => if test o v then Go c m else Exn x c m)
      (* air_node.cpp:4690-4707 *)
      | JNode (NReturn by_ref is_void) c =>
          if is_void then Go c (set_stat m st_return_void)
          else
            match stk m with
            | RVoid :: _ => Go c (set_stat m st_return)
            | RVal r :: s =>
                deref m c (RVal r) (fun v =>
                  if by_ref then Go c (set_stat m st_return)
                  else Go c (set_stat (set_stk m (RVal (temp o v) :: s)) st_return))
            | _ => Bad
            end
      (* air_node.cpp:4428-4442 *)
      | JNode (NDefer b) c => Go (mk_ctx (names c) ((names c, b) :: dfr c)) m
      end
  end.

End Flow.
