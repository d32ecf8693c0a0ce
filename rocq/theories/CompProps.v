(* Property theorems C49: expressions and the code that is made of them. *)
From Verif Require Import Base Text SortModel ValueModel OperModel CompModel CompSpec CompProofs CompDemo.

(* A function returns what the evaluator of expressions says, provided that no
   catch contains a call that evaluates its arguments on the other stack. *)
Theorem C49_functions_partial : forall W E R X F N D (P : prims W E R X F N D) lv tail fdefs,
  (forall f b enter, fdefs f = Script b enter -> whole_body b /\ calm_body lv b = true) ->
  forall n f self args w, invoke P lv tail fdefs n f self args w = means P (lv <? 2) tail fdefs n f self args w.
Proof. exact @invoke_means. Qed.
Print Assumptions C49_functions_partial.
(* three(4) == 60, with calls on the other stack and a folded constant *)
Example C49_ex_nested : invoke demo 1 true table 9 3 Void [Temp (VInt 4)] VNull = (VNull, Val (Temp (VInt 60)))
  /\ gens (N:=Z) (D:=unit) 1 true PtcNone [URef (-1); ULit (VInt 10); UOp xo_mul false] [] = [NBi32 xo_mul false 10; NRef (-1)]
  /\ gen (N:=Z) (D:=unit) 1 true PtcVal (UCall [[URef (-1)]]) [NRef 2] = [NAltCall PtcVal; NRef (-1); NAltClear; NRef 2].
Proof. split; [|split]; vm_compute; reflexivity. Qed.
(* a call that throws in a nested argument *)
Example C49_ex_throw : invoke demo 1 true table 9 3 Void [Temp VNull] VNull = (VNull, Exn (VStr (str "operands")))
  /\ means demo true true table 9 3 Void [Temp VNull] VNull = (VNull, Exn (VStr (str "operands"))).
Proof. split; vm_compute; reflexivity. Qed.

(* Without optimisation this holds for every function. *)
Theorem C49_unoptimised : forall W E R X F N D (P : prims W E R X F N D) lv tail fdefs, lv < 1 ->
  (forall f b enter, fdefs f = Script b enter -> whole_body b) ->
  forall n f self args w, invoke P lv tail fdefs n f self args w = means P true tail fdefs n f self args w.
Proof. exact @unoptimised_means. Qed.
Print Assumptions C49_unoptimised.
Example C49_ex_catch : whole_body f_catch /\ calm_body 1 f_catch = false
  /\ means demo true true table 9 4 Void [] VNull = (VNull, Val (Temp (VInt 42))).
Proof. split; [apply (table_whole 4 _ (fun _ args w => (w, inl args)) eq_refl)|split; vm_compute; reflexivity]. Qed.

(* Levels 0 and 1 agree on such functions ... *)
Theorem C49_optimised_partial : forall W E R X F N D (P : prims W E R X F N D) tail fdefs,
  (forall f b enter, fdefs f = Script b enter -> whole_body b /\ calm_body 1 b = true) ->
  forall n f self args w, invoke P 1 tail fdefs n f self args w = invoke P 0 tail fdefs n f self args w.
Proof. exact @optimised_same. Qed.
Print Assumptions C49_optimised_partial.
Example C49_ex_levels : calm_body 1 f_nest = true /\ gen_body 0 true f_nest <> gen_body 1 true f_nest.
Proof. split; [reflexivity|vm_compute; discriminate]. Qed.

(* ... but not on all: after `catch(two(1 / 0))` the stacks are the wrong way
   round, and `return 42` returns the function. *)
Theorem C49_catch_refuted : exists (fdefs : Z -> fdef) f,
  (forall g b enter, fdefs g = Script b enter -> whole_body b) /\
  invoke demo 0 true fdefs 9 f Void [] VNull = (VNull, Val (Temp (VInt 42))) /\
  invoke demo 1 true fdefs 9 f Void [] VNull = (VNull, Val (Temp (VFunc 2))).
Proof. exact (ex_intro _ table (ex_intro _ 4 (conj table_whole catch_refuted))). Qed.
Print Assumptions C49_catch_refuted.

(* At level 2 arguments are not checked: a variable is passed by reference. *)
Theorem C49_level2_refuted : exists (fdefs : Z -> fdef) f,
  (forall g b enter, fdefs g = Script b enter -> whole_body b) /\
  invoke demo 1 true fdefs 9 f Void [] (VInt 1) = (VInt 1, Exn (VStr (str "not modifiable"))) /\
  invoke demo 2 true fdefs 9 f Void [] (VInt 1) = (VInt 5, Val Void).
Proof. exact (ex_intro _ table (ex_intro _ 5 (conj table_whole pass_refuted))). Qed.
Print Assumptions C49_level2_refuted.

(* Below level 2, an argument that ends in a name or a call is passed as its
   value, and is not void. *)
Theorem C49_by_value_partial : forall W E R X F N D (P : prims W E R X F N D) lv tail e inv by_ref us u c t t',
  lv < 2 -> may_be_void u = true -> ended c = false ->
  execs P e inv (gens lv tail PtcNone (argument by_ref (us ++ [u])) c) t = (t', Val SNext) ->
  exists r s v, cur t' = r :: s /\ read P (wd t') r = inl v /\ (by_ref = false -> r = Temp v).
Proof. exact @checked_argument. Qed.
Print Assumptions C49_by_value_partial.
Example C49_ex_by_value : forall t' : st,
  execs demo [] (fun _ _ _ w => (w, Fuel)) (gens 1 true PtcNone (argument false [URef 0]) [])
    {| wd := VInt 7; s0 := []; s1 := []; sw := false |} = (t', Val SNext) -> cur t' = [Temp (VInt 7)].
Proof. intros t' H. vm_compute in H. injection H as <-. reflexivity. Qed.

(* Others are not: `one(a[0])` may change the variable at any level. *)
Theorem C49_by_value_refuted : exists (fdefs : Z -> fdef) f, fdefs f = script f_elem /\ forall lv tail,
  invoke demo lv tail fdefs 9 f Void [] (VArr [VInt 1; VInt 2]) = (VArr [VInt 5; VInt 2], Val Void).
Proof. exact (ex_intro _ elem_table (ex_intro _ 6 (conj eq_refl by_value_refuted))). Qed.
Print Assumptions C49_by_value_refuted.
