(* C37, C38, C44: control flow, deferred expressions and tail calls. *)
From Verif Require Import Base FlowModel FlowSpec FlowProofs2 FlowProofs5 FlowProofs8 FlowExamples FlowProofs7.

(* Whatever the machine does when a function is called is what FlowSpec.v says;
   it violates no assertion. *)
Theorem C44_sound : forall (W E R V X A F It : Type) (body : F -> list (@stmt W E R X A F It))
    (o : @ops W E R V X A F It),
  (forall f, forallb (accepted scope_plain) (body f) = true) ->
  forall n f a c m,
  match run false body o n (JInvoke f a c) m with
  | Fuel => True
  | Bad => False
  | Go _ m' => exists r, stk m' = [ref_of r] /\ call o body f a (world m) (world m') (inl r)
  | Exn x _ m' => call o body f a (world m) (world m') (inr x)
  end.
Proof. exact @sound. Qed.
Print Assumptions C44_sound.

(* Everything that FlowSpec.v allows is what the machine does, given enough
   fuel. *)
Theorem C44_complete : forall (W E R V X A F It : Type) (body : F -> list (@stmt W E R X A F It))
    (o : @ops W E R V X A F It) f a w w' rr,
  call o body f a w w' rr ->
  forall c m, world m = w ->
  exists m' n0, world m' = w' /\
    match rr with
    | inl r => stk m' = [ref_of r] /\
        forall n, (n0 <= n)%nat -> run false body o n (JInvoke f a c) m = Go c m'
    | inr y => forall n, (n0 <= n)%nat -> run false body o n (JInvoke f a c) m = Exn y c m'
    end.
Proof. exact @completed. Qed.
Print Assumptions C44_complete.

(* A call has one outcome. *)
Theorem C44_deterministic : forall (W E R V X A F It : Type) (body : F -> list (@stmt W E R X A F It))
    (o : @ops W E R V X A F It),
  inhabited (@ctx W E R X A F It) ->
  forall f a w w1 w2 r1 r2,
  call o body f a w w1 r1 -> call o body f a w w2 r2 -> w1 = w2 /\ r1 = r2.
Proof. exact @deterministic. Qed.
Print Assumptions C44_deterministic.

(* `break` and `continue` do not leave the body of a function that the parser
   has accepted. *)
Theorem C44_contained : forall (W E R V X A F It : Type) (body : F -> list (@stmt W E R X A F It))
    (o : @ops W E R V X A F It) e l w w' r,
  scope o body e l w w' r ->
  forallb (accepted scope_plain) l = true ->
  match r with OBreak _ | OContinue _ => False | _ => True end.
Proof. exact @body_outcome. Qed.
Print Assumptions C44_contained.

Example C44_ex_switch :
  forallb (accepted scope_plain) (p_switch 0) = true
  /\ result_of (run false p_switch e_ops 200 (JInvoke 0%nat 1%nat e_ctx) e_start)
     = Some ([1; 2; 20; 5; 10; 1; 2; 20; 5; 10; 1; 2; 20; 5; 10; 6]%nat, [None], 1%nat)
  /\ result_of (run false p_switch e_ops 200 (JInvoke 0%nat 4%nat e_ctx) e_start)
     = Some ([4; 10; 4; 10; 4; 10; 6]%nat, [None], 1%nat)
  /\ result_of (run false p_switch e_ops 200 (JInvoke 0%nat 9%nat e_ctx) e_start)
     = Some ([2; 20; 5; 10; 2; 20; 5; 10; 2; 20; 5; 10; 6]%nat, [None], 1%nat).
Proof. vm_compute. repeat split. Qed.

(* When a scope is left, in whichever way [r], the expressions which were
   deferred in it are evaluated once each, the latest first; if some of them
   throw, the last exception takes the place of the outcome. *)
Theorem C37_deferred : forall (W E R V X A F It : Type) (body : F -> list (@stmt W E R X A F It))
    (o : @ops W E R V X A F It),
  (forall f, forallb (accepted scope_plain) (body f) = true) ->
  forall n fl q l c m, forallb (accepted fl) l = true -> q = ptc_none \/ q = ptc_void ->
  match run false body o n (JBlock (gen_list (gen false) q [] l) c) m with
  | Fuel => True
  | Bad => False
  | Go c' m' => c' = c /\ exists e' ds w1 r,
      stmts o body (names c) [] l (world m) e' ds w1 r
      /\ evaluated o body ds w1 (world m') [] /\ matches r m'
  | Exn x c' m' => c' = c /\ exists e' ds w1 r xs,
      stmts o body (names c) [] l (world m) e' ds w1 r
      /\ evaluated o body ds w1 (world m') xs
      /\ last (map (@OThrow R X) xs) r = OThrow x
  end.
Proof. exact @block. Qed.
Print Assumptions C37_deferred.

(* Two deferred expressions throw; what is caught is the exception of the one
   that was evaluated last. *)
Example C37_ex_throw :
  result_of (run false p_throw e_ops 200 (JInvoke 0%nat 0%nat e_ctx) e_start)
  = Some ([3; 2; 1; 51]%nat, [None], 1%nat).
Proof. vm_compute. reflexivity. Qed.

(* With proper tail calls the results and effects are those of ordinary calls,
   provided that all tail calls of a program are of the same kind (the value is
   returned, or discarded) and that no scope with deferred expressions is
   inside another one. *)
Theorem C38_same_partial : forall (W E R V X A F It : Type) (body : F -> list (@stmt W E R X A F It))
    (o : @ops W E R V X A F It),
  (forall f, forallb (accepted scope_plain) (body f) = true) ->
  forall md, md = ptc_by_val \/ md = ptc_void ->
  (forall w v, value o w (temp o v) = inl v) ->
  (forall f, harmless md (body f) = true) ->
  forall n f a c m,
  match run true body o n (JInvoke f a c) m with
  | Fuel => True
  | Bad => False
  | Go _ m' => exists m1 n0, world m1 = world m' /\ stk m1 = stk m' /\
      forall n, (n0 <= n)%nat -> run false body o n (JInvoke f a c) m = Go c m1
  | Exn x _ m' => exists m1 n0, world m1 = world m' /\
      forall n, (n0 <= n)%nat -> run false body o n (JInvoke f a c) m = Exn x c m1
  end.
Proof. exact @tail_calls. Qed.
Print Assumptions C38_same_partial.

(* If all calls are tail calls, a call never has more than one native frame of
   invoke_ptc_aware, however long the chain. *)
Theorem C38_depth : forall (W E R V X A F It : Type) (body : F -> list (@stmt W E R X A F It))
    (o : @ops W E R V X A F It),
  (forall f, all_tails (body f)) ->
  forall n f a c m c' m',
  run true body o n (JInvoke f a c) m = Go c' m' ->
  depth m' = depth m /\ (peak m' <= Nat.max (peak m) (S (depth m)))%nat.
Proof. exact @depth_go. Qed.
Print Assumptions C38_depth.
Theorem C38_depth_throw : forall (W E R V X A F It : Type) (body : F -> list (@stmt W E R X A F It))
    (o : @ops W E R V X A F It),
  (forall f, all_tails (body f)) ->
  forall n f a c m x c' m',
  run true body o n (JInvoke f a c) m = Exn x c' m' ->
  depth m' = depth m /\ (peak m' <= Nat.max (peak m) (S (depth m)))%nat.
Proof. exact @depth_exn. Qed.
Print Assumptions C38_depth_throw.

(* a chain of 50 calls: one frame instead of 51 *)
Example C38_ex_chain :
  (forall f, all_tails (p_chain f)) /\ (forall f, harmless ptc_by_val (p_chain f) = true)
  /\ result_of (run true p_chain e_ops 2000 (JInvoke 0%nat 50%nat e_ctx) e_start)
     = Some (repeat 1%nat 51, [Some (inl 8%nat)], 1%nat)
  /\ result_of (run false p_chain e_ops 2000 (JInvoke 0%nat 50%nat e_ctx) e_start)
     = Some (repeat 1%nat 51, [Some (inl 8%nat)], 51%nat).
Proof.
  split; [intros f; cbn; repeat first [exact I | apply quiet_step | apply last_call_ | apply last_quiet | split]|]. split; [intros f; reflexivity|].
  vm_compute. repeat split.
Qed.

(* Without the proviso it is false: deferred expressions of nested scopes are
   evaluated in the wrong order, *)
Theorem C38_order_refuted : exists body : nat -> list estmt,
  (forall f, forallb (accepted scope_plain) (body f) = true) /\
  exists n m1 m2,
    run true body e_ops n (JInvoke 0%nat 0%nat e_ctx) e_start = Go e_ctx m1 /\
    run false body e_ops n (JInvoke 0%nat 0%nat e_ctx) e_start = Go e_ctx m2 /\
    rev (world m1) = [3; 1; 2]%nat /\ rev (world m2) = [3; 2; 1]%nat.
Proof.
  exists p_order. split; [intros [|f]; reflexivity|]. exists 60%nat. eexists _, _.
  split; [vm_compute; reflexivity|]. split; [vm_compute; reflexivity|]. split; reflexivity.
Qed.
Print Assumptions C38_order_refuted.
(* the value of a call whose result is discarded is returned, *)
Theorem C38_void_refuted : exists body : nat -> list estmt,
  (forall f, forallb (accepted scope_plain) (body f) = true) /\
  exists n m1 m2,
    run true body e_ops n (JInvoke 0%nat 0%nat e_ctx) e_start = Go e_ctx m1 /\
    run false body e_ops n (JInvoke 0%nat 0%nat e_ctx) e_start = Go e_ctx m2 /\
    stk m1 = [RVal (inl 5%nat)] /\ stk m2 = [RVoid].
Proof.
  exists p_void. split; [intros [|[|f]]; reflexivity|]. exists 60%nat. eexists _, _.
  split; [vm_compute; reflexivity|]. split; [vm_compute; reflexivity|]. split; reflexivity.
Qed.
Print Assumptions C38_void_refuted.
(* and a variable is returned by reference where its value should be. *)
Theorem C38_value_refuted : exists body : nat -> list estmt,
  (forall f, forallb (accepted scope_plain) (body f) = true) /\
  exists n m1 m2,
    run true body e_ops n (JInvoke 0%nat 0%nat e_ctx) e_start = Go e_ctx m1 /\
    run false body e_ops n (JInvoke 0%nat 0%nat e_ctx) e_start = Go e_ctx m2 /\
    stk m1 = [RVal (inr 7%nat)] /\ stk m2 = [RVal (inl 7%nat)].
Proof.
  exists p_ref. split; [intros [|[|f]]; reflexivity|]. exists 60%nat. eexists _, _.
  split; [vm_compute; reflexivity|]. split; [vm_compute; reflexivity|]. split; reflexivity.
Qed.
Print Assumptions C38_value_refuted.
