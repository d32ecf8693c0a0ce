(* Code that is generated for programs whose calls are all tail calls. *)
From Verif Require Import Base FlowModel FlowSpec FlowProofs1 FlowProofs2 FlowProofs3 FlowProofs5 FlowProofs6.
From Coq Require Import Lia.

Section Proofs.

Context {W E R V X A F It : Type}.
Notation ops := (@ops W E R V X A F It).
Notation expr := (@expr W E R X A F).
Notation stmt := (@stmt W E R X A F It).
Notation node := (@node W E R X A F It).
Notation mst := (@mst W E R X A F It).
Notation ctx := (@ctx W E R X A F It).
Notation res := (@res W E R X A F It).
Notation okn := (@okn W E R X A F It).
Notation gen := (@gen W E R X A F It true).

Definition gen_okn (s : stmt) : Prop := forall b q code,
  Forall (okn b) code -> tails b q s -> Forall (okn b) (gen q code s).

Lemma list_okn : forall l, Forall gen_okn l -> forall b q code,
  Forall (okn b) code -> tails_list (tails b) q l -> Forall (okn b) (gen_list gen q code l).
Proof.
  induction 1 as [|s r Hs Hr IH]; intros b q code Hc Ht; [exact Hc|].
  destruct Ht as [Ht1 Ht2]. simpl. apply IH; [|assumption]. apply Hs; assumption.
Qed.

Lemma expr_okn : forall b q e, quiet e -> Forall (okn b) (gen_expr true q (Some e)).
Proof. intros. repeat constructor. assumption. Qed.
Lemma opt_okn : forall b q e, quiet_opt e -> Forall (okn b) (gen_expr true q e).
Proof. intros b q [e|] H; repeat constructor. exact H. Qed.
Lemma one_okn : forall b (x : node), okn b x -> Forall (okn b) [x].
Proof. intros. constructor; [assumption|constructor]. Qed.

Ltac part := repeat first
  [ assumption | apply Forall_nil | apply expr_okn | apply opt_okn
  | apply one_okn | apply Forall_app; split
  | match goal with |- Forall (FlowProofs6.okn ?b) (gen_list _ _ _ ?l) =>
      apply list_okn; [assumption|apply Forall_nil|assumption] end
  | constructor ].

Lemma gen_is_okn : forall s, gen_okn s.
Proof.
  apply stmt_ind2; intros; intros b0 q0 code0 Hc Ht; cbn [FlowModel.gen];
    (destruct (back_terminator code0); [exact Hc|]); cbn [tails] in Ht.
  - apply Forall_app. split; [assumption|]. destruct b0.
    + apply Forall_cons; [constructor|]. apply one_okn. unfold rptc.
      destruct q0; [apply on_expr; assumption| | |]; (apply on_tail; [discriminate|assumption]).
    + apply expr_okn; assumption.
  - destruct (flat (SBlock l)); [apply list_okn; assumption|]. part.
  - destruct i as [[e i]|]; part.
  - destruct Ht as [He [Ht Hf]]. part.
  - destruct Ht as [He Ht]. apply Forall_app. split; [assumption|]. apply Forall_app.
    split; [apply expr_okn; assumption|]. apply one_okn. apply on_switch.
    induction cl as [|[[lb sk] x] cl IH]; [apply Forall_nil|].
    destruct Ht as [[Hl Hx] Ht]. inversion H as [|? ? Hx' H']; subst. cbn [map]. apply Forall_cons; [|apply IH; assumption].
    cbn in Hx'. destruct lb as [|y|lc uc y y']; cbn in Hl |- *; (split; [|apply list_okn; [assumption|apply Forall_nil|assumption]]).
    + apply Forall_nil.
    + apply expr_okn; assumption.
    + destruct Hl as [Hl Hl']. repeat constructor; assumption.
  - destruct Ht as [He [Hx Ht]]. part.
  - destruct Ht as [He [Hx Ht]]. part.
  - destruct Ht as [He [Hx Ht]]. part.
  - destruct Ht as [Hi [He [Hs [Hx Ht]]]]. part.
  - destruct Ht as [Hx Ht]. part.
  - part.
  - part.
  - part.
  - destruct e as [e|]; [|part]. apply Forall_app. split; [assumption|]. apply Forall_app. split; [|part].
    destruct b0; [|apply expr_okn; assumption].
    apply Forall_cons; [constructor|]. apply one_okn. apply on_tail; [|assumption].
    unfold rptc. destruct b; discriminate.
  - part.
  - part.
Qed.

Variable body : F -> list stmt.
Variable o : ops.
Hypothesis Hall : forall f, all_tails (body f).

Lemma code_okn : forall f, Forall (okn true) (code_of true body f).
Proof.
  intros f. unfold code_of. apply list_okn; [|apply Forall_nil|exact (Hall f)].
  apply Forall_forall. intros. apply gen_is_okn.
Qed.

Theorem depth_go : forall n f a c m c' m',
  run true body o n (JInvoke f a c) m = Go c' m' ->
  depth m' = depth m /\ (peak m' <= Nat.max (peak m) (S (depth m)))%nat.
Proof.
  intros n f a c m c' m' H. pose proof (invoke_up body o code_okn n f a c m) as Hu.
  rewrite H in Hu. destruct Hu as [H1 [H2 _]]. auto.
Qed.
Theorem depth_exn : forall n f a c m x c' m',
  run true body o n (JInvoke f a c) m = Exn x c' m' ->
  depth m' = depth m /\ (peak m' <= Nat.max (peak m) (S (depth m)))%nat.
Proof.
  intros n f a c m x c' m' H. pose proof (invoke_up body o code_okn n f a c m) as Hu.
  rewrite H in Hu. exact Hu.
Qed.

End Proofs.
