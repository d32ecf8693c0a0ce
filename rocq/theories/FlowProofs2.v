From Verif Require Import Base FlowModel FlowSpec FlowProofs1.
From Coq Require Import Lia.

Section Proofs.

Context {W E R V X A F It : Type}.
Notation ops := (@ops W E R V X A F It).
Notation expr := (@expr W E R X A F).
Notation stmt := (@stmt W E R X A F It).
Notation label := (@label W E R X A F).
Notation result := (@result R).
Notation node := (@node W E R X A F It).
Notation out := (@out R X).
Notation mst := (@mst W E R X A F It).
Notation ctx := (@ctx W E R X A F It).
Notation res := (@res W E R X A F It).
Notation ref := (@ref W E R X A F It).
Notation ptc := (@ptc W E R X A F It).
Notation job := (@job W E R V X A F It).

Variable ptcf : bool.
Variable body : F -> list stmt.
Variable o : ops.
Notation gen := (@gen W E R X A F It ptcf).
Notation code := (@code W E R X A F It ptcf).
Notation frag := (@frag W E R X A F It ptcf).
Notation run := (@run W E R V X A F It ptcf body o).
Notation eval := (@eval W E R V X A F It o body).
Notation call := (@call W E R V X A F It o body).
Notation scope := (@scope W E R V X A F It o body).
Notation unwind := (@unwind W E R V X A F It o body).
Notation stmts := (@stmts W E R V X A F It o body).
Notation stmt_ := (@stmt_ W E R V X A F It o body).
Notation cond := (@cond W E R V X A F It o body).
Notation find := (@find W E R V X A F It o body).
Notation each := (@each W E R V X A F It o body).
Notation loop := (@loop W E R V X A F It o body).
Notation read := (@read W E R V X A F It o).
Notation returned := (@returned W E R V X A F It o).
Notation finish := (@finish W E R V X A F It o).

Ltac un H := match goal with U : unwind _ _ _ _ _ |- _ => rename U into H end.
Ltac st1 H := match goal with U : stmt_ _ _ _ _ _ _ _ _ |- _ => rename U into H end.
Ltac sts H := match goal with U : stmts _ _ _ _ _ _ _ _ |- _ => rename U into H end.

(* ---- unwinding ---- *)
Definition unwound (ds : list (E * expr)) (w w' : W) (ox : option X) : Prop :=
  match ox with
  | None => forall r, unwind ds r w w' r
  | Some x => forall r, unwind ds r w w' (OThrow x)
  end.

Lemma unwind_sub : forall ds r w w' r',
  unwind ds r w w' r' ->
  (r' = r /\ unwound ds w w' None) \/ (exists x, r' = OThrow x /\ unwound ds w w' (Some x)).
Proof.
  induction ds as [|[e x] ds IH]; intros r w w' r' H; inversion H; subst; clear H; try un Hn.
  - left. split; [reflexivity|]. intros ?. apply un_nil.
  - destruct (IH _ _ _ _ Hn) as [[-> Hu]|[y [-> Hu]]].
    + left. split; [reflexivity|]. intros q. eapply un_ok; eauto.
    + right. exists y. split; [reflexivity|]. intros q. eapply un_ok; eauto.
  - destruct (IH _ _ _ _ Hn) as [[-> Hu]|[z [-> Hu]]].
    + right. exists y. split; [reflexivity|]. intros q. eapply un_throw; eauto.
    + right. exists z. split; [reflexivity|]. intros q. eapply un_throw; eauto.
Qed.

Lemma unwound_ok : forall ds e x w w1 w2 r ox,
  eval e x w w1 (inl r) -> unwound ds w1 w2 ox -> unwound ((e, x) :: ds) w w2 ox.
Proof. intros ds e x w w1 w2 r [y|] H1 H2 q; eapply un_ok; eauto; apply H2. Qed.
Lemma unwound_throw : forall ds e x w w1 w2 y ox,
  eval e x w w1 (inr y) -> unwound ds w1 w2 ox ->
  unwound ((e, x) :: ds) w w2 (Some (match ox with Some z => z | None => y end)).
Proof. intros ds e x w w1 w2 y [z|] H1 H2 q; eapply un_throw; eauto; apply H2. Qed.
Lemma unwound_nil : forall w, unwound [] w w None.
Proof. intros w r. apply un_nil. Qed.

(* ---- statement lists of the specification ---- *)
Lemma stmts_app : forall l1 e ds l2 w e1 ds1 w1 e2 ds2 w2 r,
  stmts e ds l1 w e1 ds1 w1 ONext -> stmts e1 ds1 l2 w1 e2 ds2 w2 r ->
  stmts e ds (l1 ++ l2) w e2 ds2 w2 r.
Proof.
  induction l1 as [|s l1 IH]; intros * H1 H2; inversion H1; subst; clear H1; simpl.
  - assumption.
  - eapply ss_next; eauto.
  - congruence.
Qed.
Lemma stmts_app_stop : forall l1 e ds l2 w e1 ds1 w1 r,
  stmts e ds l1 w e1 ds1 w1 r -> r <> ONext ->
  stmts e ds (l1 ++ l2) w e1 ds1 w1 r.
Proof.
  induction l1 as [|s l1 IH]; intros * H1 H2; inversion H1; subst; clear H1; simpl.
  - congruence.
  - eapply ss_next; eauto.
  - apply ss_stop; assumption.
Qed.
Lemma stmts_app_inv : forall l1 l2 e ds w e2 ds2 w2 r,
  stmts e ds (l1 ++ l2) w e2 ds2 w2 r ->
  (exists e1 ds1 w1, stmts e ds l1 w e1 ds1 w1 ONext /\ stmts e1 ds1 l2 w1 e2 ds2 w2 r)
  \/ (stmts e ds l1 w e2 ds2 w2 r /\ r <> ONext).
Proof.
  induction l1 as [|s l1 IH]; intros * H; simpl in H.
  - left. exists e, ds, w. split; [apply ss_nil|assumption].
  - inversion H; subst; clear H.
    + sts Hn. destruct (IH _ _ _ _ _ _ _ _ Hn) as [[e3 [ds3 [w3 [Ha Hb]]]]|[Ha Hb]].
      * left. exists e3, ds3, w3. split; [eapply ss_next; eauto|assumption].
      * right. split; [eapply ss_next; eauto|assumption].
    + right. split; [apply ss_stop; assumption|assumption].
Qed.

Lemma scopeless_stmt : forall s e ds w e' ds' w' r, is_scopeless s = true ->
  stmt_ e ds s w e' ds' w' r ->
  e' = e /\ ds' = ds /\ forall d, stmt_ e d s w e d w' r.
Proof.
  intros s e ds w e' ds' w' r Hs H.
  revert Hs. induction H; intros Hs; try discriminate Hs;
    (split; [reflexivity|split; [reflexivity|intros d0]]);
    try solve [econstructor; eauto].
  - destruct (IHstmt_ Hs) as [_ [_ H']]. eapply st_do_again; eauto.
  - destruct (IHstmt_ Hs) as [_ [_ H']]. eapply st_while_again; eauto.
Qed.
Lemma scopeless_stmts : forall l e ds w e' ds' w' r, forallb is_scopeless l = true ->
  stmts e ds l w e' ds' w' r ->
  e' = e /\ ds' = ds /\ forall d, stmts e d l w e d w' r.
Proof.
  induction l as [|s l IH]; intros * Hs H; inversion H; subst; clear H; simpl in Hs; try st1 H4; try sts H12;
    try (apply andb_prop in Hs; destruct Hs as [Hs Hl]).
  - repeat split. intros. apply ss_nil.
  - destruct (scopeless_stmt _ _ _ _ _ _ _ _ Hs H4) as [-> [-> H']].
    destruct (IH _ _ _ _ _ _ _ Hl H12) as [-> [-> H'']].
    repeat split. intros. eapply ss_next; eauto.
  - destruct (scopeless_stmt _ _ _ _ _ _ _ _ Hs H4) as [-> [-> H']].
    repeat split. intros. apply ss_stop; auto.
Qed.
Lemma flat_scopeless : forall s : stmt, flat s = true -> exists l, s = SBlock l /\ forallb is_scopeless l = true.
Proof.
  intros [] H; try discriminate. exists l. split; [reflexivity|].
  destruct l as [|s' [|? ?]]; try exact H. simpl in *. rewrite andb_true_r.
  destruct s'; try exact H; reflexivity.
Qed.
Lemma defers_stmt : forall s e ds w e' ds' w' r,
  stmt_ e ds s w e' ds' w' r -> ds' = ds \/ is_defer s = true.
Proof. intros * H. destruct H; auto. Qed.
Lemma defers_stmts : forall l e ds w e' ds' w' r,
  stmts e ds l w e' ds' w' r -> ds' = ds \/ existsb is_defer l = true.
Proof.
  induction l as [|s l IH]; intros * H; inversion H; subst; clear H; try st1 H4; try sts H12; simpl.
  - auto.
  - destruct (defers_stmt _ _ _ _ _ _ _ _ H4) as [-> | ->]; [|auto].
    destruct (IH _ _ _ _ _ _ _ H12) as [-> | ->]; [auto|rewrite orb_true_r; auto].
  - destruct (defers_stmt _ _ _ _ _ _ _ _ H4) as [-> | ->]; auto.
Qed.

(* ---- the machine ---- *)
Definition mdef (d : E * expr) : E * list node := (fst d, gen_expr ptcf ptc_none (Some (snd d))).
Definition ref_of (r : result) : ref := match r with Void => RVoid | Val r => RVal r end.

Definition matches (r : out) (m : mst) : Prop :=
  match r with
  | ONext => stat m = st_next
  | OBreak t => stat m = st_break t
  | OContinue t => stat m = st_continue t
  | OReturn Void =>
      stat m = st_return_void \/ (stat m = st_return /\ exists s, stk m = RVoid :: s)
  | OReturn (Val r) => stat m = st_return /\ exists s, stk m = RVal r :: s
  | OThrow _ => False
  end.

Definition Leave (k : nat) (c : ctx) (r : res) : res :=
  match r with
  | Go c' m' => seq (run k (JExit c') m') c (Go c)
  | Exn x c' m' => seq (run k (JExitExn x c') m') c (Go c)
  | r => r
  end.

Lemma run_O : forall j m, run 0 j m = Fuel.
Proof. reflexivity. Qed.
Lemma run_nil : forall k c m, run (S k) (JSeq [] c) m = Go c m.
Proof. reflexivity. Qed.
Lemma run_cons : forall k x l c m,
  run (S k) (JSeq (x :: l) c) m =
  match run k (JNode x c) m with
  | Go c' m' => if is_next (stat m') then run k (JSeq l c') m' else Go c' m'
  | r => r
  end.
Proof. reflexivity. Qed.

Lemma seq_app : forall a n rest c m, stat m = st_next ->
  run n (JSeq (a ++ rest) c) m =
  match run n (JSeq a c) m with
  | Go c' m' => if is_next (stat m') then run (n - length a) (JSeq rest c') m' else Go c' m'
  | r => r
  end.
Proof.
  induction a as [|x a IH]; intros [|n] rest c m Hm; try reflexivity.
  - cbn [app length]. rewrite run_nil, Hm, Nat.sub_0_r. reflexivity.
  - cbn [app length]. rewrite !run_cons. cbn [Nat.sub].
    destruct (run n (JNode x c) m) as [c' m'| | |]; try reflexivity.
    destruct (stat m') eqn:Es; cbn [is_next]; rewrite ?Es; try reflexivity.
    cbn [is_next]. apply IH; assumption.
Qed.
Lemma seq_single : forall k x c m, run (S k) (JSeq [x] c) m = run k (JNode x c) m.
Proof.
  intros k x c m. rewrite run_cons. destruct (run k (JNode x c) m) as [c' m'| | |] eqn:Er; try reflexivity.
  destruct k; [discriminate|]. rewrite run_nil. destruct (is_next (stat m')); reflexivity.
Qed.

(* ---- terminators ---- *)
Lemma exitloop_stat : forall n c saved s m c' m',
  run n (JExitLoop c saved s) m = Go c' m' -> stat m' = s.
Proof.
  induction n as [|n IH]; intros c saved s m c' m' H; [discriminate|].
  cbn [FlowModel.run] in H. destruct (dfr c) as [|[e cd] d] eqn:Ed.
  - injection H as _ <-. reflexivity.
  - destruct (run n (JRod cd {| names := e; dfr := [] |}) m) as [c1 m1|x1 c1 m1| |]; try discriminate.
    + destruct (is_next (stat m1)); [|discriminate]. eapply IH; eassumption.
    + exfalso. clear -H. revert x1 d m1 H. generalize (names c). clear.
      induction n as [|n IH]; intros e x d m H; [discriminate|].
      cbn [FlowModel.run dfr] in H. destruct d as [|[e1 cd] d]; [discriminate|].
      destruct (run n (JRod cd {| names := e1; dfr := [] |}) m) as [c1 m1|x1 c1 m1| |]; try discriminate.
      * destruct (is_next (stat m1)); [|discriminate]. eapply IH; eassumption.
      * eapply IH; eassumption.
Qed.
Lemma exitexn_go : forall n x c m c' m', run n (JExitExn x c) m = Go c' m' -> False.
Proof.
  induction n as [|n IH]; intros x c m c' m' H; [discriminate|].
  cbn [FlowModel.run] in H. destruct (dfr c) as [|[e1 cd] d]; [discriminate|].
  destruct (run n (JRod cd {| names := e1; dfr := [] |}) m) as [c1 m1|x1 c1 m1| |]; try discriminate.
  - destruct (is_next (stat m1)); [|discriminate]. eapply IH; eassumption.
  - eapply IH; eassumption.
Qed.
Lemma exit_stat : forall n c m c' m', run n (JExit c) m = Go c' m' -> stat m' = stat m.
Proof.
  intros [|n] c m c' m' H; [discriminate|]. cbn [FlowModel.run] in H.
  destruct (dfr c) as [|d ds] eqn:Ed; [injection H as _ <-; reflexivity|].
  destruct (stat m) eqn:Es; try (apply exitloop_stat in H; assumption).
  destruct (stk m) as [|[| |r|p] s]; try discriminate; try (apply exitloop_stat in H; assumption).
  injection H as _ <-. simpl. assumption.
Qed.
Lemma leave_stat : forall n c r c' m',
  Leave n c r = Go c' m' -> exists c1 m1, r = Go c1 m1 /\ stat m' = stat m1.
Proof.
  intros n c [c1 m1|x c1 m1| |] c' m' H; try discriminate.
  - simpl in H. destruct (run n (JExit c1) m1) as [c2 m2| | |] eqn:Er; try discriminate.
    simpl in H. injection H as _ <-. exists c1, m1. split; [reflexivity|].
    eapply exit_stat; eassumption.
  - simpl in H. destruct (run n (JExitExn x c1) m1) as [c2 m2| | |] eqn:Er; try discriminate.
    apply exitexn_go in Er. contradiction.
Qed.

Lemma back_eq : forall l : list node,
  (fix back (l : list node) : bool :=
     match l with
     | [] => false
     | [y] => is_terminator y
     | _ :: l => back l
     end) l = back_terminator l.
Proof. induction l as [|x [|y l] IH]; try reflexivity. Qed.

Lemma terminator_seq : forall n cd c m c' m', back_terminator cd = true ->
  run n (JSeq cd c) m = Go c' m' -> stat m' <> st_next.
Proof.
  induction n as [n IH] using lt_wf_ind. intros cd c m c' m' Hb H.
  destruct n as [|n]; [discriminate|]. destruct cd as [|x cd]; [discriminate|].
  rewrite run_cons in H.
  destruct (run n (JNode x c) m) as [c1 m1| | |] eqn:Ex; try discriminate.
  destruct (is_next (stat m1)) eqn:En.
  2:{ injection H as <- <-. intros Hn. rewrite Hn in En. discriminate. }
  destruct cd as [|y cd].
  2:{ change (back_terminator (y :: cd) = true) in Hb. eapply IH; [|exact Hb|exact H]. lia. }
  exfalso. clear H. change (is_terminator x = true) in Hb.
  destruct n as [|n]; [discriminate|].
  assert (Hblock : forall b c0 m0 c2 m2, back_terminator b = true ->
             run n (JBlock b c0) m0 = Go c2 m2 -> stat m2 <> st_next).
  { intros b c0 m0 c2 m2 Hbb Hr. destruct n as [|n]; [discriminate|].
    change (Leave n c0 (run n (JRod b {| names := names c0; dfr := [] |}) m0) = Go c2 m2) in Hr.
    apply leave_stat in Hr. destruct Hr as [c3 [m3 [Hr ->]]].
    destruct n as [|n]; [discriminate|].
    change (run n (JSeq b {| names := names c0; dfr := [] |}) (set_stat m0 st_next) = Go c3 m3) in Hr.
    eapply IH; [|exact Hbb|exact Hr]. lia. }
  destruct x; cbn [is_terminator] in Hb; rewrite ?back_eq in Hb; try discriminate.
  - (* expressions *)
    destruct e as [|pr| |]; try discriminate.
    change (run n (JExpr p (ECall pr) c) m = Go c1 m1) in Ex.
    destruct n as [|n]; [discriminate|]. cbn [FlowModel.run] in Ex.
    destruct (pr (names c) (world m)) as [w [[f a]|y]]; [|discriminate].
    destruct p; try discriminate; injection Ex as _ <-; discriminate.
  - (* blocks *)
    change (run n (JBlock b c) m = Go c1 m1) in Ex.
    apply Hblock in Ex; [|assumption]. destruct (stat m1); try discriminate. congruence.
  - (* if *)
    apply andb_prop in Hb. destruct Hb as [Hb1 Hb2].
    cbn [FlowModel.run] in Ex. unfold with_top, deref in Ex.
    destruct (stk m) as [|[| |r|p] s]; try discriminate.
    destruct (value o (world m) r) as [v|y]; [|discriminate].
    assert (stat m1 <> st_next).
    { destruct (xorb (test o v) negative);
        (apply Hblock in Ex; [exact Ex|assumption]). }
    destruct (stat m1); try discriminate. congruence.
  - (* status *)
    cbn [FlowModel.run] in Ex. injection Ex as _ <-. simpl in En. rewrite En in Hb. discriminate.
  - (* throw *)
    cbn [FlowModel.run] in Ex. unfold with_top, deref in Ex.
    destruct (stk m) as [|[| |r|p] s]; try discriminate.
    destruct (value o (world m) r) as [v|y]; discriminate.
  - (* return *)
    cbn [FlowModel.run] in Ex. destruct is_void.
    + injection Ex as _ <-. discriminate.
    + destruct (stk m) as [|[| |r|p] s]; try discriminate.
      * injection Ex as _ <-. discriminate.
      * unfold deref in Ex. destruct (value o (world m) r) as [v|y]; [|discriminate].
        destruct by_ref; injection Ex as _ <-; discriminate.
Qed.

End Proofs.
