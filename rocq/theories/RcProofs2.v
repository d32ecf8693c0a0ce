(* Every step keeps the invariant: assignments. *)
From Verif Require Import Base RcModel RcSpec RcProofs1.

Lemma target_edits p x : edits p = Some x -> target p = Some x.
Proof. destruct p; simpl; congruence. Qed.

Lemma target_alone p x : alone p = Some x -> target p = Some x.
Proof. destruct p; simpl; congruence. Qed.

Lemma edits_alone p x : alone p = Some x -> edits p = Some x.
Proof. destruct p; simpl; congruence. Qed.

Lemma not_dead acq c b m h : Inv acq c -> heap c b = Some m -> refers c h b -> forall u, pcs c u <> PDestroy b.
Proof.
  intros I Hm Hr u X. destruct (i_dead _ _ I u b X) as (m' & B1 & B2 & _).
  rewrite Hm in B1. injection B1 as <-. pose proof (i_count _ _ I b m Hm) as N. rewrite B2 in N.
  exact (number_zero _ N h Hr).
Qed.

(* other steps of a thread which neither takes nor gives a reference *)
Lemma inv_pc acq c t p :
  Inv acq c -> given (pcs c t) = None -> given p = None ->
  (forall b, pcs c t <> PDestroy b) -> (forall b, p <> PDestroy b) ->
  (forall x, target p = Some x -> holders c x = [t] /\ excl c x = true) ->
  (forall x, edits p = Some x -> exists b, slot c x = Some b) ->
  (forall x b m, alone p = Some x -> slot c x = Some b -> heap c b = Some m ->
     cnt m = 1 /\ (acq = true -> forall i k, In (i, k) (acc m) -> In i (know c t))) ->
  Inv acq (set_pc c t p).
Proof.
  intros [A1 A2 A3 A4 A5 A6 A7 A8 A9 A10 A11] G1 G2 D1 D2 H1 H2 H3.
  assert (R : forall h b, refers (set_pc c t p) h b <-> refers c h b).
  { intros [x|u] b; simpl; [tauto|]. uq; [rewrite G1, G2|]; tauto. }
  assert (D : forall u b, pcs (set_pc c t p) u = PDestroy b <-> pcs c u = PDestroy b).
  { intros u b. simpl. uq; [|tauto]. split; intro X; [destruct (D2 b X) | destruct (D1 b X)]. }
  constructor.
  - intros b m H. eapply number_ext; [|exact (A1 b m H)]. intro h. apply R.
  - intros h b H. apply R in H. exact (A2 h b H).
  - intros b m H H0. destruct (A3 b m H H0) as (u & B). exists u. apply D, B.
  - intros u b H. apply D in H. destruct (A4 u b H) as (m & B1 & B2 & B3 & B4).
    exists m. split; [exact B1 | split; [exact B2 | split; [exact B3|]]].
    intros v Hv. apply D in Hv. exact (B4 v Hv).
  - intros u x H. simpl in H |- *. uq; [exact (H1 x H) | exact (A5 u x H)].
  - intros u x H. simpl in H |- *. uq; [exact (H2 x H) | exact (A6 u x H)].
  - intros u x b m Q1 Q2 Q3. simpl in Q1, Q2, Q3 |- *. uq; [exact (H3 x b m Q1 Q2 Q3) | exact (A7 u x b m Q1 Q2 Q3)].
  - exact A8.
  - intros b m i k Q1 Q2. destruct (A9 b m i k Q1 Q2) as [B | [(h & B1 & B2) | (u & B)]].
    + left. exact B.
    + right. left. exists h. split; [apply R, B1 | exact B2].
    + right. right. exists u. apply D, B.
  - intros b m i k h Q1 Q2 Q3 Q4. apply R in Q4. exact (A10 b m i k h Q1 Q2 Q3 Q4).
  - exact A11.
Qed.

(* new storage *)
Lemma inv_alloc acq c t d b v :
  Inv acq c -> given (pcs c t) = None -> (forall b, pcs c t <> PDestroy b) -> heap c b = None ->
  holders c d = [t] -> excl c d = true ->
  Inv acq (set_pc (alloc c t b v) t (PReset d (Some b))).
Proof.
  intros [A1 A2 A3 A4 A5 A6 A7 A8 A9 A10 A11] G1 D1 Hb Hd1 Hd2.
  assert (N : forall h, ~ refers c h b) by (intros h X; destruct (A2 h b X); congruence).
  assert (R : forall h b', refers (set_pc (alloc c t b v) t (PReset d (Some b))) h b'
                <-> (b' = b /\ h = T t) \/ refers c h b').
  { intros [x|u] b'; simpl; [intuition congruence|]. uq; [simpl; rewrite G1 | ]; intuition congruence. }
  assert (D : forall u b', pcs (set_pc (alloc c t b v) t (PReset d (Some b))) u = PDestroy b' <-> pcs c u = PDestroy b').
  { intros u b'. simpl. uq; [|tauto]. split; intro X; [discriminate | destruct (D1 b' X)]. }
  assert (Db : forall u, pcs c u <> PDestroy b).
  { intros u X. destruct (A4 u b X) as (m & B & _). congruence. }
  assert (K : forall u i, In i (know c u) -> In i (upd (know c) t (now c :: know c t) u)).
  { intros u i H. uq; [right|]; exact H. }
  constructor.
  - intros b' m H. simpl in H. uq.
    + injection H as <-. simpl. exists [T t]. split; [constructor; [intros [] | constructor]|].
      split; [|reflexivity]. intro h. rewrite R. simpl. specialize (N h). intuition congruence.
    + eapply number_ext; [|exact (A1 b' m H)]. intro h. rewrite R. intuition congruence.
  - intros h b' H. apply R in H. simpl. uq; [eexists; reflexivity|].
    destruct H as [[H _] | H]; [congruence | exact (A2 h b' H)].
  - intros b' m H H0. simpl in H. uq; [injection H as <-; discriminate H0|].
    destruct (A3 b' m H H0) as (u & B). exists u. apply D, B.
  - intros u b' H. apply D in H. assert (b' <> b) by (intros ->; exact (Db u H)).
    destruct (A4 u b' H) as (m & B1 & B2 & B3 & B4). exists m. simpl. rewrite upd_ne by assumption.
    split; [exact B1 | split; [exact B2 | split]].
    + intros i k Hk. apply K. exact (B3 i k Hk).
    + intros w Hw. change (pcs (set_pc (alloc c t b v) t (PReset d (Some b))) w = PDestroy b') in Hw.
      apply D in Hw. exact (B4 w Hw).
  - intros u x H. simpl in H |- *. uq; [|exact (A5 u x H)]. simpl in H. injection H as <-. split; assumption.
  - intros u x H. simpl in H |- *. uq; [discriminate | exact (A6 u x H)].
  - intros u x b' m Q1 Q2 Q3. simpl in Q1, Q2, Q3 |- *.
    destruct (Nat.eqb_spec b' b) as [->|Nb]; [destruct (N (V x) Q2)|]. rewrite upd_ne in Q3 by assumption.
    unfold upd at 1 in Q1. destruct (Nat.eqb_spec u t) as [->|Nt]; [discriminate|].
    destruct (A7 u x b' m Q1 Q2 Q3) as (B1 & B2). split; [exact B1|]. intros Q i k Hk. apply K. exact (B2 Q i k Hk).
  - intros x H. simpl in H |- *. destruct (A8 x H) as (u & B1 & B2). exists u. split; [exact B1|].
    intros i Hi. apply K, B2, Hi.
  - intros b' m i k Q1 Q2. simpl in Q1. uq.
    + injection Q1 as <-. destruct Q2 as [Q2|[]]. injection Q2 as <- <-.
      right. left. exists (T t). split; [apply R; left; split; reflexivity|]. simpl. rewrite upd_eq. left. reflexivity.
    + destruct (A9 b' m i k Q1 Q2) as [B | [(h & B1 & B2) | (u & B)]].
      * left. exact B.
      * right. left. exists h. split; [apply R; right; exact B1|]. destruct h as [x|u]; simpl in B2 |- *.
        -- destruct B2 as [B2 | (w & B2 & B3)]; [left; exact B2 | right; exists w; split; [exact B2 | apply K, B3]].
        -- apply K, B2.
      * right. right. exists u. apply D, B.
  - intros b' m i k h Q1 Q2 Q3 Q4. simpl in Q1. uq.
    + injection Q1 as <-. destruct Q2 as [Q2|[]]. injection Q2 as <- <-.
      apply R in Q4. destruct Q4 as [[_ ->] | Q4]; [|destruct (N h Q4)]. simpl. rewrite upd_eq. left. reflexivity.
    + apply R in Q4. destruct Q4 as [[Q4 _] | Q4]; [congruence|].
      specialize (A10 b' m i k h Q1 Q2 Q3 Q4). destruct h as [x|u]; simpl in A10 |- *.
      * destruct A10 as [B1 B2]. split; [|exact B2]. intros w Hw. apply K, B1, Hw.
      * apply K, A10.
  - intros b' m i k Q1 Q2. simpl in Q1. uq; [|exact (A11 b' m i k Q1 Q2)].
    injection Q1 as <-. destruct Q2 as [Q2|[]]. injection Q2 as <- <-. discriminate.
Qed.

(* a further reference *)
Lemma inv_inc acq c t d s b m :
  Inv acq c -> pcs c t = PIdle -> heap c b = Some m -> slot c s = Some b -> In t (holders c s) ->
  holders c d = [t] -> excl c d = true ->
  Inv acq (set_pc (set_heap c b (Some (mk_blk (cnt m + 1) (data m) (rel m) (acc m)))) t (PReset d (Some b))).
Proof.
  intros I G Hm Hs Ht Hd1 Hd2. pose proof (not_dead acq c b m (V s) I Hm Hs) as Nd.
  destruct I as [A1 A2 A3 A4 A5 A6 A7 A8 A9 A10 A11].
  set (c' := set_pc _ _ _).
  assert (R : forall h b', refers c' h b' <-> (b' = b /\ h = T t) \/ refers c h b').
  { intros [x|u] b'; simpl; [intuition congruence|]. uq; [simpl; rewrite G; simpl | ]; intuition congruence. }
  assert (D : forall u b', pcs c' u = PDestroy b' <-> pcs c u = PDestroy b').
  { intros u b'. simpl. uq; [|tauto]. rewrite G. split; discriminate. }
  constructor.
  - intros b' m' H. simpl in H. uq.
    + injection H as <-. simpl. apply (number_add (fun h => refers c h b) _ (T t)).
      * simpl. rewrite G. discriminate.
      * intro h. rewrite R. intuition congruence.
      * exact (A1 b m Hm).
    + eapply number_ext; [|exact (A1 b' m' H)]. intro h. rewrite R. intuition congruence.
  - intros h b' H. apply R in H. simpl. uq; [eexists; reflexivity|].
    destruct H as [[H _] | H]; [congruence | exact (A2 h b' H)].
  - intros b' m' H H0. simpl in H. uq.
    + injection H as <-. simpl in H0. pose proof (number_nonneg _ _ (A1 b m Hm)). lia.
    + destruct (A3 b' m' H H0) as (u & B). exists u. apply D, B.
  - intros u b' H. apply D in H. assert (b' <> b) by (intros ->; exact (Nd u H)).
    destruct (A4 u b' H) as (m' & B1 & B2 & B3 & B4). exists m'. simpl. rewrite upd_ne by assumption.
    split; [exact B1 | split; [exact B2 | split; [exact B3|]]]. intros w Hw. apply D in Hw. exact (B4 w Hw).
  - intros u x H. simpl in H |- *. uq; [|exact (A5 u x H)]. simpl in H. injection H as <-. split; assumption.
  - intros u x H. simpl in H |- *. uq; [discriminate | exact (A6 u x H)].
  - intros u x b' m' Q1 Q2 Q3. simpl in Q1, Q2, Q3 |- *.
    unfold upd at 1 in Q1. destruct (Nat.eqb_spec u t) as [->|Nt]; [discriminate|].
    destruct (Nat.eqb_spec b' b) as [->|Nb].
    + exfalso. destruct (A7 u x b m Q1 Q2 Hm) as (B1 & _). pose proof (A1 b m Hm) as N. rewrite B1 in N.
      pose proof (number_one _ (V x) N Q2 (V s) Hs) as X. injection X as ->.
      destruct (A5 u x (target_alone _ _ Q1)) as [C _]. rewrite C in Ht. destruct Ht as [Ht|[]]. congruence.
    + rewrite upd_ne in Q3 by assumption. exact (A7 u x b' m' Q1 Q2 Q3).
  - exact A8.
  - intros b' m' i k Q1 Q2.
    assert (exists m0, heap c b' = Some m0 /\ rel m' = rel m0 /\ acc m' = acc m0) as (m0 & E1 & E2 & E3).
    { simpl in Q1. uq; [injection Q1 as <-; exists m; repeat split; exact Hm | exists m'; repeat split; exact Q1]. }
    rewrite E2. rewrite E3 in Q2. destruct (A9 b' m0 i k E1 Q2) as [B | [(h & B1 & B2) | (u & B)]].
    + left. exact B.
    + right. left. exists h. split; [apply R; right; exact B1 | exact B2].
    + right. right. exists u. apply D, B.
  - intros b' m' i k h Q1 Q2 Q3 Q4.
    assert (exists m0, heap c b' = Some m0 /\ acc m' = acc m0) as (m0 & E1 & E3).
    { simpl in Q1. uq; [injection Q1 as <-; exists m; repeat split; exact Hm | exists m'; repeat split; exact Q1]. }
    rewrite E3 in Q2. apply R in Q4. destruct Q4 as [[-> ->] | Q4]; [|exact (A10 b' m0 i k h E1 Q2 Q3 Q4)].
    destruct (A10 b m0 i k (V s) E1 Q2 Q3 Hs) as [B _]. exact (B t Ht).
  - intros b' m' i k Q1 Q2. simpl in Q1. uq; [|exact (A11 b' m' i k Q1 Q2)].
    injection Q1 as <-. exact (A11 b m i k Hm Q2).
Qed.

(* a variable without storage is given some *)
Lemma inv_set acq c t d h :
  Inv acq c -> pcs c t = PReset d h -> slot c d = None -> Inv acq (set_pc (set_slot c d h) t PIdle).
Proof.
  intros [A1 A2 A3 A4 A5 A6 A7 A8 A9 A10 A11] G Hd.
  destruct (A5 t d) as [Hd1 Hd2]; [rewrite G; reflexivity|].
  set (c' := set_pc _ _ _).
  assert (R : forall q b, refers c' q b <-> (h = Some b /\ q = V d) \/ (q <> T t /\ refers c q b)).
  { intros [x|u] b; simpl; uq; try rewrite G; try rewrite Hd; simpl; intuition congruence. }
  assert (Rt : forall b, refers c (T t) b <-> h = Some b) by (intro b; simpl; rewrite G; simpl; tauto).
  assert (D : forall u b', pcs c' u = PDestroy b' <-> pcs c u = PDestroy b').
  { intros u b'. simpl. uq; [|tauto]. rewrite G. split; discriminate. }
  constructor.
  - intros b m H. specialize (A1 b m H).
    destruct (option_map (Nat.eqb b) h) as [[]|] eqn:Q.
    + destruct h as [b0|]; [|discriminate]. simpl in Q. injection Q as Q. apply Nat.eqb_eq in Q. subst b0.
      apply (number_move (fun h => refers c h b) _ (T t) (V d)); [apply Rt; reflexivity | simpl; congruence | | exact A1].
      intro q. rewrite R. intuition congruence.
    + eapply number_ext; [|exact A1]. intro q. rewrite R. destruct h as [b0|]; [|discriminate].
      simpl in Q. injection Q as Q. apply Nat.eqb_neq in Q. pose proof (Rt b). split.
      * intros [[X _]|[_ X]]; [congruence | exact X].
      * intro X. right. split; [|exact X]. intros ->. apply H0 in X. congruence.
    + eapply number_ext; [|exact A1]. intro q. rewrite R. destruct h as [b0|]; [discriminate|].
      pose proof (Rt b). split.
      * intros [[X _]|[_ X]]; [congruence | exact X].
      * intro X. right. split; [|exact X]. intros ->. apply H0 in X. congruence.
  - intros q b H. apply R in H. destruct H as [[-> ->] | [_ H]]; [apply (A2 (T t)); apply Rt; reflexivity | exact (A2 q b H)].
  - intros b m H H0. destruct (A3 b m H H0) as (u & B). exists u. apply D, B.
  - intros u b H. apply D in H. destruct (A4 u b H) as (m & B1 & B2 & B3 & B4).
    exists m. split; [exact B1 | split; [exact B2 | split; [exact B3|]]].
    intros v Hv. apply D in Hv. exact (B4 v Hv).
  - intros u x H. simpl in H |- *. unfold upd in H. destruct (Nat.eqb_spec u t); [discriminate | exact (A5 u x H)].
  - intros u x H. simpl in H |- *. unfold upd in H. destruct (Nat.eqb_spec u t); [discriminate|].
    destruct (A6 u x H) as (b & B). exists b. rewrite upd_ne; [exact B|]. intros ->. congruence.
  - intros u x b m Q1 Q2 Q3. simpl in Q1, Q2, Q3 |- *. unfold upd in Q1.
    destruct (Nat.eqb_spec u t); [discriminate|].
    assert (x <> d). { intros ->. destruct (A6 u d (edits_alone _ _ Q1)). congruence. }
    rewrite upd_ne in Q2 by assumption. exact (A7 u x b m Q1 Q2 Q3).
  - exact A8.
  - intros b m i k Q1 Q2. destruct (A9 b m i k Q1 Q2) as [B | [(q & B1 & B2) | (u & B)]].
    + left. exact B.
    + right. left. destruct (handle_dec q (T t)) as [->|Nq].
      * exists (V d). split; [apply R; left; split; [apply Rt, B1 | reflexivity]|]. simpl. right. exists t.
        split; [rewrite Hd1; left; reflexivity | exact B2].
      * exists q. split; [apply R; right; split; assumption | exact B2].
    + right. right. exists u. apply D, B.
  - intros b m i k q Q1 Q2 Q3 Q4. apply R in Q4. destruct Q4 as [[Q4 ->] | [_ Q4]]; [|exact (A10 b m i k q Q1 Q2 Q3 Q4)].
    apply Rt in Q4. pose proof (A10 b m i k (T t) Q1 Q2 Q3 Q4) as B. simpl in B |- *. rewrite Hd1, Hd2.
    split; [|discriminate]. intros v [<-|[]]. exact B.
  - exact A11.
Qed.

(* a variable with storage is given other one *)
Lemma inv_dec acq c t d h b m k :
  Inv acq c -> pcs c t = PReset d h -> slot c d = Some b -> heap c b = Some m ->
  k = know c t -> incl (rel m) k ->
  Inv acq (set_pc (set_slot (set_heap c b (Some (mk_blk (cnt m - 1) (data m) k (acc m)))) d h) t
             (if cnt m - 1 =? 0 then PDestroy b else PIdle)).
Proof.
  intros I G Hd Hm -> Hk. pose proof (not_dead acq c b m (V d) I Hm Hd) as Nd.
  destruct I as [A1 A2 A3 A4 A5 A6 A7 A8 A9 A10 A11].
  destruct (A5 t d) as [Hd1 Hd2]; [rewrite G; reflexivity|].
  assert (Hvc : incl (vc c d) (know c t)).
  { destruct (A8 d Hd2) as (u & B1 & B2). rewrite Hd1 in B1. injection B1 as <-. exact B2. }
  assert (Htr : forall i, trace c (V d) i -> In i (know c t)).
  { intros i [X | (v & X & Y)]; [apply Hvc, X|]. rewrite Hd1 in X. destruct X as [<-|[]]. exact Y. }
  set (p := if cnt m - 1 =? 0 then PDestroy b else PIdle).
  set (c' := set_pc _ _ _).
  assert (Gp : given p = None) by (unfold p; destruct (_ =? _); reflexivity).
  assert (R : forall q b', refers c' q b' <-> (h = Some b' /\ q = V d) \/ (q <> V d /\ q <> T t /\ refers c q b')).
  { intros [x|u] b'; simpl; uq; try rewrite Gp; simpl; intuition congruence. }
  assert (Rt : forall b', refers c (T t) b' <-> h = Some b') by (intro b'; simpl; rewrite G; simpl; tauto).
  assert (Rd : forall b', refers c (V d) b' <-> b' = b) by (intro b'; simpl; rewrite Hd; intuition congruence).
  assert (Hh : {h = Some b} + {h <> Some b}) by (decide equality; apply Nat.eq_dec).
  assert (E : forall b' m', heap c' b' = Some m' -> exists m0, heap c b' = Some m0 /\ acc m' = acc m0
              /\ incl (rel m0) (rel m' ++ know c t) /\ (b' <> b -> m' = m0)).
  { intros b' m' H. simpl in H. uq.
    - injection H as <-. exists m. simpl. split; [exact Hm | split; [reflexivity | split; [|congruence]]].
      intros i X. apply in_or_app. left. apply Hk, X.
    - exists m'. split; [exact H | split; [reflexivity | split; [|reflexivity]]].
      intros i X. apply in_or_app. left. exact X. }
  assert (Hp : forall u b', pcs c' u = PDestroy b' -> (u = t /\ b' = b /\ cnt m = 1) \/ (u <> t /\ b' <> b /\ pcs c u = PDestroy b')).
  { intros u b' H. simpl in H. uq.
    - left. unfold p in H. destruct (Z.eqb_spec (cnt m - 1) 0); [|discriminate]. injection H as <-. repeat split; lia.
    - right. split; [assumption | split; [|exact H]]. intros ->. exact (Nd u H). }
  constructor.
  - intros b' m' H. simpl in H. uq.
    + injection H as <-. simpl. specialize (A1 b m Hm).
      destruct Hh as [->|Nh].
      * apply (number_del (fun h => refers c h b) _ (T t)); [apply Rt; reflexivity | | exact A1].
        intro q. rewrite R. pose proof (Rd b). destruct (handle_dec q (V d)) as [->|Nq]; intuition congruence.
      * apply (number_del (fun h => refers c h b) _ (V d)); [exact Hd | | exact A1].
        intro q. rewrite R. pose proof (Rt b). destruct (handle_dec q (T t)) as [->|Nq]; intuition congruence.
    + specialize (A1 b' m' H). destruct h as [b0|].
      * destruct (Nat.eq_dec b0 b') as [->|Nb].
        -- apply (number_move (fun h => refers c h b') _ (T t) (V d)); [apply Rt; reflexivity | simpl; congruence | | exact A1].
           intro q. rewrite R. pose proof (Rd b'). destruct (handle_dec q (V d)) as [->|Nq]; intuition congruence.
        -- eapply number_ext; [|exact A1]. intro q. rewrite R. pose proof (Rd b'). pose proof (Rt b').
           destruct (handle_dec q (V d)) as [->|Nq]; [|destruct (handle_dec q (T t)) as [->|Nq']]; intuition congruence.
      * eapply number_ext; [|exact A1]. intro q. rewrite R. pose proof (Rd b'). pose proof (Rt b').
        destruct (handle_dec q (V d)) as [->|Nq]; [|destruct (handle_dec q (T t)) as [->|Nq']]; intuition congruence.
  - intros q b' H. apply R in H. simpl. uq; [eexists; reflexivity|].
    destruct H as [[-> ->] | (_ & _ & H)]; [apply (A2 (T t)), Rt; reflexivity | exact (A2 q b' H)].
  - intros b' m' H H0. simpl in H. uq.
    + injection H as <-. simpl in H0. exists t. simpl. rewrite upd_eq. unfold p. rewrite H0. reflexivity.
    + destruct (A3 b' m' H H0) as (u & B). exists u. simpl. rewrite upd_ne; [exact B|]. intros ->. congruence.
  - intros u b' H. destruct (Hp u b' H) as [(-> & -> & C) | (Nu & Nb & X)].
    + exists (mk_blk (cnt m - 1) (data m) (know c t) (acc m)). simpl. rewrite upd_eq.
      split; [reflexivity | split; [lia | split]].
      * intros i k Q. destruct (A9 b m i k Hm Q) as [B | [(q & B1 & B2) | (u & B)]].
        -- apply Hk, B.
        -- pose proof (A1 b m Hm) as N. rewrite C in N.
           assert (q = V d) as -> by exact (number_one _ (V d) N Hd q B1). apply Htr, B2.
        -- destruct (Nd u B).
      * intros u Hu. change (pcs c' u = PDestroy b) in Hu. destruct (Hp u b Hu) as [(X & _) | (_ & X & _)]; congruence.
    + destruct (A4 u b' X) as (m' & B1 & B2 & B3 & B4). exists m'. simpl. rewrite upd_ne by assumption.
      split; [exact B1 | split; [exact B2 | split; [exact B3|]]].
      intros w Hw. change (pcs c' w = PDestroy b') in Hw. destruct (Hp w b' Hw) as [(_ & Y & _) | (_ & _ & Y)]; [congruence|].
      exact (B4 w Y).
  - intros u x H. simpl in H |- *. uq; [|exact (A5 u x H)]. unfold p in H. destruct (_ =? _); discriminate.
  - intros u x H. simpl in H |- *. unfold upd in H.
    destruct (Nat.eqb_spec u t) as [->|Nu]; [unfold p in H; destruct (_ =? _); discriminate|].
    destruct (A6 u x H) as (b' & B). exists b'. rewrite upd_ne; [exact B|]. intros ->.
    destruct (A5 u d (target_edits _ _ H)) as [X _]. congruence.
  - intros u x b' m' Q1 Q2 Q3. simpl in Q1, Q2, Q3 |- *. unfold upd in Q1.
    destruct (Nat.eqb_spec u t) as [->|Nu]; [unfold p in Q1; destruct (_ =? _); discriminate|].
    assert (x <> d). { intros ->. destruct (A5 u d (target_alone _ _ Q1)) as [X _]. congruence. }
    rewrite upd_ne in Q2 by assumption. destruct (Nat.eqb_spec b' b) as [->|Nb].
    + exfalso. destruct (A7 u x b m Q1 Q2 Hm) as (B1 & _). pose proof (A1 b m Hm) as N. rewrite B1 in N.
      pose proof (number_one _ (V x) N Q2 (V d) Hd) as X. injection X as ->. congruence.
    + rewrite upd_ne in Q3 by assumption. exact (A7 u x b' m' Q1 Q2 Q3).
  - exact A8.
  - intros b' m' i k Q1 Q2. destruct (E b' m' Q1) as (m0 & E1 & E2 & E3 & E4). rewrite E2 in Q2.
    destruct (Nat.eq_dec b' b) as [->|Nb].
    + simpl in Q1. rewrite upd_eq in Q1. injection Q1 as <-. simpl. rewrite Hm in E1. injection E1 as <-.
      destruct (A9 b m i k Hm Q2) as [B | [(q & B1 & B2) | (u & B)]].
      * left. apply Hk, B.
      * destruct (handle_dec q (V d)) as [->|Nq]; [left; apply Htr, B2|].
        destruct (handle_dec q (T t)) as [->|Nq']; [left; exact B2|].
        right. left. exists q. split; [apply R; right; repeat split; assumption | exact B2].
      * destruct (Nd u B).
    + rewrite (E4 Nb). destruct (A9 b' m0 i k E1 Q2) as [B | [(q & B1 & B2) | (u & B)]].
      * left. exact B.
      * right. left. destruct (handle_dec q (V d)) as [->|Nq]; [apply Rd in B1; congruence|].
        destruct (handle_dec q (T t)) as [->|Nq'].
        -- exists (V d). split; [apply R; left; split; [apply Rt, B1 | reflexivity]|]. simpl. right. exists t.
           split; [rewrite Hd1; left; reflexivity | exact B2].
        -- exists q. split; [apply R; right; repeat split; assumption | exact B2].
      * right. right. exists u. simpl. rewrite upd_ne; [exact B|]. intros ->. congruence.
  - intros b' m' i k q Q1 Q2 Q3 Q4. destruct (E b' m' Q1) as (m0 & E1 & E2 & _). rewrite E2 in Q2.
    apply R in Q4. destruct Q4 as [[Q4 ->] | (_ & _ & Q4)]; [|exact (A10 b' m0 i k q E1 Q2 Q3 Q4)].
    apply Rt in Q4. pose proof (A10 b' m0 i k (T t) E1 Q2 Q3 Q4) as B. simpl in B |- *. rewrite Hd1, Hd2.
    split; [|discriminate]. intros v [<-|[]]. exact B.
  - intros b' m' i k Q1 Q2. destruct (E b' m' Q1) as (m0 & E1 & E2 & _). rewrite E2 in Q2. exact (A11 b' m0 i k E1 Q2).
Qed.
