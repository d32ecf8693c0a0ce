(* Every step keeps the invariant: destruction, locks, exchange; the theorem. *)
From Coq Require Import FinFun.
From Verif Require Import Base RcModel RcSpec RcProofs1 RcProofs2.

Lemma inv_free acq c t b m :
  Inv acq c -> pcs c t = PDestroy b -> heap c b = Some m ->
  Inv acq (set_pc (set_heap (touched c t b De m) b None) t PIdle).
Proof.
  intros [A1 A2 A3 A4 A5 A6 A7 A8 A9 A10 A11] G Hm.
  destruct (A4 t b G) as (m' & B1 & B2 & _ & B4). rewrite Hm in B1. injection B1 as <-.
  assert (N : forall h, ~ refers c h b).
  { intros h. pose proof (A1 b m Hm) as N. rewrite B2 in N. exact (number_zero _ N h). }
  set (c' := set_pc _ _ _).
  assert (E : forall b' x, heap c' b' = Some x -> b' <> b /\ heap c b' = Some x).
  { intros b' x H. simpl in H. unfold upd in H. destruct (Nat.eqb_spec b' b); [discriminate | split; assumption]. }
  assert (F : forall b', b' <> b -> heap c' b' = heap c b').
  { intros b' Nb. simpl. rewrite !upd_ne by assumption. reflexivity. }
  assert (R : forall h b', refers c' h b' <-> refers c h b').
  { intros [x|u] b'; simpl; [tauto|]. uq; [rewrite G|]; simpl; tauto. }
  assert (D : forall u b', pcs c' u = PDestroy b' <-> u <> t /\ pcs c u = PDestroy b').
  { intros u b'. simpl. uq; intuition congruence. }
  assert (K : forall u i, In i (know c u) -> In i (know c' u)).
  { intros u i H. simpl. uq; [right|]; exact H. }
  constructor.
  - intros b' x H. apply E in H. destruct H as [Nb H]. eapply number_ext; [|exact (A1 b' x H)]. intro h. apply R.
  - intros h b' H. apply R in H. destruct (Nat.eq_dec b' b) as [->|Nb]; [destruct (N h H)|].
    rewrite (F b' Nb). exact (A2 h b' H).
  - intros b' x H H0. apply E in H. destruct H as [Nb H]. destruct (A3 b' x H H0) as (u & B). exists u. apply D.
    split; [|exact B]. intros ->. congruence.
  - intros u b' H. apply D in H. destruct H as [Nu H].
    assert (Nb : b' <> b) by (intros ->; apply Nu, B4, H).
    destruct (A4 u b' H) as (x & C1 & C2 & C3 & C4). exists x. rewrite (F b' Nb).
    split; [exact C1 | split; [exact C2 | split]].
    + intros i k Hk. apply K. exact (C3 i k Hk).
    + intros w Hw. apply D in Hw. apply C4. tauto.
  - intros u x H. simpl in H |- *. uq; [discriminate | exact (A5 u x H)].
  - intros u x H. simpl in H |- *. uq; [discriminate | exact (A6 u x H)].
  - intros u x b' y Q1 Q2 Q3. apply E in Q3. destruct Q3 as [Nb Q3]. simpl in Q1, Q2. unfold upd in Q1.
    destruct (Nat.eqb_spec u t); [discriminate|].
    destruct (A7 u x b' y Q1 Q2 Q3) as (C1 & C2). split; [exact C1|]. intros Q i k Hk. apply K. exact (C2 Q i k Hk).
  - intros x H. destruct (A8 x H) as (u & C1 & C2). exists u. split; [exact C1|]. intros i Hi. apply K, C2, Hi.
  - intros b' x i k Q1 Q2. apply E in Q1. destruct Q1 as [Nb Q1].
    destruct (A9 b' x i k Q1 Q2) as [B | [(h & C1 & C2) | (u & B)]].
    + left. exact B.
    + right. left. exists h. split; [apply R, C1|]. destruct h as [y|u].
      * destruct C2 as [C2 | (w & C2 & C3)]; [left; exact C2 | right; exists w; split; [exact C2 | apply K, C3]].
      * apply (K u), C2.
    + right. right. exists u. apply D. split; [|exact B]. intros ->. congruence.
  - intros b' x i k h Q1 Q2 Q3 Q4. apply E in Q1. destruct Q1 as [Nb Q1]. apply R in Q4.
    specialize (A10 b' x i k h Q1 Q2 Q3 Q4). destruct h as [y|u].
    + destruct A10 as [C1 C2]. split; [|exact C2]. intros w Hw. apply K, C1, Hw.
    + apply (K u), A10.
  - intros b' x i k Q1 Q2. apply E in Q1. destruct Q1 as [Nb Q1]. exact (A11 b' x i k Q1 Q2).
Qed.

(* locks *)
Lemma inv_lock acq c t x hs e :
  Inv acq c -> incl (vc c x) (know c t) -> (e = true -> hs = [t]) ->
  (forall v, In v (holders c x) -> In v hs) -> (forall v, In v hs -> v = t \/ In v (holders c x)) ->
  (e = true -> holders c x = []) -> excl c x = false ->
  Inv acq (set_lock c x hs e (vc c x)).
Proof.
  intros [A1 A2 A3 A4 A5 A6 A7 A8 A9 A10 A11] Hv He H1 H2 H3 Hx.
  assert (Nx : forall u y, target (pcs c u) = Some y -> y <> x).
  { intros u y H ->. destruct (A5 u x H). congruence. }
  constructor; simpl.
  - exact A1.
  - exact A2.
  - exact A3.
  - exact A4.
  - intros u y H. rewrite !upd_ne by exact (Nx u y H). exact (A5 u y H).
  - exact A6.
  - exact A7.
  - intros y H. unfold upd in H |- *. destruct (Nat.eqb_spec y x) as [Ey|Ny]; [subst y|].
    + exists t. split; [exact (He H) | exact Hv].
    + exact (A8 y H).
  - intros b m i k Q1 Q2. destruct (A9 b m i k Q1 Q2) as [B | [(h & B1 & B2) | B]]; [left; exact B | | right; right; exact B].
    right. left. exists h. split; [exact B1|]. destruct h as [y|u]; [|exact B2]. simpl in B2 |- *.
    unfold upd. destruct (Nat.eqb_spec y x) as [Ey|Ny]; [subst y|exact B2].
    destruct B2 as [B2 | (v & B2 & B3)]; [left; exact B2 | right; exists v; split; [apply H1, B2 | exact B3]].
  - intros b m i k h Q1 Q2 Q3 Q4. specialize (A10 b m i k h Q1 Q2 Q3 Q4). destruct h as [y|u]; [|exact A10].
    simpl in A10 |- *. unfold upd. destruct (Nat.eqb_spec y x) as [Ey|Ny]; [subst y|exact A10].
    destruct A10 as [B1 B2]. specialize (B2 Hx). split; [|intros _; exact B2].
    intros v Hw. destruct (H2 v Hw) as [->|Hw']; [apply Hv, B2 | exact (B1 v Hw')].
  - exact A11.
Qed.

Lemma inv_unlock acq c t x :
  Inv acq c -> pcs c t = PIdle -> In t (holders c x) ->
  Inv acq (set_lock c x (remove Nat.eq_dec t (holders c x)) false (vc c x ++ know c t)).
Proof.
  intros [A1 A2 A3 A4 A5 A6 A7 A8 A9 A10 A11] G Ht.
  assert (Nx : forall u y, target (pcs c u) = Some y -> y <> x).
  { intros u y H ->. destruct (A5 u x H) as [X _]. rewrite X in Ht. destruct Ht as [<-|[]].
    rewrite G in H. discriminate. }
  constructor; simpl.
  - exact A1.
  - exact A2.
  - exact A3.
  - exact A4.
  - intros u y H. rewrite !upd_ne by exact (Nx u y H). exact (A5 u y H).
  - exact A6.
  - exact A7.
  - intros y H. unfold upd in H |- *. destruct (Nat.eqb_spec y x) as [Ey|Ny]; [discriminate | exact (A8 y H)].
  - intros b m i k Q1 Q2. destruct (A9 b m i k Q1 Q2) as [B | [(h & B1 & B2) | B]]; [left; exact B | | right; right; exact B].
    right. left. exists h. split; [exact B1|]. destruct h as [y|u]; [|exact B2]. simpl in B2 |- *.
    unfold upd. destruct (Nat.eqb_spec y x) as [Ey|Ny]; [subst y|exact B2].
    destruct B2 as [B2 | (v & B2 & B3)]; [left; apply in_or_app; left; exact B2|].
    destruct (Nat.eq_dec v t) as [->|Nv].
    + left. apply in_or_app. right. exact B3.
    + right. exists v. split; [apply in_in_remove; assumption | exact B3].
  - intros b m i k h Q1 Q2 Q3 Q4. specialize (A10 b m i k h Q1 Q2 Q3 Q4). destruct h as [y|u]; [|exact A10].
    simpl in A10 |- *. unfold upd. destruct (Nat.eqb_spec y x) as [Ey|Ny]; [subst y|exact A10].
    destruct A10 as [B1 B2]. split.
    + intros v Hw. apply in_remove in Hw. apply B1. tauto.
    + intros _. apply in_or_app. right. exact (B1 t Ht).
  - exact A11.
Qed.

(* exchange *)
Definition swapped (x y z : nat) : nat := if Nat.eqb z x then y else if Nat.eqb z y then x else z.

Lemma swapped_twice x y z : swapped x y (swapped x y z) = z.
Proof.
  unfold swapped. destruct (Nat.eqb_spec z x) as [E|E]; [|destruct (Nat.eqb_spec z y) as [E'|E']].
  - destruct (Nat.eqb_spec y x); [congruence|]. rewrite Nat.eqb_refl. congruence.
  - rewrite Nat.eqb_refl. congruence.
  - destruct (Nat.eqb_spec z x), (Nat.eqb_spec z y); congruence.
Qed.

Definition hswap (x y : nat) (h : handle) : handle := match h with V z => V (swapped x y z) | T t => T t end.

Lemma hswap_twice x y h : hswap x y (hswap x y h) = h.
Proof. destruct h; simpl; [rewrite swapped_twice|]; reflexivity. Qed.

Lemma number_swap P x y n : number P n -> number (fun h => P (hswap x y h)) n.
Proof.
  intros (l & Hn & Hl & ->). exists (map (hswap x y) l). split; [|split].
  - apply FinFun.Injective_map_NoDup; [|exact Hn]. intros a b E.
    rewrite <- (hswap_twice x y a), E. apply hswap_twice.
  - intro h. rewrite <- Hl, in_map_iff. split.
    + intros (q & <- & Hq). rewrite hswap_twice. exact Hq.
    + intro H. exists (hswap x y h). split; [apply hswap_twice | exact H].
  - rewrite map_length. reflexivity.
Qed.

Lemma inv_swap acq c t x y :
  Inv acq c -> pcs c t = PIdle -> excl c x = true -> In t (holders c x) -> excl c y = true -> In t (holders c y) ->
  Inv acq (set_slot (set_slot c x (slot c y)) y (slot c x)).
Proof.
  intros [A1 A2 A3 A4 A5 A6 A7 A8 A9 A10 A11] G Hx1 Hx2 Hy1 Hy2.
  destruct (A8 x Hx1) as (u & Hx3 & Hx4). rewrite Hx3 in Hx2. destruct Hx2 as [->|[]].
  destruct (A8 y Hy1) as (u & Hy3 & Hy4). rewrite Hy3 in Hy2. destruct Hy2 as [->|[]].
  set (c' := set_slot _ _ _).
  assert (S : forall z, slot c' z = slot c (swapped x y z)).
  { intro z. simpl. unfold upd, swapped. destruct (Nat.eqb_spec z y), (Nat.eqb_spec z x); congruence. }
  assert (R : forall h b, refers c' h b <-> refers c (hswap x y h) b).
  { intros [z|u] b; [|simpl; tauto]. unfold refers at 1. rewrite S. simpl. tauto. }
  assert (Nt : forall u z, target (pcs c u) = Some z -> swapped x y z = z).
  { intros u z H. destruct (A5 u z H) as [X _]. unfold swapped.
    destruct (Nat.eqb_spec z x) as [->|]; [rewrite Hx3 in X; injection X as <-; rewrite G in H; discriminate|].
    destruct (Nat.eqb_spec z y) as [->|]; [rewrite Hy3 in X; injection X as <-; rewrite G in H; discriminate|].
    reflexivity. }
  assert (P : forall h i, trace c (hswap x y h) i -> trace c h i).
  { intros [z|u] i; [|intro X; exact X]. simpl. unfold swapped.
    destruct (Nat.eqb_spec z x) as [->|]; [|destruct (Nat.eqb_spec z y) as [->|]; [|tauto]];
      intro X; right; exists t; rewrite ?Hx3, ?Hy3 in *; split; try (left; reflexivity);
      destruct X as [X | (v & [<-|[]] & X)]; auto. }
  assert (Q : forall h i, sure c (hswap x y h) i -> sure c h i).
  { intros [z|u] i; [|intro X; exact X]. simpl. unfold swapped.
    destruct (Nat.eqb_spec z x) as [->|]; [|destruct (Nat.eqb_spec z y) as [->|]; [|tauto]];
      rewrite Hx3, Hx1, Hy3, Hy1; intuition congruence. }
  constructor.
  - intros b m H. apply (number_ext (fun h => refers c (hswap x y h) b)); [intro h; apply R|].
    exact (number_swap (fun h => refers c h b) x y _ (A1 b m H)).
  - intros h b H. apply R in H. exact (A2 _ b H).
  - exact A3.
  - exact A4.
  - exact A5.
  - intros u z H. rewrite S, (Nt u z (target_edits _ _ H)). exact (A6 u z H).
  - intros u z b m Q1 Q2 Q3. rewrite S, (Nt u z (target_alone _ _ Q1)) in Q2. exact (A7 u z b m Q1 Q2 Q3).
  - exact A8.
  - intros b m i k Q1 Q2. destruct (A9 b m i k Q1 Q2) as [B | [(h & B1 & B2) | B]]; [left; exact B | | right; right; exact B].
    right. left. exists (hswap x y h). split; [apply R; rewrite hswap_twice; exact B1|].
    apply P. rewrite hswap_twice. exact B2.
  - intros b m i k h Q1 Q2 Q3 Q4. apply R in Q4. apply (Q h). exact (A10 b m i k _ Q1 Q2 Q3 Q4).
  - exact A11.
Qed.

(* all steps *)
Lemma owns_spec acq c t x : Inv acq c -> owns c t x = true -> holders c x = [t] /\ excl c x = true.
Proof.
  intros I H. unfold owns in H. apply andb_prop in H. destruct H as [H1 H2].
  destruct (i_excl _ _ I x H1) as (u & B & _). apply held_spec in H2. rewrite B in H2.
  destruct H2 as [->|[]]. split; assumption.
Qed.

Definition good (acq : bool) (c : config) (r : res) : Prop :=
  match r with
  | Next c' _ => Inv acq c'
  | Touch | Assert => False
  | Over => exists b, number (fun h => refers c h b) int_max
  | Race n o => acq = false /\ n = Wr /\ o = Rd
  end.

Lemma good_touch acq c0 c t b k m go :
  Inv acq c -> heap c b = Some m -> access c t b ->
  k = Rd \/ k = At \/ (k = Wr /\ exists x, alone (pcs c t) = Some x /\ slot c x = Some b) ->
  (Inv acq (touched c t b k m) ->
   good acq c0 (go (touched c t b k m) (mk_blk (cnt m) (data m) (rel m) ((now c, k) :: acc m)))) ->
  good acq c0 (touch c t b k go).
Proof.
  intros I Hm Ha Hk Hg. destruct (touch_cases c t b k go m Hm) as [(i & o & B1 & B2 & B3 & ->) | ->].
  - destruct Ha as (x & Hx & Ht).
    assert (S : o = In' \/ o = Wr -> In i (know c t)).
    { intro Ho. destruct (i_sure _ _ I b m i o (V x) Hm B1 Ho Hx) as [C _]. exact (C t Ht). }
    destruct Hk as [-> | [-> | (-> & y & C1 & C2)]].
    + destruct o; simpl in B2; try discriminate; destruct (B3 (S ltac:(auto))).
    + destruct o; simpl in B2; try discriminate; destruct (B3 (S ltac:(auto))).
    + destruct o; simpl in B2; try discriminate; try solve [destruct (B3 (S ltac:(auto)))].
      simpl. split; [|split; reflexivity]. destruct acq; [|reflexivity]. exfalso.
      destruct (i_sole _ _ I t y b m C1 C2 Hm) as (_ & X). exact (B3 (X eq_refl i Rd B1)).
  - apply Hg. apply inv_touch; assumption.
Qed.

Lemma access_held c t x b : slot c x = Some b -> In t (holders c x) -> access c t b.
Proof. intros H1 H2. exists x. split; assumption. Qed.

Lemma all_known acq c t x b m i k :
  Inv acq c -> heap c b = Some m -> slot c x = Some b -> holders c x = [t] -> excl c x = true -> cnt m = 1 ->
  incl (rel m) (know c t) -> In (i, k) (acc m) -> In i (know c t).
Proof.
  intros I Hm Hx Hh He Hc Hr Hi. pose proof (i_count _ _ I b m Hm) as N. rewrite Hc in N.
  destruct (i_trace _ _ I b m i k Hm Hi) as [B | [(h & B1 & B2) | (u & B)]].
  - apply Hr, B.
  - assert (h = V x) as -> by exact (number_one _ (V x) N Hx h B1).
    destruct (i_excl _ _ I x He) as (v & C1 & C2). rewrite Hh in C1. injection C1 as <-.
    destruct B2 as [B2 | (v & B2 & B3)]; [apply C2, B2|]. rewrite Hh in B2. destruct B2 as [<-|[]]. exact B3.
  - destruct (not_dead acq c b m (V x) I Hm Hx u B).
Qed.

(* after a look at the count *)
Lemma good_unique acq c t x b (p : bool -> pc) :
  Inv acq c -> slot c x = Some b -> holders c x = [t] -> excl c x = true ->
  given (pcs c t) = None -> (forall b, pcs c t <> PDestroy b) ->
  (forall u, given (p u) = None) -> (forall u b, p u <> PDestroy b) -> (forall u, target (p u) = Some x) ->
  alone (p false) = None ->
  good acq c (unique acq c t b (fun c u => Next (set_pc c t (p u)) None)).
Proof.
  intros I Hx Hh He G1 G2 P1 P2 P3 P4. unfold unique.
  destruct (i_live _ _ I (V x) b Hx) as (m & Hm).
  apply (good_touch acq c c t b At m); auto.
  { apply (access_held c t x b Hx). rewrite Hh. left. reflexivity. }
  intro I1. set (c1 := touched c t b At m) in *. cbn [cnt rel].
  set (m1 := mk_blk (cnt m) (data m) (rel m) ((now c, At) :: acc m)).
  assert (Hm1 : heap c1 b = Some m1) by (simpl; apply upd_eq).
  assert (X : forall c2, Inv acq c2 -> slot c2 = slot c -> holders c2 = holders c -> excl c2 = excl c ->
              pcs c2 = pcs c -> heap c2 = heap c1 -> (acq = true -> incl (rel m) (know c2 t)) ->
              Inv acq (set_pc c2 t (p (cnt m =? 1)))).
  { intros c2 I2 E1 E2 E3 E4 E5 E6. apply inv_pc; auto; try (rewrite E4; assumption).
    - intros z Hz. rewrite P3 in Hz. injection Hz as <-. rewrite E2, E3. split; assumption.
    - intros z Hz. apply target_edits in Hz. rewrite P3 in Hz. injection Hz as <-. rewrite E1. exists b. exact Hx.
    - intros z b' m' Q1 Q2 Q3. destruct (Z.eqb_spec (cnt m) 1) as [C|C]; [|rewrite P4 in Q1; discriminate].
      apply target_alone in Q1. rewrite P3 in Q1. injection Q1 as <-. rewrite E1, Hx in Q2. injection Q2 as <-.
      assert (heap c2 b = Some m1) as Hm2 by (rewrite E5; exact Hm1).
      rewrite Hm2 in Q3. injection Q3 as <-. split; [exact C|]. intros Q i k Hi.
      apply (all_known acq c2 t x b m1 i k); auto.
      + rewrite E1. exact Hx.
      + rewrite E2. exact Hh.
      + rewrite E3. exact He. }
  change (good acq c (Next (set_pc (if acq then set_know c1 t (know c1 t ++ rel m) else c1) t (p (cnt m =? 1))) None)).
  unfold good. apply X; destruct acq; try reflexivity; try discriminate.
  - apply inv_know. exact I1.
  - exact I1.
  - intros _ i Hi. simpl. rewrite upd_eq. apply in_or_app. right. exact Hi.
Qed.

Lemma vacant_spec c b : vacant c b = true -> heap c b = None.
Proof. unfold vacant. destruct (heap c b); congruence. Qed.

Lemma good_resume acq c t b' :
  Inv acq c -> ready c t (Go b') = true -> good acq c (resume acq c t b').
Proof.
  intros I Hr. unfold resume, ready in *. destruct (pcs c t) as [|d h|b|x f|x f|x f|x f] eqn:G; try discriminate.
  - (* PReset *)
    destruct (slot c d) as [b|] eqn:Hd.
    + destruct (i_own _ _ I t d) as [Hd1 Hd2]; [rewrite G; reflexivity|].
      destruct (i_live _ _ I (V d) b Hd) as (m & Hm).
      unfold decrement.
      change (good acq c (touch c t b At (fun c1 m =>
        if cnt m <? 1 then Assert
        else Next (set_pc (set_know (set_heap (set_slot c1 d h) b (Some (mk_blk (cnt m - 1) (data m) (know c1 t ++ rel m) (acc m))))
                    t (know c1 t ++ rel m)) t (if cnt m - 1 =? 0 then PDestroy b else PIdle)) None))).
      apply (good_touch acq c c t b At m); auto.
      { apply (access_held c t d b Hd). rewrite Hd1. left. reflexivity. }
      intro I1. set (c1 := touched c t b At m) in *. cbn [cnt data rel acc].
      destruct (Z.ltb_spec (cnt m) 1) as [C|C].
      { pose proof (number_some _ _ (V d) (i_count _ _ I b m Hm) Hd). lia. }
      unfold good. set (m1 := mk_blk (cnt m) (data m) (rel m) ((now c, At) :: acc m)).
      pose proof (inv_know acq c1 t (rel m) I1) as I2.
      set (c2 := set_know c1 t (know c1 t ++ rel m)) in *.
      assert (Hk : know c2 t = know c1 t ++ rel m) by (simpl; apply upd_eq).
      assert (Hm2 : heap c2 b = Some m1) by (simpl; apply upd_eq).
      refine (inv_dec acq c2 t d h b m1 (know c1 t ++ rel m) I2 G Hd Hm2 (eq_sym Hk) _).
      intros i Hi. apply in_or_app. right. exact Hi.
    + apply inv_set; assumption.
  - (* PDestroy *)
    destruct (i_dead _ _ I t b G) as (m & Hm & _ & Hk & _).
    destruct (touch_cases c t b De (fun c _ => Next (set_pc (set_heap c b None) t PIdle) None) m Hm)
      as [(i & o & B1 & B2 & B3 & ->) | ->].
    + destruct (B3 (Hk i o B1)).
    + unfold good. apply inv_free; assumption.
  - (* PWrite *)
    destruct (i_edit _ _ I t x) as (b & Hx); [rewrite G; reflexivity|]. rewrite Hx.
    destruct (i_own _ _ I t x) as [Hx1 Hx2]; [rewrite G; reflexivity|].
    destruct (i_live _ _ I (V x) b Hx) as (m & Hm).
    apply (good_touch acq c c t b Wr m); auto.
    { apply (access_held c t x b Hx). rewrite Hx1. left. reflexivity. }
    { right. right. split; [reflexivity|]. exists x. rewrite G. split; [reflexivity | exact Hx]. }
    intro I1. unfold good. cbn [cnt data rel acc].
    apply inv_pc; try (simpl; try rewrite G; simpl; congruence).
    apply (inv_data acq (touched c t b Wr m) b (mk_blk (cnt m) (data m) (rel m) ((now c, Wr) :: acc m)) (f (data m)) I1).
    simpl. apply upd_eq.
  - (* PClone *)
    destruct (i_edit _ _ I t x) as (b & Hx); [rewrite G; reflexivity|]. rewrite Hx.
    destruct (i_own _ _ I t x) as [Hx1 Hx2]; [rewrite G; reflexivity|].
    apply (good_unique acq c t x b (fun u : bool => if u then PMove x f else PCopy x f)); auto;
      try (rewrite G; simpl; congruence); try reflexivity; try (intros []; simpl; congruence).
  - (* PMove *)
    apply vacant_spec in Hr.
    destruct (i_edit _ _ I t x) as (b & Hx); [rewrite G; reflexivity|]. rewrite Hx.
    destruct (i_own _ _ I t x) as [Hx1 Hx2]; [rewrite G; reflexivity|].
    destruct (i_live _ _ I (V x) b Hx) as (m & Hm).
    assert (Nb : b' <> b) by congruence.
    apply (good_touch acq c c t b Wr m); auto.
    { apply (access_held c t x b Hx). rewrite Hx1. left. reflexivity. }
    { right. right. split; [reflexivity|]. exists x. rewrite G. split; [reflexivity | exact Hx]. }
    intro I1. unfold good. cbn [cnt data rel acc].
    apply inv_alloc; auto; try (simpl; try rewrite G; simpl; congruence).
    + apply (inv_data acq (touched c t b Wr m) b (mk_blk (cnt m) (data m) (rel m) ((now c, Wr) :: acc m)) 0 I1).
      simpl. apply upd_eq.
    + simpl. rewrite !upd_ne by assumption. exact Hr.
  - (* PCopy *)
    apply vacant_spec in Hr.
    destruct (i_edit _ _ I t x) as (b & Hx); [rewrite G; reflexivity|]. rewrite Hx.
    destruct (i_own _ _ I t x) as [Hx1 Hx2]; [rewrite G; reflexivity|].
    destruct (i_live _ _ I (V x) b Hx) as (m & Hm).
    assert (Nb : b' <> b) by congruence.
    apply (good_touch acq c c t b Rd m); auto.
    { apply (access_held c t x b Hx). rewrite Hx1. left. reflexivity. }
    intro I1. unfold good. cbn [data].
    apply inv_alloc; auto; try (simpl; try rewrite G; simpl; congruence).
    simpl. rewrite !upd_ne by assumption. exact Hr.
Qed.

Lemma idle_of c t a : ready c t a = true -> (forall b, a <> Go b) -> pcs c t = PIdle.
Proof. intros H N. unfold ready in H. destruct (pcs c t), a; try reflexivity; try discriminate; destruct (N _ eq_refl). Qed.

Theorem good_step acq c t a : Inv acq c -> good acq c (step acq c (t, a)).
Proof.
  intro I. unfold step. destruct (ready c t a) eqn:Hr; [|exact I].
  assert (G : (forall b, a <> Go b) -> pcs c t = PIdle) by (apply idle_of, Hr).
  destruct a as [x|x|x|d v b|d s|d|x y|x|x f|b];
    try (specialize (G ltac:(discriminate)); unfold ready in Hr; rewrite G in Hr).
  - (* LockX *)
    destruct (holders c x) eqn:Hh; [|discriminate].
    pose proof (inv_know acq c t (vc c x) I) as I1.
    assert (He : excl c x = false).
    { destruct (excl c x) eqn:E; [|reflexivity]. destruct (i_excl _ _ I x E) as (u & B & _). congruence. }
    refine (inv_lock acq (set_know c t (know c t ++ vc c x)) t x [t] true I1 _ _ _ _ _ _); simpl.
    + rewrite upd_eq. intros i Hi. apply in_or_app. right. exact Hi.
    + reflexivity.
    + rewrite Hh. intros v [].
    + intros v [<-|[]]. left. reflexivity.
    + intros _. exact Hh.
    + exact He.
  - (* LockS *)
    apply andb_prop in Hr. destruct Hr as [H1 H2]. apply negb_true_iff in H1.
    pose proof (inv_know acq c t (vc c x) I) as I1.
    refine (inv_lock acq (set_know c t (know c t ++ vc c x)) t x (t :: holders c x) false I1 _ _ _ _ _ _); simpl.
    + rewrite upd_eq. intros i Hi. apply in_or_app. right. exact Hi.
    + discriminate.
    + intros v Hv. right. exact Hv.
    + intros v [<-|Hv]; [left; reflexivity | right; exact Hv].
    + discriminate.
    + exact H1.
  - (* Unlock *)
    apply held_spec in Hr. apply inv_unlock; assumption.
  - (* New *)
    apply andb_prop in Hr. destruct Hr as [H1 H2]. apply vacant_spec in H2.
    destruct (owns_spec acq c t d I H1) as [H3 H4].
    apply inv_alloc; auto; rewrite G; simpl; congruence.
  - (* Copy *)
    apply andb_prop in Hr. destruct Hr as [H1 H2]. destruct (owns_spec acq c t d I H1) as [H3 H4].
    apply held_spec in H2. destruct (slot c s) as [b|] eqn:Hs.
    + destruct (i_live _ _ I (V s) b Hs) as (m & Hm). unfold increment.
      apply (good_touch acq c c t b At m); auto; [exact (access_held c t s b Hs H2)|].
      intro I1. cbn [cnt data rel acc]. pose proof (number_some _ _ (V s) (i_count _ _ I b m Hm) Hs) as P.
      destruct (Z.ltb_spec (cnt m) 1); [lia|].
      destruct (Z.eqb_spec (cnt m) int_max) as [C|C].
      * simpl. exists b. rewrite <- C. exact (i_count _ _ I b m Hm).
      * unfold good.
        refine (inv_inc acq (touched c t b At m) t d s b (mk_blk (cnt m) (data m) (rel m) ((now c, At) :: acc m)) I1 G _ Hs H2 H3 H4).
        simpl. apply upd_eq.
    + apply inv_pc; auto; try (rewrite G; simpl; congruence); simpl; try congruence.
      intros x Hx. injection Hx as <-. split; assumption.
  - (* Reset *)
    destruct (owns_spec acq c t d I Hr) as [H3 H4].
    apply inv_pc; auto; try (rewrite G; simpl; congruence); simpl; try congruence.
    intros x Hx. injection Hx as <-. split; assumption.
  - (* Swap *)
    apply andb_prop in Hr. destruct Hr as [H1 H2].
    destruct (owns_spec acq c t x I H1) as [H3 H4]. destruct (owns_spec acq c t y I H2) as [H5 H6].
    apply (inv_swap acq c t x y); auto; [rewrite H3 | rewrite H5]; left; reflexivity.
  - (* Read *)
    apply held_spec in Hr. destruct (slot c x) as [b|] eqn:Hx; [|exact I].
    destruct (i_live _ _ I (V x) b Hx) as (m & Hm).
    apply (good_touch acq c c t b Rd m); auto. exact (access_held c t x b Hx Hr).
  - (* Mutate *)
    destruct (owns_spec acq c t x I Hr) as [H3 H4]. destruct (slot c x) as [b|] eqn:Hx; [|exact I].
    apply (good_unique acq c t x b (fun u : bool => if u then PWrite x f else PClone x f)); auto;
      try (rewrite G; simpl; congruence); try reflexivity; try (intros []; simpl; congruence).
  - apply good_resume; assumption.
Qed.

Lemma good_steps acq : forall l c, Inv acq c ->
  match steps acq c l with
  | Next c' _ => Inv acq c'
  | Touch | Assert => False
  | Over => True
  | Race n o => acq = false /\ n = Wr /\ o = Rd
  end.
Proof.
  induction l as [|[t a] l IH]; intros c I; cbn [steps]; [exact I|].
  pose proof (good_step acq c t a I) as G. destruct (step acq c (t, a)) as [c' o| | | |n o]; unfold good in G.
  - exact (IH c' G).
  - exact G.
  - exact G.
  - exact Logic.I.
  - exact G.
Qed.

Lemma reach acq l c o : steps acq start l = Next c o -> Inv acq c.
Proof. intro H. pose proof (good_steps acq l start (inv_start acq)) as G. rewrite H in G. exact G. Qed.
