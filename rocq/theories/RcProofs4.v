(* Variables behave as plain values. *)
From Verif Require Import Base RcModel RcSpec RcProofs1 RcProofs2 RcProofs3.

Definition dat (c : config) (b : nat) : option Z :=
  match heap c b with Some m => Some (data m) | None => None end.

Lemma stored_dat c h : stored c h = match h with Some b => dat c b | None => None end.
Proof. reflexivity. Qed.

Lemma due_frame c y p : target p <> Some y -> due c y p = stored c (slot c y).
Proof.
  destruct p; simpl; intro H; try reflexivity;
    match goal with |- context [Nat.eqb ?a ?b] => destruct (Nat.eqb_spec a b); [congruence | reflexivity] end.
Qed.

(* a step that does not concern a variable *)
Lemma val_frame c c' y :
  slot c' y = slot c y -> excl c' y = excl c y -> holders c' y = holders c y ->
  (forall u, pcs c' u = pcs c u \/ (target (pcs c' u) <> Some y /\ target (pcs c u) <> Some y)) ->
  (forall b, slot c y = Some b -> dat c' b = dat c b) ->
  (forall u b, given (pcs c u) = Some b -> target (pcs c u) = Some y -> dat c' b = dat c b) ->
  val c' y = val c y.
Proof.
  intros E1 E2 E3 H1 H2 H3. unfold val. rewrite E2, E3.
  assert (S : stored c' (slot c' y) = stored c (slot c y)).
  { rewrite E1, !stored_dat. destruct (slot c y) as [b|] eqn:Q; [apply H2; reflexivity | reflexivity]. }
  destruct (excl c y); [|exact S]. destruct (holders c y) as [|u [|w l]]; try exact S.
  destruct (H1 u) as [X | [X1 X2]].
  - rewrite X. destruct (pcs c u) as [|d h|b|x f|x f|x f|x f] eqn:P; simpl; try exact S;
      try (rewrite S; reflexivity).
    destruct (Nat.eqb_spec d y) as [->|]; [|exact S]. rewrite !stored_dat. destruct h as [b|]; [|reflexivity].
    apply (H3 u); rewrite P; reflexivity.
  - rewrite !due_frame by assumption. exact S.
Qed.

(* the variable which a thread works on *)
Lemma val_target c t y : holders c y = [t] -> excl c y = true -> val c y = due c y (pcs c t).
Proof. intros H1 H2. unfold val. rewrite H1, H2. reflexivity. Qed.

Lemma val_held acq c t y : Inv acq c -> In t (holders c y) -> target (pcs c t) <> Some y ->
  val c y = stored c (slot c y).
Proof.
  intros I H N. unfold val. destruct (excl c y) eqn:E; [|reflexivity].
  destruct (i_excl _ _ I y E) as (u & B & _). rewrite B in *. destruct H as [->|[]]. apply due_frame, N.
Qed.

Lemma target_other acq c t u x y :
  Inv acq c -> target (pcs c t) = Some x -> u <> t -> target (pcs c u) = Some y -> y <> x.
Proof.
  intros I H1 N H2 ->. destruct (i_own _ _ I t x H1) as [B1 _]. destruct (i_own _ _ I u x H2) as [B2 _]. congruence.
Qed.

Lemma dat_touched c t b k m b' : heap c b = Some m -> dat (touched c t b k m) b' = dat c b'.
Proof.
  intro H. unfold dat. simpl. unfold upd. destruct (Nat.eqb_spec b' b) as [->|]; [rewrite H|]; reflexivity.
Qed.

Lemma touch_next c t b k go m r :
  heap c b = Some m -> touch c t b k go = r -> (exists x o, r = Next x o) ->
  go (touched c t b k m) (mk_blk (cnt m) (data m) (rel m) ((now c, k) :: acc m)) = r.
Proof.
  intros H E (x & o & ->). destruct (touch_cases c t b k go m H) as [(i & q & _ & _ & _ & B) | B]; congruence.
Qed.

(* a look at the count *)
Lemma unique_next acq c t b m (p : bool -> pc) c' o :
  heap c b = Some m -> unique acq c t b (fun c u => Next (set_pc c t (p u)) None) = Next c' o ->
  (forall b', dat c' b' = dat c b') /\ slot c' = slot c /\ excl c' = excl c /\ holders c' = holders c
  /\ pcs c' = upd (pcs c) t (p (cnt m =? 1)).
Proof.
  intros Hm H. unfold unique in H. apply (touch_next _ _ _ _ _ m) in H; [|exact Hm | eauto].
  cbn [cnt rel] in H. injection H as <- _.
  destruct acq; (split; [intro b'; exact (dat_touched c t b At m b' Hm) | repeat split]).
Qed.

Definition agrees (c c' : config) (a : action) : Prop := forall y, val c' y = plain a (val c) y.

Lemma agrees_go c c' b : (forall y, val c' y = val c y) -> agrees c c' (Go b).
Proof. intros H y. apply H. Qed.

(* the thread works on another variable, or on none *)
Ltac others I t :=
  let u := fresh "u" in
  intro u; simpl; unfold upd; destruct (Nat.eqb_spec u t) as [->|]; [right; split | left; reflexivity].

Lemma values_resume acq c t b' c' o :
  Inv acq c -> ready c t (Go b') = true -> resume acq c t b' = Next c' o -> forall y, val c' y = val c y.
Proof.
  intros I Hr H. unfold resume, ready in *. destruct (pcs c t) as [|d h|b|x f|x f|x f|x f] eqn:G; try discriminate.
  - (* PReset *)
    assert (Gt : target (pcs c t) = Some d) by (rewrite G; reflexivity).
    destruct (i_own _ _ I t d Gt) as [Hd1 Hd2].
    assert (X : forall p, target p = None -> (forall b, dat c' b = dat c b) -> slot c' = upd (slot c) d h ->
                excl c' = excl c -> holders c' = holders c -> pcs c' = upd (pcs c) t p ->
                forall y, val c' y = val c y).
    { intros p P1 E1 E2 E3 E4 E5 y. destruct (Nat.eq_dec y d) as [->|N].
      - rewrite (val_target c t d Hd1 Hd2), G. rewrite (val_target c' t d) by congruence.
        rewrite E5, upd_eq. rewrite due_frame by congruence. simpl. rewrite Nat.eqb_refl, E2, upd_eq, !stored_dat.
        destruct h; [apply E1 | reflexivity].
      - apply val_frame; try congruence; auto.
        + rewrite E2. apply upd_ne, N.
        + intro u. rewrite E5. unfold upd. destruct (Nat.eqb_spec u t) as [->|]; [right | left; reflexivity].
          rewrite Gt. split; congruence. }
    destruct (slot c d) as [b|] eqn:Hd.
    + destruct (i_live _ _ I (V d) b Hd) as (m & Hm). unfold decrement in H.
      apply (touch_next _ _ _ _ _ m) in H; [|exact Hm | eauto].
      cbn [cnt data rel acc] in H. destruct (cnt m <? 1); [discriminate|]. injection H as <- _.
      apply (X (if cnt m - 1 =? 0 then PDestroy b else PIdle)); try reflexivity.
      * destruct (_ =? 0); reflexivity.
      * intro b0. unfold dat. simpl. unfold upd. destruct (Nat.eqb_spec b0 b) as [->|]; [rewrite Hm|]; reflexivity.
    + injection H as <- _. apply (X PIdle); reflexivity.
  - (* PDestroy *)
    destruct (i_dead _ _ I t b G) as (m & Hm & Hc & _ & _).
    apply (touch_next _ _ _ _ _ m) in H; [|exact Hm | eauto]. injection H as <- _.
    assert (N : forall q, ~ refers c q b).
    { pose proof (i_count _ _ I b m Hm) as N. rewrite Hc in N. exact (number_zero _ N). }
    assert (E : forall b0, b0 <> b -> dat (set_pc (set_heap (touched c t b De m) b None) t PIdle) b0 = dat c b0).
    { intros b0 Nb. unfold dat. simpl. rewrite !upd_ne by exact Nb. reflexivity. }
    intro y. apply val_frame; try reflexivity.
    + others I t; [discriminate | rewrite G; discriminate].
    + intros b0 Q. apply E. intros ->. exact (N (V y) Q).
    + intros u b0 Q _. apply E. intros ->. exact (N (T u) Q).
  - (* PWrite *)
    assert (Gt : target (pcs c t) = Some x) by (rewrite G; reflexivity).
    destruct (i_own _ _ I t x Gt) as [Hx1 Hx2].
    destruct (i_edit _ _ I t x) as (b & Hx); [rewrite G; reflexivity|]. rewrite Hx in H.
    destruct (i_live _ _ I (V x) b Hx) as (m & Hm).
    destruct (i_sole _ _ I t x b m) as (Hc & _); [rewrite G; reflexivity | exact Hx | exact Hm|].
    pose proof (i_count _ _ I b m Hm) as N. rewrite Hc in N.
    apply (touch_next _ _ _ _ _ m) in H; [|exact Hm | eauto]. cbn [cnt data rel acc] in H. injection H as <- _.
    set (c' := set_pc _ _ _).
    assert (E : forall b0, b0 <> b -> dat c' b0 = dat c b0).
    { intros b0 Nb. unfold dat. simpl. rewrite !upd_ne by exact Nb. reflexivity. }
    intro y. destruct (Nat.eq_dec y x) as [->|Ny].
    + rewrite (val_target c t x Hx1 Hx2), G. rewrite (val_target c' t x Hx1 Hx2). simpl. rewrite upd_eq. simpl.
      rewrite Nat.eqb_refl, Hx. simpl. rewrite Hm, upd_eq. reflexivity.
    + apply val_frame; try reflexivity.
      * others I t; [discriminate | congruence].
      * intros b0 Q. apply E. intros ->. pose proof (number_one _ (V x) N Hx (V y) Q). congruence.
      * intros u b0 Q _. apply E. intros ->. pose proof (number_one _ (V x) N Hx (T u) Q). discriminate.
  - (* PClone *)
    assert (Gt : target (pcs c t) = Some x) by (rewrite G; reflexivity).
    destruct (i_own _ _ I t x Gt) as [Hx1 Hx2].
    destruct (i_edit _ _ I t x) as (b & Hx); [rewrite G; reflexivity|]. rewrite Hx in H.
    destruct (i_live _ _ I (V x) b Hx) as (m & Hm).
    apply (unique_next acq c t b m (fun u : bool => if u then PMove x f else PCopy x f) c' o Hm) in H.
    destruct H as (E1 & E2 & E3 & E4 & E5).
    intro y. destruct (Nat.eq_dec y x) as [->|Ny].
    + rewrite (val_target c t x Hx1 Hx2), G. rewrite (val_target c' t x) by congruence. rewrite E5, upd_eq.
      destruct (cnt m =? 1); simpl; rewrite Nat.eqb_refl, E2; f_equal; rewrite !stored_dat, Hx; apply E1.
    + apply val_frame; try congruence; auto.
      intro u. rewrite E5. unfold upd. destruct (Nat.eqb_spec u t) as [->|]; [right | left; reflexivity].
      rewrite Gt. destruct (cnt m =? 1); simpl; split; congruence.
  - (* PMove *)
    apply vacant_spec in Hr.
    assert (Gt : target (pcs c t) = Some x) by (rewrite G; reflexivity).
    destruct (i_own _ _ I t x Gt) as [Hx1 Hx2].
    destruct (i_edit _ _ I t x) as (b & Hx); [rewrite G; reflexivity|]. rewrite Hx in H.
    destruct (i_live _ _ I (V x) b Hx) as (m & Hm).
    destruct (i_sole _ _ I t x b m) as (Hc & _); [rewrite G; reflexivity | exact Hx | exact Hm|].
    pose proof (i_count _ _ I b m Hm) as N. rewrite Hc in N.
    apply (touch_next _ _ _ _ _ m) in H; [|exact Hm | eauto]. cbn [cnt data rel acc] in H. injection H as <- _.
    set (c' := set_pc _ _ _).
    assert (E : forall b0, b0 <> b -> b0 <> b' -> dat c' b0 = dat c b0).
    { intros b0 Nb Nb'. unfold dat. simpl. rewrite !upd_ne by assumption. reflexivity. }
    assert (L : forall q b0, refers c q b0 -> q <> V x -> b0 <> b /\ b0 <> b').
    { intros q b0 Q Nq. split; intros ->.
      - apply Nq. exact (number_one _ (V x) N Hx q Q).
      - destruct (i_live _ _ I q b' Q). congruence. }
    intro y. destruct (Nat.eq_dec y x) as [->|Ny].
    + rewrite (val_target c t x Hx1 Hx2), G. rewrite (val_target c' t x Hx1 Hx2). simpl. rewrite upd_eq. simpl.
      rewrite !Nat.eqb_refl, Hx. simpl. rewrite Hm, upd_eq. reflexivity.
    + apply val_frame; try reflexivity.
      * others I t; [simpl; congruence | congruence].
      * intros b0 Q. destruct (L (V y) b0 Q) as [L1 L2]; [congruence | exact (E b0 L1 L2)].
      * intros u b0 Q _. destruct (L (T u) b0 Q) as [L1 L2]; [congruence | exact (E b0 L1 L2)].
  - (* PCopy *)
    apply vacant_spec in Hr.
    assert (Gt : target (pcs c t) = Some x) by (rewrite G; reflexivity).
    destruct (i_own _ _ I t x Gt) as [Hx1 Hx2].
    destruct (i_edit _ _ I t x) as (b & Hx); [rewrite G; reflexivity|]. rewrite Hx in H.
    destruct (i_live _ _ I (V x) b Hx) as (m & Hm).
    apply (touch_next _ _ _ _ _ m) in H; [|exact Hm | eauto]. cbn [cnt data rel acc] in H. injection H as <- _.
    set (c' := set_pc _ _ _).
    assert (E : forall b0, b0 <> b' -> dat c' b0 = dat c b0).
    { intros b0 Nb'. unfold dat. simpl. rewrite upd_ne by assumption. unfold upd.
      destruct (Nat.eqb_spec b0 b) as [->|]; [rewrite Hm|]; reflexivity. }
    assert (L : forall q b0, refers c q b0 -> b0 <> b').
    { intros q b0 Q ->. destruct (i_live _ _ I q b' Q). congruence. }
    intro y. destruct (Nat.eq_dec y x) as [->|Ny].
    + rewrite (val_target c t x Hx1 Hx2), G. rewrite (val_target c' t x Hx1 Hx2). simpl. rewrite upd_eq. simpl.
      rewrite !Nat.eqb_refl, Hx. simpl. rewrite Hm, upd_eq. reflexivity.
    + apply val_frame; try reflexivity.
      * others I t; [simpl; congruence | congruence].
      * intros b0 Q. exact (E b0 (L (V y) b0 Q)).
      * intros u b0 Q _. exact (E b0 (L (T u) b0 Q)).
Qed.

Theorem values_step acq c t a c' o :
  Inv acq c -> step acq c (t, a) = Next c' o ->
  (forall y, val c' y = if ready c t a then plain a (val c) y else val c y)
  /\ (forall x, a = Read x -> ready c t a = true -> o = val c x).
Proof.
  intros I H. unfold step in H. destruct (ready c t a) eqn:Hr; [|injection H as <- _; split; [reflexivity | discriminate]].
  assert (G : (forall b, a <> Go b) -> pcs c t = PIdle) by (apply idle_of, Hr).
  destruct a as [x|x|x|d v b|d s|d|x y|x|x f|b];
    try (specialize (G ltac:(discriminate)); unfold ready in Hr; rewrite G in Hr);
    (split; [|try discriminate]).
  - (* LockX *)
    injection H as <- _. destruct (holders c x) eqn:Hh; [|discriminate]. intro y. simpl plain.
    destruct (Nat.eq_dec y x) as [->|N].
    + assert (He : excl c x = false).
      { destruct (excl c x) eqn:E; [|reflexivity]. destruct (i_excl _ _ I x E) as (u & B & _). congruence. }
      unfold val at 2. rewrite He. unfold val. simpl. rewrite !upd_eq, G. reflexivity.
    + apply val_frame; auto; simpl; rewrite upd_ne by exact N; reflexivity.
  - (* LockS *)
    injection H as <- _. apply andb_prop in Hr. destruct Hr as [H1 H2]. apply negb_true_iff in H1.
    intro y. simpl plain. destruct (Nat.eq_dec y x) as [->|N].
    + unfold val. simpl. rewrite upd_eq, H1. reflexivity.
    + apply val_frame; auto; simpl; rewrite upd_ne by exact N; reflexivity.
  - (* Unlock *)
    injection H as <- _. apply held_spec in Hr. intro y. simpl plain. destruct (Nat.eq_dec y x) as [->|N].
    + rewrite (val_held acq c t x I Hr) by (rewrite G; discriminate). unfold val. simpl. rewrite upd_eq. reflexivity.
    + apply val_frame; auto; simpl; rewrite upd_ne by exact N; reflexivity.
  - (* New *)
    injection H as <- _. apply andb_prop in Hr. destruct Hr as [H1 H2]. apply vacant_spec in H2.
    destruct (owns_spec acq c t d I H1) as [H3 H4].
    set (c' := set_pc _ _ _).
    assert (E : forall q b0, refers c q b0 -> dat c' b0 = dat c b0).
    { intros q b0 Q. assert (b0 <> b) by (intros ->; destruct (i_live _ _ I q b Q); congruence).
      unfold dat. simpl. rewrite upd_ne by assumption. reflexivity. }
    intro y. simpl. destruct (Nat.eqb_spec y d) as [->|N].
    + rewrite (val_target c' t d H3 H4). simpl. rewrite upd_eq. simpl. rewrite Nat.eqb_refl, upd_eq. reflexivity.
    + apply val_frame; try reflexivity.
      * others I t; [simpl; congruence | rewrite G; discriminate].
      * intros b0 Q. exact (E (V y) b0 Q).
      * intros u b0 Q _. exact (E (T u) b0 Q).
  - (* Copy *)
    apply andb_prop in Hr. destruct Hr as [H1 H2]. destruct (owns_spec acq c t d I H1) as [H3 H4].
    apply held_spec in H2.
    assert (Vs : val c s = stored c (slot c s)) by (apply (val_held acq c t s I H2); rewrite G; discriminate).
    assert (X : (forall b, dat c' b = dat c b) -> slot c' = slot c -> excl c' = excl c -> holders c' = holders c ->
                pcs c' = upd (pcs c) t (PReset d (slot c s)) -> forall y, val c' y = plain (Copy d s) (val c) y).
    { intros E1 E2 E3 E4 E5 y. simpl. destruct (Nat.eqb_spec y d) as [->|N].
      - rewrite (val_target c' t d) by congruence. rewrite E5, upd_eq. simpl. rewrite Nat.eqb_refl, Vs, !stored_dat.
        destruct (slot c s); [apply E1 | reflexivity].
      - apply val_frame; try congruence; auto.
        intro u. rewrite E5. unfold upd. destruct (Nat.eqb_spec u t) as [->|]; [right | left; reflexivity].
        rewrite G. simpl. split; congruence. }
    destruct (slot c s) as [b|] eqn:Hs.
    + destruct (i_live _ _ I (V s) b Hs) as (m & Hm). unfold increment in H.
      apply (touch_next _ _ _ _ _ m) in H; [|exact Hm | eauto]. cbn [cnt data rel acc] in H.
      destruct (cnt m <? 1); [discriminate|]. destruct (cnt m =? int_max); [discriminate|]. injection H as <- _.
      apply X; try reflexivity. intro b0. unfold dat. simpl. unfold upd.
      destruct (Nat.eqb_spec b0 b) as [->|]; [rewrite Hm|]; reflexivity.
    + injection H as <- _. apply X; reflexivity.
  - (* Reset *)
    injection H as <- _. destruct (owns_spec acq c t d I Hr) as [H3 H4]. intro y. simpl.
    destruct (Nat.eqb_spec y d) as [->|N].
    + rewrite (val_target (set_pc c t (PReset d None)) t d H3 H4). simpl. rewrite upd_eq. simpl.
      rewrite Nat.eqb_refl. reflexivity.
    + apply val_frame; auto. others I t; [simpl; congruence | rewrite G; discriminate].
  - (* Swap *)
    injection H as <- _. apply andb_prop in Hr. destruct Hr as [H1 H2].
    destruct (owns_spec acq c t x I H1) as [H3 H4]. destruct (owns_spec acq c t y I H2) as [H5 H6].
    set (c' := set_slot _ _ _). intro z. simpl.
    assert (Vx : val c x = stored c (slot c x)) by (rewrite (val_target c t x H3 H4), G; reflexivity).
    assert (Vy : val c y = stored c (slot c y)) by (rewrite (val_target c t y H5 H6), G; reflexivity).
    destruct (Nat.eqb_spec z x) as [->|Nx]; [|destruct (Nat.eqb_spec z y) as [->|Ny]].
    + rewrite (val_target c' t x H3 H4). simpl. rewrite G, Vy. simpl. unfold upd.
      destruct (Nat.eqb_spec x y) as [->|]; [|rewrite Nat.eqb_refl]; reflexivity.
    + rewrite (val_target c' t y H5 H6). simpl. rewrite G, Vx. simpl. rewrite upd_eq. reflexivity.
    + apply val_frame; auto. simpl. rewrite !upd_ne by assumption. reflexivity.
  - (* Read *)
    destruct (slot c x) as [b|] eqn:Hx; [|injection H as <- _; reflexivity].
    destruct (i_live _ _ I (V x) b Hx) as (m & Hm).
    apply (touch_next _ _ _ _ _ m) in H; [|exact Hm | eauto]. cbn [data] in H. injection H as <- _.
    intro y. simpl plain. apply val_frame; try reflexivity; auto.
    + intros b0 _. exact (dat_touched c t b Rd m b0 Hm).
    + intros u b0 _ _. exact (dat_touched c t b Rd m b0 Hm).
  - intros z Ez _. injection Ez as <-. apply held_spec in Hr.
    rewrite (val_held acq c t x I Hr) by (rewrite G; discriminate).
    destruct (slot c x) as [b|] eqn:Hx; [|injection H as _ <-; reflexivity].
    destruct (i_live _ _ I (V x) b Hx) as (m & Hm).
    apply (touch_next _ _ _ _ _ m) in H; [|exact Hm | eauto]. cbn [data] in H. injection H as _ <-.
    simpl. rewrite Hm. reflexivity.
  - (* Mutate *)
    destruct (owns_spec acq c t x I Hr) as [H3 H4].
    assert (Vx : val c x = stored c (slot c x)) by (rewrite (val_target c t x H3 H4), G; reflexivity).
    destruct (slot c x) as [b|] eqn:Hx.
    + destruct (i_live _ _ I (V x) b Hx) as (m & Hm).
      apply (unique_next acq c t b m (fun u : bool => if u then PWrite x f else PClone x f) c' o Hm) in H.
      destruct H as (E1 & E2 & E3 & E4 & E5).
      intro y. simpl. destruct (Nat.eqb_spec y x) as [->|N].
      * rewrite (val_target c' t x) by congruence. rewrite E5, upd_eq, Vx.
        destruct (cnt m =? 1); simpl; rewrite Nat.eqb_refl, E2, Hx, stored_dat, E1; reflexivity.
      * apply val_frame; try congruence; auto.
        intro u. rewrite E5. unfold upd. destruct (Nat.eqb_spec u t) as [->|]; [right | left; reflexivity].
        rewrite G. destruct (cnt m =? 1); simpl; split; congruence.
    + injection H as <- _. intro y. simpl. destruct (Nat.eqb_spec y x) as [->|]; [|reflexivity].
      rewrite Vx. reflexivity.
  - exact (values_resume acq c t b c' o I Hr H).
Qed.
