(* The base-32 and base-64 decoders accept exactly the specified language. *)
From Verif Require Import Base Text Bits CodecModel CodecSpec CodecProofs.

Lemma land_pow2_test T r : 0 <= T -> 0 <= r < 2 ^ (T + 1) ->
  (Z.land r (2 ^ T) =? 0) = (r <? 2 ^ T).
Proof.
  intros HT Hr. rewrite Z.pow_add_r, Z.pow_1_r in Hr by lia.
  assert (0 < 2 ^ T) by (apply Z.pow_pos_nonneg; lia).
  destruct (Z.ltb_spec r (2 ^ T)) as [L|G].
  - apply Z.eqb_eq. rewrite Z.land_comm. rewrite <- (Z.mul_1_l (2 ^ T)) .
    apply land_mul_small; lia.
  - apply Z.eqb_neq. intros E.
    assert (B : Z.testbit (Z.land r (2 ^ T)) T = false) by (rewrite E; apply Z.bits_0).
    rewrite Z.land_spec, Z.pow2_bits_true, andb_true_r in B by lia.
    replace r with (1 * 2 ^ T + (r - 2 ^ T)) in B by lia.
    rewrite <- lor_mul_add in B by lia. rewrite Z.lor_spec in B.
    rewrite Z.mul_1_l, Z.pow2_bits_true in B by lia. discriminate.
Qed.

Lemma spaces_spec c : (exists x, xstrchr spaces c = Some x) <-> is_space c.
Proof.
  unfold is_space. cbn [spaces xstrchr str app In].
  change (Z.of_N (Ascii.N_of_ascii (Ascii.Ascii false false false false false true false false))) with 32.
  destruct (Z.eqb_spec 32 c); [split; eauto|].
  destruct (Z.eqb_spec 12 c); [split; eauto 10|].
  destruct (Z.eqb_spec 10 c); [split; eauto 10|].
  destruct (Z.eqb_spec 13 c); [split; eauto 10|].
  destruct (Z.eqb_spec 9 c); [split; eauto 10|].
  destruct (Z.eqb_spec 11 c); [split; eauto 10|].
  split; [intros [x E]; discriminate|intuition congruence].
Qed.
Lemma not_space c : ~ is_space c -> xstrchr spaces c = None.
Proof.
  intros H. destruct (xstrchr spaces c) eqn:E; auto. exfalso; apply H, spaces_spec; eauto.
Qed.

Definition option_digit (digit : Z -> Z -> Prop) (val : Z -> option Z) : Prop :=
  forall c, is_byte c -> c <> 61 ->
    match val c with
    | Some v => digit c v
    | None => forall v, ~ digit c v
    end.

Section Decoder.
Variables (k w n : Z) (cnt : nat) (digit : Z -> Z -> Prop) (val : Z -> option Z).
Let T := k * Z.of_nat cnt.
Hypothesis Hparam : (k = 5 /\ cnt = 8%nat /\ w = 64 /\ n = 5) \/ (k = 6 /\ cnt = 4%nat /\ w = 32 /\ n = 3).
Hypothesis Hval : option_digit digit val.
Hypothesis Hdig : forall c v, digit c v -> 0 <= v < 2 ^ k /\ is_byte c /\ c <> 61 /\ ~ is_space c.
Hypothesis Hdet : forall c v v', digit c v -> digit c v' -> v = v'.

Definition gdigit (c reg npad : Z) : option (Z * Z) :=
  let reg := Z.shiftl reg k mod 2 ^ w in
  if c =? 61 then if reg <? 0x100 then None else Some (reg, npad + 1)
  else match val c with
       | None => None
       | Some v => if negb (npad =? 0) then None else Some (Z.lor reg v, npad)
       end.
Fixpoint gdec (reg npad : Z) (text : bytes) {struct text} : outcome bytes :=
  match text with
  | [] => if negb (reg =? 1) then Throw else Ok []
  | c :: t =>
    match xstrchr spaces c with
    | Some _ => if negb (reg =? 1) then Throw else gdec reg npad t
    | None =>
      match gdigit c reg npad with
      | None => Throw
      | Some (reg, npad) =>
        if Z.land reg (2 ^ T) =? 0 then gdec reg npad t
        else
          let m := (T - npad * k) mod 2 ^ 32 / 8 in
          let p := (m * 8 + (k - 1)) / k in
          if negb (p + npad =? Z.of_nat cnt) then Throw
          else match gdec 1 0 t with
               | Ok r => Ok (extract w T (Z.to_nat m) reg ++ r)
               | e => e
               end
      end
    end
  end.

Definition R (ds : list Z) (npad : nat) : Z :=
  (2 ^ (k * Z.of_nat (length ds)) + be_value (2 ^ k) ds) * 2 ^ (k * Z.of_nat npad).
Definition mof (ds : list Z) : Z := k * Z.of_nat (length ds) / 8.
Definition chunkof (ds : list Z) (npad : nat) : bytes := extract w T (Z.to_nat (mof ds)) (R ds npad).
Definition fin (ds : list Z) (npad : nat) (text : bytes) : outcome bytes :=
  if (length ds + npad =? cnt)%nat then
    if ndigits k (mof ds) =? Z.of_nat (length ds) then
      match gdec 1 0 text with Ok r => Ok (chunkof ds npad ++ r) | e => e end
    else Throw
  else gdec (R ds npad) (Z.of_nat npad) text.

Lemma Hk : 0 < k <= 8. Proof. lia. Qed.
Lemma HT8 : T + 8 <= w. Proof. unfold T. lia. Qed.
Lemma P2 e : 0 <= e -> 0 < 2 ^ e. Proof. intros; apply Z.pow_pos_nonneg; lia. Qed.

Lemma R_bound ds npad : digits_below (2 ^ k) ds ->
  2 ^ (k * Z.of_nat (length ds + npad)) <= R ds npad < 2 ^ (k * Z.of_nat (length ds + npad) + 1).
Proof.
  intros H. pose proof Hk. pose proof (be_bound (2 ^ k) ds (P2 k ltac:(lia)) H) as B.
  rewrite <- Z.pow_mul_r in B by lia.
  rewrite Nat2Z.inj_add, Z.mul_add_distr_l. unfold R.
  rewrite !Z.pow_add_r, Z.pow_1_r by lia.
  set (A := 2 ^ (k * Z.of_nat (length ds))) in *.
  pose proof (P2 (k * Z.of_nat npad) ltac:(lia)) as HP.
  set (P := 2 ^ (k * Z.of_nat npad)) in *. clearbody A P.
  split; [apply Z.mul_le_mono_nonneg_r; lia|].
  replace (A * P * 2) with ((A + A) * P) by ring. apply Z.mul_lt_mono_pos_r; lia.
Qed.
Lemma R_lt_w ds npad : digits_below (2 ^ k) ds -> (length ds + npad < cnt)%nat ->
  0 <= R ds npad * 2 ^ k < 2 ^ w.
Proof.
  intros H Hl. pose proof Hk. destruct (R_bound ds npad H) as [B1 B2].
  pose proof (P2 (k * Z.of_nat (length ds + npad)) ltac:(lia)).
  split. { apply Z.mul_nonneg_nonneg; [lia|]. pose proof (P2 k); lia. }
  apply Z.lt_le_trans with (2 ^ (k * Z.of_nat (length ds + npad) + 1) * 2 ^ k).
  { apply Z.mul_lt_mono_pos_r; [apply P2; lia|exact B2]. }
  rewrite <- Z.pow_add_r by lia. apply Z.pow_le_mono_r; [lia|].
  pose proof HT8 as HT. unfold T in HT.
  assert (k * Z.of_nat (length ds + npad) <= k * (Z.of_nat cnt - 1)) by (apply Z.mul_le_mono_nonneg_l; lia).
  lia.
Qed.
Lemma R_shift ds npad : digits_below (2 ^ k) ds -> (length ds + npad < cnt)%nat ->
  Z.shiftl (R ds npad) k mod 2 ^ w = R ds (S npad).
Proof.
  intros H Hl. pose proof Hk. rewrite Z.shiftl_mul_pow2 by lia.
  rewrite Z.mod_small by (apply R_lt_w; auto).
  unfold R. rewrite <- Z.mul_assoc, <- Z.pow_add_r by lia. f_equal. f_equal. lia.
Qed.
Lemma R_digit ds v : digits_below (2 ^ k) ds -> 0 <= v < 2 ^ k ->
  Z.lor (R ds 1) v = R (ds ++ [v]) 0.
Proof.
  intros H Hv. pose proof Hk. unfold R. change (Z.of_nat 1) with 1. rewrite Z.mul_1_r.
  rewrite lor_mul_add by lia. rewrite be_app, app_length. cbn [length].
  change (Z.of_nat 1) with 1. rewrite Z.pow_1_r. change (be_value (2 ^ k) [v]) with (0 * 2 ^ k + v).
  replace (k * Z.of_nat (length ds + 1)) with (k * Z.of_nat (length ds) + k) by lia.
  rewrite Z.pow_add_r by lia. change (Z.of_nat 0) with 0. rewrite Z.mul_0_r, Z.pow_0_r. ring.
Qed.
Lemma R_one ds npad : digits_below (2 ^ k) ds -> (0 < length ds + npad)%nat -> R ds npad <> 1.
Proof.
  intros H Hl. pose proof Hk. pose proof (R_bound ds npad H) as [B1 _].
  assert (2 ^ 1 <= 2 ^ (k * Z.of_nat (length ds + npad))). {
    apply Z.pow_le_mono_r; [lia|].
    assert (1 * 1 <= k * Z.of_nat (length ds + npad)) by (apply Z.mul_le_mono_nonneg; lia). lia. }
  lia.
Qed.

(* what happens after a character has been taken into the register *)
Lemma after_step ds npad t : digits_below (2 ^ k) ds -> (0 < length ds + npad <= cnt)%nat ->
  (if Z.land (R ds npad) (2 ^ T) =? 0 then gdec (R ds npad) (Z.of_nat npad) t
   else
     let m := (T - Z.of_nat npad * k) mod 2 ^ 32 / 8 in
     let p := (m * 8 + (k - 1)) / k in
     if negb (p + Z.of_nat npad =? Z.of_nat cnt) then Throw
     else match gdec 1 0 t with
          | Ok r => Ok (extract w T (Z.to_nat m) (R ds npad) ++ r)
          | e => e
          end) = fin ds npad t.
Proof.
  intros H Hl. pose proof Hk. destruct (R_bound ds npad H) as [B1 B2].
  assert (HT0 : 0 <= T) by (unfold T; lia).
  rewrite land_pow2_test; [|exact HT0|].
  2:{ split. { pose proof (P2 (k * Z.of_nat (length ds + npad))); lia. }
      eapply Z.lt_le_trans; [exact B2|]. apply Z.pow_le_mono_r; [lia|].
      unfold T. assert (k * Z.of_nat (length ds + npad) <= k * Z.of_nat cnt)
        by (apply Z.mul_le_mono_nonneg_l; lia). lia. }
  unfold fin. destruct (Nat.eqb_spec (length ds + npad) cnt) as [E|NE].
  - rewrite E in B1. fold T in B1. destruct (Z.ltb_spec (R ds npad) (2 ^ T)); [lia|].
    cbv zeta.
    assert (EM : (T - Z.of_nat npad * k) mod 2 ^ 32 / 8 = mof ds). {
      unfold mof. rewrite Z.mod_small.
      - f_equal. unfold T. replace (Z.of_nat cnt) with (Z.of_nat (length ds) + Z.of_nat npad) by lia. ring.
      - unfold T. change (2 ^ 32) with 4294967296. split; [|lia].
        assert (Z.of_nat npad * k <= Z.of_nat cnt * k) by (apply Z.mul_le_mono_nonneg_r; lia). lia. }
    rewrite EM.
    replace ((mof ds * 8 + (k - 1)) / k) with (ndigits k (mof ds)) by (unfold ndigits; f_equal; lia).
    replace (ndigits k (mof ds) + Z.of_nat npad =? Z.of_nat cnt)
      with (ndigits k (mof ds) =? Z.of_nat (length ds)).
    2:{ apply eq_true_iff_eq. rewrite !Z.eqb_eq. lia. }
    destruct (ndigits k (mof ds) =? Z.of_nat (length ds)); cbn [negb]; reflexivity.
  - assert (B3 : 2 ^ (k * Z.of_nat (length ds + npad) + 1) <= 2 ^ T). {
      apply Z.pow_le_mono_r; [lia|]. unfold T.
      assert (k * Z.of_nat (length ds + npad) <= k * (Z.of_nat cnt - 1))
        by (apply Z.mul_le_mono_nonneg_l; lia). lia. }
    destruct (Z.ltb_spec (R ds npad) (2 ^ T)); [reflexivity|lia].
Qed.

Lemma digit_val c v : digit c v -> val c = Some v.
Proof.
  intros H. destruct (Hdig c v H) as (Hv & Hb & Hn & _). specialize (Hval c Hb Hn).
  destruct (val c) as [u|]. { f_equal. eapply Hdet; eauto. } exfalso; eapply Hval; eauto.
Qed.

Lemma step_digit ds c v t : digits_below (2 ^ k) ds -> (length ds < cnt)%nat -> digit c v ->
  gdec (R ds 0) 0 (c :: t) = fin (ds ++ [v]) 0 t.
Proof.
  intros H Hl Hc. destruct (Hdig c v Hc) as (Hv & Hb & Hn & Hs).
  cbn [gdec]. rewrite (not_space c Hs). unfold gdigit.
  rewrite R_shift by (auto; lia). destruct (Z.eqb_spec c 61); [contradiction|].
  rewrite (digit_val c v Hc). cbn [negb Z.eqb]. rewrite R_digit by auto.
  apply (after_step (ds ++ [v]) 0 t).
  - apply Forall_app; split; auto.
  - rewrite app_length; cbn; lia.
Qed.
Lemma not_space_61 : xstrchr spaces 61 = None. Proof. reflexivity. Qed.
Lemma R_256 ds npad : digits_below (2 ^ k) ds -> (length ds + npad < cnt)%nat ->
  (R ds (S npad) <? 0x100) = (length ds + npad =? 0)%nat.
Proof.
  intros H Hl. pose proof Hk. destruct (R_bound ds (S npad) H) as [B1 B2].
  destruct (Nat.eqb_spec (length ds + npad) 0) as [E|NE].
  - apply Z.ltb_lt. eapply Z.lt_le_trans; [exact B2|].
    replace (length ds + S npad)%nat with 1%nat by lia. change 0x100 with (2 ^ 8).
    apply Z.pow_le_mono_r; lia.
  - apply Z.ltb_ge. eapply Z.le_trans; [|exact B1]. change 0x100 with (2 ^ 8).
    apply Z.pow_le_mono_r; [lia|].
    assert (5 * 2 <= k * Z.of_nat (length ds + S npad)) by (apply Z.mul_le_mono_nonneg; lia). lia.
Qed.
Lemma step_pad ds npad t : digits_below (2 ^ k) ds -> (0 < length ds)%nat -> (length ds + npad < cnt)%nat ->
  gdec (R ds npad) (Z.of_nat npad) (61 :: t) = fin ds (S npad) t.
Proof.
  intros H H0 Hl. cbn [gdec]. rewrite not_space_61. unfold gdigit.
  rewrite R_shift by auto. change (61 =? 61) with true. cbv iota.
  rewrite R_256 by auto. destruct (Nat.eqb_spec (length ds + npad) 0); [lia|].
  replace (Z.of_nat npad + 1) with (Z.of_nat (S npad)) by lia.
  apply after_step; auto; lia.
Qed.

Lemma fin_lt ds npad t : (length ds + npad < cnt)%nat ->
  fin ds npad t = gdec (R ds npad) (Z.of_nat npad) t.
Proof. intros H. unfold fin. destruct (Nat.eqb_spec (length ds + npad) cnt); [lia|reflexivity]. Qed.

Lemma feed_digits cs ds' : Forall2 digit cs ds' -> forall ds t, digits_below (2 ^ k) ds ->
  (length ds + length ds' <= cnt)%nat -> fin ds 0 (cs ++ t) = fin (ds ++ ds') 0 t.
Proof.
  induction 1 as [|c v cs ds' Hc _ IH]; intros ds t H Hl; cbn [app length] in *.
  - rewrite app_nil_r. reflexivity.
  - rewrite fin_lt by lia. change (Z.of_nat 0) with 0. rewrite (step_digit ds c v) by (auto; lia).
    rewrite IH; [rewrite <- app_assoc; reflexivity| |rewrite app_length; cbn; lia].
    apply Forall_app; split; auto. constructor; auto. apply Hdig in Hc; tauto.
Qed.
Lemma feed_pads q : forall ds npad t, digits_below (2 ^ k) ds -> (0 < length ds)%nat ->
  (length ds + npad + q <= cnt)%nat -> fin ds npad (repeat 61 q ++ t) = fin ds (npad + q) t.
Proof.
  induction q as [|q IH]; intros ds npad t H H0 Hl; cbn [repeat app].
  - rewrite Nat.add_0_r. reflexivity.
  - rewrite fin_lt by lia. rewrite step_pad by (auto; lia). rewrite IH by (auto; lia).
    f_equal. lia.
Qed.

(* the bytes taken out of a complete group *)
Lemma extract_frac m reg : extract w T m reg = frac 256 (2 ^ T) m (reg mod 2 ^ T).
Proof.
  pose proof HT8. assert (HT : 0 <= T) by (unfold T; lia). pose proof (P2 T HT).
  revert reg. induction m as [|m IH]; intros reg; cbn [extract frac]; [reflexivity|].
  rewrite Z.shiftl_mul_pow2 by lia. change (2 ^ 8) with 256.
  assert (EW : 2 ^ w = 2 ^ T * (256 * 2 ^ (w - T - 8))). {
    replace w with (T + (8 + (w - T - 8))) at 1 by lia. rewrite !Z.pow_add_r by lia. reflexivity. }
  assert (HQ : 0 < 2 ^ (w - T - 8)) by (apply P2; lia).
  set (Q := 2 ^ (w - T - 8)) in *. clearbody Q.
  f_equal.
  - rewrite Z.shiftr_div_pow2 by lia. rewrite EW.
    rewrite (Z.rem_mul_r (reg * 256) (2 ^ T) (256 * Q)) by lia.
    rewrite (Z.mul_comm (2 ^ T)), Z.add_comm, Z.div_add_l by lia.
    rewrite (Z.div_small (_ mod _) (2 ^ T)) by (apply Z.mod_pos_bound; lia). rewrite Z.add_0_r.
    rewrite mod_mod_mul by lia.
    rewrite (Z.div_mod reg (2 ^ T)) at 1 by lia.
    replace ((2 ^ T * (reg / 2 ^ T) + reg mod 2 ^ T) * 256)
      with ((reg / 2 ^ T) * 256 * 2 ^ T + reg mod 2 ^ T * 256) by ring.
    rewrite Z.div_add_l by lia. rewrite Z.add_comm, Z.mod_add by lia. apply Z.mod_small.
    pose proof (Z.mod_pos_bound reg (2 ^ T) ltac:(lia)).
    split; [apply Z.div_pos; lia|]. apply Z.div_lt_upper_bound; lia.
  - rewrite IH. f_equal. rewrite EW.
    rewrite Z.mul_mod_idemp_l by lia.
    apply mod_mod_mul; lia.
Qed.

Lemma chunkof_ok ds npad : digits_below (2 ^ k) ds -> (length ds + npad = cnt)%nat ->
  Z.of_nat (length (chunkof ds npad)) = mof ds /\ all_bytes (chunkof ds npad) /\
  be_value 256 (chunkof ds npad) =
    be_value (2 ^ k) ds / 2 ^ (k * Z.of_nat (length ds) - 8 * mof ds).
Proof.
  intros H Hl. pose proof Hk. pose proof HT8. assert (HT : 0 <= T) by (unfold T; lia).
  pose proof (P2 T HT) as PT.
  assert (Hm : 0 <= mof ds /\ 8 * mof ds <= k * Z.of_nat (length ds)). {
    unfold mof. pose proof (Z.mul_div_le (k * Z.of_nat (length ds)) 8 ltac:(lia)).
    split; [apply Z.div_pos; lia|lia]. }
  unfold chunkof. rewrite extract_frac.
  pose proof (Z.mod_pos_bound (R ds npad) (2 ^ T) PT) as HB.
  split; [rewrite frac_length; lia|]. split; [apply frac_below; lia|].
  rewrite frac_value' by lia. rewrite Z2Nat.id by lia. rewrite pow256 by lia.
  assert (ER : R ds npad mod 2 ^ T = be_value (2 ^ k) ds * 2 ^ (k * Z.of_nat npad)). {
    unfold R. rewrite Z.mul_add_distr_r. rewrite <- Z.pow_add_r by lia.
    replace (k * Z.of_nat (length ds) + k * Z.of_nat npad) with T
      by (unfold T; rewrite <- Hl; lia).
    rewrite Z.add_comm. rewrite <- (Z.mul_1_l (2 ^ T)) at 1. rewrite Z.mod_add by lia.
    apply Z.mod_small.
    pose proof (be_bound (2 ^ k) ds (P2 k ltac:(lia)) H) as B. rewrite <- Z.pow_mul_r in B by lia.
    split. { apply Z.mul_nonneg_nonneg; [lia|]. apply Z.pow_nonneg; lia. }
    replace T with (k * Z.of_nat (length ds) + k * Z.of_nat npad) by (unfold T; rewrite <- Hl; lia).
    rewrite Z.pow_add_r by lia. apply Z.mul_lt_mono_pos_r; [apply P2; lia|lia]. }
  rewrite ER. rewrite <- Z.mul_assoc, <- Z.pow_add_r by lia.
  replace T with ((k * Z.of_nat (length ds) - 8 * mof ds) + (k * Z.of_nat npad + 8 * mof ds))
    by (unfold T; rewrite <- Hl; lia).
  rewrite (Z.pow_add_r 2 (k * Z.of_nat (length ds) - 8 * mof ds)) by lia.
  apply Z.div_mul_cancel_r; apply Z.pow_nonzero; lia.
Qed.

(* the number of bytes and of digits determine each other *)
Lemma mof_of ds m : 0 < m <= n -> Z.of_nat (length ds) = ndigits k m -> mof ds = m.
Proof. unfold mof, ndigits. intros Hm E. rewrite E. destruct Hparam as [(-> & _ & _ & ->)|(-> & _ & _ & ->)]; zd. Qed.
Lemma mof_range ds : (0 < length ds <= cnt)%nat -> ndigits k (mof ds) = Z.of_nat (length ds) -> 0 < mof ds <= n.
Proof.
  unfold mof, ndigits. intros Hm E.
  destruct Hparam as [(-> & -> & _ & ->)|(-> & -> & _ & ->)]; zd.
Qed.
Lemma nd_le m : 0 < m <= n -> 0 < ndigits k m <= Z.of_nat cnt.
Proof. unfold ndigits. destruct Hparam as [(-> & -> & _ & ->)|(-> & -> & _ & ->)]; zd. Qed.

Notation spec := (rfc_decoding n k (Z.of_nat cnt) digit).

Lemma Forall2_below cs ds : Forall2 digit cs ds -> digits_below (2 ^ k) ds.
Proof. induction 1 as [|c v cs ds Hc _ IH]; constructor; auto. apply Hdig in Hc; tauto. Qed.

Lemma R_nil : R [] 0 = 1.
Proof. unfold R. cbn [length]. change (Z.of_nat 0) with 0. rewrite Z.mul_0_r, Z.pow_0_r. reflexivity. Qed.

Lemma gdec_complete text d : spec text d -> gdec 1 0 text = Ok d.
Proof.
  induction 1 as [|c t d Hs _ IH|chunk cs ds t d Hm Hc Hd H2 Hv _ IH].
  - reflexivity.
  - cbn [gdec]. apply spaces_spec in Hs. destruct Hs as [x ->]. cbn [negb Z.eqb]. exact IH.
  - pose proof (nd_le _ Hm) as Hn. pose proof (Forall2_below _ _ H2) as Hb.
    change 0 with (Z.of_nat 0). rewrite <- R_nil. rewrite <- fin_lt by (cbn; lia).
    rewrite (feed_digits cs ds) by (auto; try constructor; cbn; lia). cbn [app].
    rewrite Nat2Z.id. rewrite feed_pads by (auto; lia).
    unfold fin. destruct (Nat.eqb_spec (length ds + (0 + (cnt - length ds))) cnt); [|lia].
    rewrite (mof_of ds (Z.of_nat (length chunk))) by lia.
    destruct (Z.eqb_spec (ndigits k (Z.of_nat (length chunk))) (Z.of_nat (length ds))); [|lia].
    rewrite IH. f_equal. f_equal.
    destruct (chunkof_ok ds (0 + (cnt - length ds)) Hb ltac:(lia)) as (C1 & C2 & C3).
    apply (be_inj 256); auto; try lia.
    + rewrite (mof_of ds (Z.of_nat (length chunk))) in C1 by lia. lia.
    + rewrite C3, Hv. rewrite (mof_of ds (Z.of_nat (length chunk))) by lia. reflexivity.
Qed.

(* a text that continues a group of which digits ds and npad paddings were read *)
Definition cont (ds : list Z) (npad : nat) (text d : bytes) : Prop :=
  exists cs ds' q chunk t d',
    text = cs ++ repeat 61 q ++ t /\ d = chunk ++ d' /\ Forall2 digit cs ds' /\
    ((0 < npad)%nat -> cs = []) /\
    (length (ds ++ ds') + npad + q = cnt)%nat /\
    0 < Z.of_nat (length chunk) <= n /\ all_bytes chunk /\
    Z.of_nat (length (ds ++ ds')) = ndigits k (Z.of_nat (length chunk)) /\
    be_value 256 chunk = be_value (2 ^ k) (ds ++ ds')
      / 2 ^ (k * Z.of_nat (length (ds ++ ds')) - 8 * Z.of_nat (length chunk)) /\
    spec t d'.

Lemma cont_nil text d : cont [] 0 text d -> spec text d.
Proof.
  intros (cs & ds' & q & chunk & t & d' & -> & -> & H2 & _ & Hq & Hm & Hc & Hd & Hv & Ht).
  cbn [app] in *. replace q with (Z.to_nat (Z.of_nat cnt) - length ds')%nat by lia.
  apply dec_group; auto.
Qed.

Lemma fin_cnt_cont ds npad t d : digits_below (2 ^ k) ds -> (0 < length ds)%nat ->
  (length ds + npad = cnt)%nat ->
  (forall d', gdec 1 0 t = Ok d' -> spec t d') ->
  fin ds npad t = Ok d -> cont ds npad t d.
Proof.
  intros H H0 Hl IH E. unfold fin in E. destruct (Nat.eqb_spec (length ds + npad) cnt); [|lia].
  destruct (Z.eqb_spec (ndigits k (mof ds)) (Z.of_nat (length ds))) as [EN|]; [|discriminate].
  destruct (gdec 1 0 t) as [r| |] eqn:G; try discriminate. injection E as <-.
  destruct (chunkof_ok ds npad H Hl) as (C1 & C2 & C3).
  pose proof (mof_range ds ltac:(lia) EN) as MR.
  exists [], [], 0%nat, (chunkof ds npad), t, r. rewrite app_nil_r. cbn [repeat app].
  rewrite C1. repeat split; auto; try lia.
Qed.

Lemma gdec_sound text : all_bytes text -> forall ds npad d, digits_below (2 ^ k) ds ->
  (length ds + npad < cnt)%nat -> ((0 < npad)%nat -> (0 < length ds)%nat) ->
  gdec (R ds npad) (Z.of_nat npad) text = Ok d ->
  ((0 < length ds)%nat -> cont ds npad text d) /\ (length ds = 0%nat -> spec text d).
Proof.
  induction text as [|c t IH]; intros HT ds npad d H Hl Hp E.
  - cbn [gdec] in E. split.
    + intros H0. destruct (Z.eqb_spec (R ds npad) 1); cbn [negb] in E; [|discriminate].
      exfalso. eapply (R_one ds npad); eauto. lia.
    + intros H0. destruct (Z.eqb_spec (R ds npad) 1); cbn [negb] in E; [|discriminate].
      injection E as <-. constructor.
  - inversion HT as [|? ? Hcb HTt]; subst. specialize (IH HTt).
    assert (IH0 : forall d', gdec 1 0 t = Ok d' -> spec t d'). {
      intros d' E'. rewrite <- R_nil in E'. change (gdec (R [] 0) (Z.of_nat 0) t = Ok d') in E'.
      destruct (IH [] 0%nat d') as [_ G]; auto; try (constructor || cbn; lia). }
    assert (IH1 : forall ds' npad', digits_below (2 ^ k) ds' -> (0 < length ds')%nat ->
              (length ds' + npad' <= cnt)%nat -> fin ds' npad' t = Ok d -> cont ds' npad' t d). {
      intros ds' npad' Hb' H0' Hl' E'.
      destruct (Nat.eq_dec (length ds' + npad') cnt) as [EQ|NE].
      - apply fin_cnt_cont; auto.
      - rewrite fin_lt in E' by lia. destruct (IH ds' npad' d) as [G _]; auto; lia. }
    destruct (xstrchr spaces c) as [x|] eqn:ES.
    + cbn [gdec] in E. rewrite ES in E.
      destruct (Z.eqb_spec (R ds npad) 1) as [E1|]; cbn [negb] in E; [|discriminate].
      destruct (Nat.eq_dec (length ds + npad) 0) as [Z0|NZ].
      2:{ exfalso. eapply (R_one ds npad); eauto. lia. }
      split; [lia|]. intros _. apply dec_space.
      { apply spaces_spec; eauto. }
      rewrite E1 in E. replace (Z.of_nat npad) with 0 in E by lia. auto.
    + destruct (Z.eq_dec c 61) as [->|N61].
      * destruct (Nat.eq_dec (length ds) 0) as [L0|L0].
        { exfalso. cbn [gdec] in E. rewrite ES in E. unfold gdigit in E.
          rewrite R_shift in E by auto. change (61 =? 61) with true in E. cbv iota in E.
          rewrite R_256 in E by auto. destruct (Nat.eqb_spec (length ds + npad) 0); [discriminate|lia]. }
        rewrite step_pad in E by (auto; lia).
        split; [|lia]. intros _.
        apply IH1 in E; auto; try lia.
        destruct E as (cs & ds' & q & chunk & t' & d' & -> & -> & H2 & Hn & Hq & REST).
        specialize (Hn ltac:(lia)). subst cs.
        inversion H2; subst ds'.
        exists [], [], (S q), chunk, t', d'. cbn [app repeat] in *.
        split; [reflexivity|]. split; [reflexivity|]. split; [constructor|]. split; [auto|].
        split; [lia|]. exact REST.
      * pose proof (Hval c Hcb N61) as HV.
        destruct (val c) as [v|] eqn:EV.
        2:{ cbn [gdec] in E. rewrite ES in E. unfold gdigit in E.
            destruct (Z.eqb_spec c 61); [contradiction|]. rewrite EV in E. discriminate. }
        destruct npad as [|npad].
        2:{ cbn [gdec] in E. rewrite ES in E. unfold gdigit in E.
            destruct (Z.eqb_spec c 61); [contradiction|]. rewrite EV in E.
            destruct (Z.eqb_spec (Z.of_nat (S npad)) 0); [lia|]. discriminate. }
        change (Z.of_nat 0) with 0 in E.
        rewrite (step_digit ds c v) in E by (auto; lia).
        destruct (Hdig c v HV) as (Hv & _ & _ & _).
        assert (G : cont ds 0 (c :: t) d). {
          apply IH1 in E.
          - destruct E as (cs & ds' & q & chunk & t' & d' & -> & -> & H2 & Hn & Hq & Hm & Hc & Hd & HVV & Hs).
            exists (c :: cs), (v :: ds'), q, chunk, t', d'.
            rewrite <- app_assoc in *. cbn [app] in *.
            repeat (split; auto); try lia.
          - apply Forall_app; auto.
          - rewrite app_length; cbn; lia.
          - rewrite app_length; cbn; lia. }
        split; [auto|]. intros L0. destruct ds; [|discriminate]. apply cont_nil. exact G.
Qed.

Lemma gdec_iff text d : all_bytes text -> gdec 1 0 text = Ok d <-> spec text d.
Proof.
  intros HT. split; [|apply gdec_complete].
  intros E. rewrite <- R_nil in E. change (gdec (R [] 0) (Z.of_nat 0) text = Ok d) in E.
  destruct (gdec_sound text HT [] 0%nat d) as [_ G]; auto; try (constructor || cbn; lia).
Qed.
End Decoder.
