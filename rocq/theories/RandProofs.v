From Verif Require Import Base Bits NumTables NumGetModel NumSpec NumGetProofs NumCastProofs NumRoundProofs RandModel.

Local Open Scope Z_scope.

Lemma units_dbl m : fl_units m = dbl m.
Proof. reflexivity. Qed.

Lemma dbl_cell e q : 0 <= e -> 0 <= q <= 2 ^ 53 -> (0 < e -> 2 ^ 52 <= q) -> dbl (e * 2 ^ 52 + q) = q * 2 ^ e.
Proof.
  intros He Hq Hn. destruct (Z_lt_ge_dec q (2 ^ 52)) as [L|L].
  - assert (e = 0) as -> by (destruct (Z.eq_dec e 0); [assumption|specialize (Hn ltac:(lia)); lia]).
    rewrite Z.mul_0_l, Z.add_0_l, Z.pow_0_r, Z.mul_1_r. apply dbl_sub. lia.
  - replace (e * 2 ^ 52 + q) with ((e + 1 - 1) * 2 ^ 52 + q) by lia.
    rewrite dbl_normal_top by lia. f_equal. f_equal. lia.
Qed.

Lemma fl_round_nearest k N : 0 <= k -> 0 <= N -> nearest_at k N (fl_round k N).
Proof.
  intros Hk HN. unfold fl_round.
  set (e := Z.max 0 (Z.log2 N - k - 52)). set (d := 2 ^ (k + e)).
  set (q := N / d). set (r := N mod d). cbv zeta.
  assert (He : 0 <= e) by (unfold e; lia).
  assert (Hd : 0 < d) by (apply pow2_pos; lia).
  assert (Hdiv : N = d * q + r) by (apply Z.div_mod; lia).
  assert (Hr : 0 <= r < d) by (apply Z.mod_pos_bound; lia).
  assert (Hq0 : 0 <= q) by (apply Z.div_pos; lia).
  assert (Hq1 : q < 2 ^ 53).
  { apply Z.div_lt_upper_bound; [exact Hd|]. unfold d. rewrite <- Z.pow_add_r by lia.
    destruct (Z.eq_dec N 0) as [->|]; [apply pow2_pos; lia|].
    apply Z.lt_le_trans with (2 ^ Z.succ (Z.log2 N)); [apply Z.log2_spec; lia|].
    apply Z.pow_le_mono_r; unfold e; lia. }
  assert (Hq2 : 0 < e -> 2 ^ 52 <= q).
  { intros Hp. apply Z.div_le_lower_bound; [exact Hd|]. unfold d. rewrite <- Z.pow_add_r by lia.
    apply Z.le_trans with (2 ^ Z.log2 N); [apply Z.pow_le_mono_r; unfold e in *; lia|].
    apply Z.log2_spec. destruct (Z.eq_dec N 0) as [E|]; [|lia].
    unfold e in Hp. rewrite E in Hp. change (Z.log2 0) with 0 in Hp. lia. }
  set (t := e * 2 ^ 52 + q).
  assert (D0 : dbl t * 2 ^ k = q * d).
  { unfold t. rewrite dbl_cell by lia. unfold d. rewrite Z.pow_add_r by lia. ring. }
  assert (D1 : dbl (t + 1) * 2 ^ k = (q + 1) * d).
  { unfold t. rewrite <- Z.add_assoc. rewrite dbl_cell by lia. unfold d. rewrite Z.pow_add_r by lia. ring. }
  assert (Ht : 0 <= t) by (unfold t; lia).
  destruct (Z_lt_ge_dec t infinity) as [L|G].
  - set (up := (d <? 2 * r) || ((d =? 2 * r) && Z.odd q)).
    replace (Z.min fl_inf (t + (if up then 1 else 0))) with (if up then t + 1 else t).
    2: { change fl_inf with infinity. destruct up; lia. }
    apply nearest_between; [exact Hk|lia|rewrite D0, D1; nia| |].
    + rewrite D0, D1. unfold up. destruct (d <? 2 * r) eqn:E1; cbn [orb]; [nia|].
      destruct (d =? 2 * r) eqn:E2; cbn [andb]; [destruct (Z.odd q); nia|nia].
    + rewrite D0, D1. intros E. assert (d = 2 * r) by nia. unfold up.
      replace (d <? 2 * r) with false by lia. replace (d =? 2 * r) with true by lia. cbn [orb andb].
      rewrite Z.negb_even. unfold t. rewrite Z.odd_add, Z.odd_mul. change (Z.odd (2 ^ 52)) with false.
      rewrite andb_false_r. destruct (Z.odd q); reflexivity.
  - replace (Z.min fl_inf _) with infinity.
    2: { change fl_inf with infinity. destruct (_ || _); lia. }
    apply nearest_infinity; [exact Hk|].
    pose proof (dbl_mono infinity t ltac:(unfold infinity; lia) ltac:(lia)).
    pose proof (pow2_pos k Hk). nia.
Qed.

Lemma fl_round_exact k m : 0 <= k -> 0 <= m <= infinity -> fl_round k (dbl m * 2 ^ k) = m.
Proof.
  intros Hk Hm. apply (nearest_exact k); [exact Hk|exact Hm|].
  apply fl_round_nearest; [exact Hk|]. pose proof (pow2_pos k Hk).
  pose proof (dbl_mono 0 m ltac:(lia) ltac:(lia)) as H0. change (dbl 0) with 0 in H0. nia.
Qed.

(* Every number of less than 2^53 scaled is a double. *)
Lemma dyadic i s : 0 <= i < 2 ^ 53 -> 0 <= s <= 1074 -> exists m, 0 <= m < infinity /\ dbl m = i * 2 ^ s.
Proof.
  intros Hi Hs. destruct (Z.eq_dec i 0) as [->|N].
  { exists 0. split; [unfold infinity; lia|reflexivity]. }
  assert (HL := Z.log2_spec i ltac:(lia)). assert (HL0 := Z.log2_nonneg i).
  assert (Z.log2 i < 53) by (apply Z.log2_lt_pow2; lia).
  set (e := Z.max 0 (Z.log2 i + s - 52)).
  assert (exists q, i * 2 ^ s = q * 2 ^ e /\ 0 <= q < 2 ^ 53 /\ (0 < e -> 2 ^ 52 <= q)) as (q & Eq & Hq & Hn).
  { destruct (Z_le_gt_dec e s) as [L|G].
    - exists (i * 2 ^ (s - e)). split; [rewrite <- Z.mul_assoc, <- Z.pow_add_r by lia; f_equal; f_equal; lia|].
      assert (HP := pow2_pos (s - e) ltac:(lia)).
      split; [split; [nia|]|].
      + apply Z.lt_le_trans with (2 ^ Z.succ (Z.log2 i) * 2 ^ (s - e)); [nia|].
        rewrite <- Z.pow_add_r by lia. apply Z.pow_le_mono_r; unfold e; lia.
      + intros He. apply Z.le_trans with (2 ^ Z.log2 i * 2 ^ (s - e)); [|nia].
        rewrite <- Z.pow_add_r by lia. apply Z.pow_le_mono_r; unfold e in *; lia.
    - exfalso. unfold e in G. lia. }
  exists (e * 2 ^ 52 + q). rewrite dbl_cell by lia. split; [|lia].
  unfold infinity. assert (e <= 1074) by (unfold e; lia). lia.
Qed.

Lemma mag_small m : 0 <= m < infinity -> fl_mag m = m /\ fl_sign m = false.
Proof.
  intros H. unfold fl_mag, fl_sign, infinity in *. split; [apply Z.mod_small; lia|lia].
Qed.

(* The number before it is scaled. *)
Definition mix (b1 b2 : Z) : Z := Z.lxor (Z.shiftl b1 21) b2.

Lemma mix_range b1 b2 : 0 <= b1 < 2 ^ 32 -> 0 <= b2 < 2 ^ 32 -> 0 <= mix b1 b2 < 2 ^ 53.
Proof.
  intros H1 H2. unfold mix. rewrite Z.shiftl_mul_pow2 by lia.
  assert (0 <= b1 * 2 ^ 21 < 2 ^ 53) by lia.
  set (a := b1 * 2 ^ 21) in *.
  assert (N : 0 <= Z.lxor a b2) by (apply Z.lxor_nonneg; lia). split; [exact N|].
  destruct (Z.eq_dec (Z.lxor a b2) 0) as [->|Hz]; [lia|].
  apply Z.log2_lt_pow2; [lia|].
  pose proof (Z.log2_lxor a b2 ltac:(lia) ltac:(lia)).
  assert (Z.log2 a < 53) by (destruct (Z.eq_dec a 0) as [->|]; [reflexivity|apply Z.log2_lt_pow2; lia]).
  assert (Z.log2 b2 < 53) by (destruct (Z.eq_dec b2 0) as [->|]; [reflexivity|apply Z.log2_lt_pow2; lia]).
  lia.
Qed.

Lemma ratio_ok i : 0 <= i < 2 ^ 53 ->
  let p := fl_mul (fl_of_nonneg i) fl_2_m53 in
  0 <= p < infinity /\ dbl p = i * 2 ^ 1021.
Proof.
  intros Hi p. subst p.
  destruct (dyadic i 1074 Hi ltac:(lia)) as (m & Hm & Em).
  destruct (dyadic i 1021 Hi ltac:(lia)) as (p & Hp & Ep).
  unfold fl_of_nonneg. replace (i * 2 ^ 1074) with (dbl m * 2 ^ 0) by (rewrite Em, Z.pow_0_r; lia).
  rewrite fl_round_exact by lia.
  unfold fl_mul. destruct (mag_small m Hm) as [-> ->].
  assert (H53 : fl_mag fl_2_m53 = fl_2_m53 /\ fl_sign fl_2_m53 = false) by (split; reflexivity).
  destruct H53 as [-> ->]. change (xorb false false) with false.
  rewrite !units_dbl, Em. assert (E53 : dbl fl_2_m53 = 2 ^ 1021).
  { replace fl_2_m53 with ((970 - 1) * 2 ^ 52 + 2 ^ 52) by reflexivity. rewrite dbl_normal by lia.
    rewrite <- Z.pow_add_r by lia. reflexivity. }
  rewrite (units_dbl fl_2_m53), E53. replace (i * 2 ^ 1074 * 2 ^ 1021) with (dbl p * 2 ^ 1074) by (rewrite Ep; ring).
  rewrite fl_round_exact by lia. unfold fl_make. rewrite Z.add_0_l. split; [exact Hp|exact Ep].
Qed.

Lemma shift_fits b : 0 <= b < 2 ^ 32 -> is_int64b (Z.shiftl b 21) = true.
Proof.
  intros H. rewrite Z.shiftl_mul_pow2 by lia. unfold is_int64b, int64_min, int64_max. lia.
Qed.

Lemma random_plain b1 b2 : 0 <= b1 < 2 ^ 32 -> 0 <= b2 < 2 ^ 32 ->
  exists p, std_numeric_random b1 b2 None = Ok p /\ 0 <= p < infinity /\ dbl p = mix b1 b2 * 2 ^ 1021.
Proof.
  intros H1 H2. unfold std_numeric_random. rewrite shift_fits by exact H1. cbn [negb].
  fold (mix b1 b2). destruct (ratio_ok _ (mix_range _ _ H1 H2)) as [Hp Ep]. eauto.
Qed.

Lemma make_parts s m : 0 <= m <= infinity -> magnitude (fl_make s m) = m /\ minus_bit (fl_make s m) = s.
Proof.
  intros H. unfold magnitude, minus_bit, fl_make, infinity in *.
  destruct s; split; try (destruct (Z.leb_spec (2 ^ 63) (2 ^ 63 + m)); lia);
    try (destruct (Z.leb_spec (2 ^ 63) (0 + m)); lia);
    Z.to_euclidean_division_equations; lia.
Qed.

Lemma random_limit b1 b2 l : 0 <= b1 < 2 ^ 32 -> 0 <= b2 < 2 ^ 32 -> 0 <= l < 2 ^ 64 ->
  0 < magnitude l < infinity ->
  exists p, std_numeric_random b1 b2 (Some l) = Ok p /\ minus_bit p = minus_bit l /\
    nearest_at 53 (mix b1 b2 * dbl (magnitude l)) (magnitude p).
Proof.
  intros H1 H2 Hl Hm. unfold std_numeric_random. rewrite shift_fits by exact H1. cbn [negb].
  fold (mix b1 b2). assert (Hi := mix_range _ _ H1 H2). set (i := mix b1 b2) in *.
  destruct (ratio_ok i Hi) as [Hp Ep]. set (p := fl_mul (fl_of_nonneg i) fl_2_m53) in *.
  unfold fpclassify. change (fl_mag l) with (magnitude l).
  replace (fl_inf <? magnitude l) with false by (change fl_inf with infinity; lia).
  replace (magnitude l =? fl_inf) with false by (change fl_inf with infinity; lia).
  replace (magnitude l =? 0) with false by lia.
  assert (E : (match (if magnitude l <? 2 ^ 52 then Fp_subnormal else Fp_normal) with
     | Fp_nan | Fp_infinite | Fp_zero => Throw | _ => Ok (fl_mul p l) end) = Ok (fl_mul p l))
    by (destruct (magnitude l <? 2 ^ 52); reflexivity).
  rewrite E. eexists; split; [reflexivity|]. unfold fl_mul.
  destruct (mag_small p Hp) as [-> ->]. rewrite xorb_false_l. change (fl_mag l) with (magnitude l).
  change fl_units with dbl. rewrite Ep.
  assert (HN : nearest_at 1074 (i * 2 ^ 1021 * dbl (magnitude l)) (fl_round 1074 (i * 2 ^ 1021 * dbl (magnitude l)))).
  { apply fl_round_nearest; [lia|]. pose proof (dbl_mono 0 (magnitude l) ltac:(lia) ltac:(lia)) as D0.
    change (dbl 0) with 0 in D0. assert (HP := pow2_pos 1021 ltac:(lia)).
    apply Z.mul_nonneg_nonneg; [apply Z.mul_nonneg_nonneg; lia|lia]. }
  destruct (make_parts (fl_sign l) _ (proj1 HN)) as [-> ->]. split; [reflexivity|].
  apply (nearest_scale 53 1021); [lia|lia|].
  replace (i * dbl (magnitude l) * 2 ^ 1021) with (i * 2 ^ 1021 * dbl (magnitude l)) by ring. exact HN.
Qed.

Lemma random_rejects b1 b2 l : 0 <= b1 < 2 ^ 32 -> 0 <= b2 < 2 ^ 32 ->
  magnitude l = 0 \/ infinity <= magnitude l -> std_numeric_random b1 b2 (Some l) = Throw.
Proof.
  intros H1 H2 Hm. unfold std_numeric_random. rewrite shift_fits by exact H1. cbn [negb].
  unfold fpclassify. change (fl_mag l) with (magnitude l). change fl_inf with infinity.
  destruct (infinity <? magnitude l) eqn:E1; [reflexivity|].
  destruct (magnitude l =? infinity) eqn:E2; [reflexivity|].
  destruct (magnitude l =? 0) eqn:E3; [reflexivity|]. lia.
Qed.

(* The gap below a double above the least normal one. *)
Lemma gap_below l : 2 ^ 52 < l -> 2 ^ 52 * (dbl l - dbl (l - 1)) < dbl l.
Proof.
  intros Hl. set (e := l / 2 ^ 52). set (q := l mod 2 ^ 52).
  assert (E : l = 2 ^ 52 * e + q) by (apply Z.div_mod; lia).
  assert (Hq : 0 <= q < 2 ^ 52) by (apply Z.mod_pos_bound; lia).
  assert (He : 1 <= e) by (apply Z.div_le_lower_bound; lia).
  replace l with ((e - 1) * 2 ^ 52 + (2 ^ 52 + q)) at 1 3 by lia. rewrite dbl_normal by lia.
  destruct (Z.eq_dec q 0) as [Q|Q].
  - assert (e <> 1) by lia.
    replace (l - 1) with ((e - 1 - 1) * 2 ^ 52 + (2 ^ 53 - 1)) by lia. rewrite dbl_normal by lia.
    rewrite Q, Z.add_0_r. replace (e - 1) with (Z.succ (e - 1 - 1)) by lia. rewrite Z.pow_succ_r by lia.
    replace (Z.succ (e - 1 - 1) - 1) with (e - 1 - 1) by lia.
    assert (HP := pow2_pos (e - 1 - 1) ltac:(lia)). set (P := 2 ^ (e - 1 - 1)) in *. lia.
  - replace (l - 1) with ((e - 1) * 2 ^ 52 + (2 ^ 52 + q - 1)) by lia. rewrite dbl_normal by lia.
    assert (HP := pow2_pos (e - 1) ltac:(lia)). set (P := 2 ^ (e - 1)) in *. nia.
Qed.

Lemma below_limit i l m : 0 <= i < 2 ^ 53 -> 2 ^ 52 < l <= infinity ->
  nearest_at 53 (i * dbl l) m -> m < l.
Proof.
  intros Hi Hl [Hm HA]. destruct (Z_lt_ge_dec m l) as [|G]; [assumption|exfalso].
  pose proof (gap_below l ltac:(lia)) as HG. pose proof (dbl_lt (l - 1) l ltac:(lia) ltac:(lia)) as HL.
  pose proof (dbl_mono l m ltac:(lia) ltac:(lia)) as HM.
  pose proof (dbl_mono 0 (l - 1) ltac:(lia) ltac:(lia)) as H0. change (dbl 0) with 0 in H0.
  specialize (HA (l - 1) ltac:(lia) ltac:(lia)). cbv zeta in HA.
  set (L := dbl l) in *. set (K := dbl (l - 1)) in *. set (M := dbl m) in *.
  assert (HX : L <= L * 2 ^ 53 - i * L) by nia.
  assert (HIL : i * L <= L * 2 ^ 53 - L) by lia. set (X := i * L) in *. clearbody X. lia.
Qed.

Lemma at_most_limit i l m : 0 <= i < 2 ^ 53 -> 0 <= l <= infinity ->
  nearest_at 53 (i * dbl l) m -> m <= l.
Proof.
  intros Hi Hl [Hm HA]. destruct (Z_le_gt_dec m l) as [|G]; [assumption|exfalso].
  pose proof (dbl_lt l m ltac:(lia) ltac:(lia)) as HL.
  pose proof (dbl_mono 0 l ltac:(lia) ltac:(lia)) as H0. change (dbl 0) with 0 in H0.
  specialize (HA l ltac:(lia) ltac:(lia)). cbv zeta in HA.
  set (L := dbl l) in *. set (M := dbl m) in *.
  assert (HX : i * L <= L * 2 ^ 53) by nia. set (X := i * L) in *. clearbody X. lia.
Qed.

(* Which pairs of outputs give a number. *)
Lemma land_shift_low a b n : 0 <= n -> 0 <= b < 2 ^ n -> Z.land (Z.shiftl a n) b = 0.
Proof.
  intros Hn Hb. apply Z.bits_inj'. intros k Hk. rewrite Z.land_spec, Z.bits_0.
  destruct (Z_lt_ge_dec k n).
  - rewrite Z.shiftl_spec_low by lia. reflexivity.
  - rewrite (testbit_small b n k) by lia. apply andb_false_r.
Qed.

Lemma split_xor b n : 0 <= n -> b = Z.lxor (Z.shiftl (b / 2 ^ n) n) (b mod 2 ^ n).
Proof.
  intros Hn. assert (0 < 2 ^ n) by (apply pow2_pos; lia).
  rewrite <- Z.add_nocarry_lxor.
  - rewrite Z.shiftl_mul_pow2 by lia. pose proof (Z.div_mod b (2 ^ n) ltac:(lia)). lia.
  - apply land_shift_low; [lia|]. apply Z.mod_pos_bound. lia.
Qed.

Lemma mix_split b1 b2 : mix b1 b2 = Z.lxor (Z.shiftl (Z.lxor b1 (b2 / 2 ^ 21)) 21) (b2 mod 2 ^ 21).
Proof.
  unfold mix. rewrite (split_xor b2 21) at 1 by lia. rewrite Z.shiftl_lxor, Z.lxor_assoc. reflexivity.
Qed.

Lemma mix_parts b1 b2 i : mix b1 b2 = i <->
  Z.lxor b1 (b2 / 2 ^ 21) = i / 2 ^ 21 /\ b2 mod 2 ^ 21 = i mod 2 ^ 21.
Proof.
  rewrite mix_split. set (a := Z.lxor b1 (b2 / 2 ^ 21)). set (c := b2 mod 2 ^ 21).
  assert (Hc : 0 <= c < 2 ^ 21) by (apply Z.mod_pos_bound; lia).
  rewrite <- Z.add_nocarry_lxor by (apply land_shift_low; lia).
  rewrite Z.shiftl_mul_pow2 by lia. split.
  - intros <-. rewrite Z.add_comm, Z.div_add, Z.mod_add, Z.div_small, Z.mod_small by lia. lia.
  - intros [-> ->]. pose proof (Z.div_mod i (2 ^ 21) ltac:(lia)). lia.
Qed.

Lemma lxor_range a b n : 0 <= n -> 0 <= a < 2 ^ n -> 0 <= b < 2 ^ n -> 0 <= Z.lxor a b < 2 ^ n.
Proof.
  intros Hn Ha Hb. assert (N : 0 <= Z.lxor a b) by (apply Z.lxor_nonneg; lia). split; [exact N|].
  destruct (Z.eq_dec (Z.lxor a b) 0) as [->|Hz]; [apply pow2_pos; lia|].
  apply Z.log2_lt_pow2; [lia|].
  pose proof (Z.log2_lxor a b ltac:(lia) ltac:(lia)).
  assert (L : forall x, 0 <= x < 2 ^ n -> Z.log2 x < n \/ x = 0).
  { intros x Hx. destruct (Z.eq_dec x 0); [right; assumption|left; apply Z.log2_lt_pow2; lia]. }
  destruct (L a Ha) as [|A], (L b Hb) as [|B]; try lia;
    subst; rewrite ?Z.lxor_0_l, ?Z.lxor_0_r in *; change (Z.log2 0) with 0 in *; lia.
Qed.

Lemma mix_uniform i c : 0 <= i < 2 ^ 53 -> 0 <= c < 2 ^ 11 ->
  exists! b : Z * Z, (0 <= fst b < 2 ^ 32 /\ 0 <= snd b < 2 ^ 32) /\ snd b / 2 ^ 21 = c /\ mix (fst b) (snd b) = i.
Proof.
  intros Hi Hc.
  assert (Hm := Z.mod_pos_bound i (2 ^ 21) ltac:(lia)).
  assert (Hd : 0 <= i / 2 ^ 21 < 2 ^ 32) by (split; [apply Z.div_pos; lia|apply Z.div_lt_upper_bound; lia]).
  exists (Z.lxor (i / 2 ^ 21) c, c * 2 ^ 21 + i mod 2 ^ 21). split.
  - cbn [fst snd]. assert (E : (c * 2 ^ 21 + i mod 2 ^ 21) / 2 ^ 21 = c).
    { rewrite Z.add_comm, Z.div_add, Z.div_small by lia. lia. }
    split; [split; [apply lxor_range; lia|lia]|]. split; [exact E|].
    apply mix_parts. rewrite E. split.
    + rewrite Z.lxor_assoc, Z.lxor_nilpotent, Z.lxor_0_r. reflexivity.
    + rewrite Z.add_comm, Z.mod_add by lia. apply Z.mod_mod. lia.
  - intros [b1 b2] (_ & E & M). cbn [fst snd] in *. apply mix_parts in M as [M1 M2].
    rewrite E in M1. f_equal.
    + rewrite <- M1, Z.lxor_assoc, Z.lxor_nilpotent, Z.lxor_0_r. reflexivity.
    + pose proof (Z.div_mod b2 (2 ^ 21) ltac:(lia)). rewrite E, M2 in *. lia.
Qed.

Lemma small_parts p : 0 <= p < infinity ->
  minus_bit p = false /\ magnitude p = p /\ real_units p = dbl p.
Proof.
  intros H. assert (minus_bit p = false) as M by (unfold minus_bit, infinity in *; lia).
  assert (magnitude p = p) as G by (unfold magnitude; apply Z.mod_small; unfold infinity in H; lia).
  unfold real_units. rewrite M, G. auto.
Qed.

Lemma random_unit b1 b2 : 0 <= b1 < 2 ^ 32 -> 0 <= b2 < 2 ^ 32 ->
  exists p i, std_numeric_random b1 b2 None = Ok p /\ 0 <= i < 2 ^ 53 /\
    minus_bit p = false /\ magnitude p < infinity /\ real_units p * 2 ^ 53 = i * 2 ^ 1074 /\
    0 <= real_units p < 2 ^ 1074.
Proof.
  intros H1 H2. destruct (random_plain b1 b2 H1 H2) as (p & E & Hp & Ep).
  pose proof (mix_range _ _ H1 H2) as Hi.
  exists p, (mix b1 b2). destruct (small_parts p Hp) as (M & G & U). rewrite M, G, U, Ep.
  replace (2 ^ 1074) with (2 ^ 53 * 2 ^ 1021) by reflexivity.
  assert (HP := pow2_pos 1021 ltac:(lia)). set (P := 2 ^ 1021) in *. clearbody P.
  split; [exact E|]. split; [exact Hi|]. split; [reflexivity|]. split; [lia|]. split; [ring|]. nia.
Qed.

Lemma random_uniform i c : 0 <= i < 2 ^ 53 -> 0 <= c < 2 ^ 11 ->
  exists! b : Z * Z, (0 <= fst b < 2 ^ 32 /\ 0 <= snd b < 2 ^ 32) /\ snd b / 2 ^ 21 = c /\
    exists p, std_numeric_random (fst b) (snd b) None = Ok p /\ real_units p * 2 ^ 53 = i * 2 ^ 1074.
Proof.
  intros Hi Hc. destruct (mix_uniform i c Hi Hc) as (b & (HB & E & M) & U).
  exists b. split.
  - split; [exact HB|]. split; [exact E|]. destruct HB as [H1 H2].
    destruct (random_plain _ _ H1 H2) as (p & EP & Hp & Ep). exists p. split; [exact EP|].
    destruct (small_parts p Hp) as (_ & _ & ->). rewrite Ep, M.
    replace (2 ^ 1074) with (2 ^ 53 * 2 ^ 1021) by reflexivity. ring.
  - intros b' (HB' & E' & p & EP & V). apply U. split; [exact HB'|]. split; [exact E'|].
    destruct HB' as [H1 H2]. destruct (random_plain _ _ H1 H2) as (p' & EP' & Hp & Ep).
    rewrite EP in EP'. injection EP' as <-. destruct (small_parts p Hp) as (_ & _ & EU). rewrite EU, Ep in V.
    replace (2 ^ 1074) with (2 ^ 53 * 2 ^ 1021) in V by reflexivity.
    assert (HP := pow2_pos 1021 ltac:(lia)). set (P := 2 ^ 1021) in *. clearbody P. nia.
Qed.

Lemma random_limited b1 b2 l : 0 <= b1 < 2 ^ 32 -> 0 <= b2 < 2 ^ 32 -> 0 <= l < 2 ^ 64 ->
  0 < magnitude l < infinity ->
  exists p, std_numeric_random b1 b2 (Some l) = Ok p /\ minus_bit p = minus_bit l /\
    magnitude p <= magnitude l /\ (2 ^ 52 < magnitude l -> magnitude p < magnitude l) /\
    exists q, std_numeric_random b1 b2 None = Ok q /\
      nearest_at 1074 (real_units q * Z.abs (real_units l)) (magnitude p).
Proof.
  intros H1 H2 Hl Hm. destruct (random_limit b1 b2 l H1 H2 Hl Hm) as (p & E & S & N).
  pose proof (mix_range _ _ H1 H2) as Hi.
  exists p. split; [exact E|]. split; [exact S|].
  split; [apply (at_most_limit (mix b1 b2)); [exact Hi|lia|exact N]|].
  split; [intros; apply (below_limit (mix b1 b2)); [exact Hi|lia|exact N]|].
  destruct (random_plain b1 b2 H1 H2) as (q & Eq & Hq & Dq). exists q. split; [exact Eq|].
  destruct (small_parts q Hq) as (_ & _ & ->). rewrite Dq.
  pose proof (dbl_mono 0 (magnitude l) ltac:(lia) ltac:(lia)) as D0. change (dbl 0) with 0 in D0.
  replace (Z.abs (real_units l)) with (dbl (magnitude l)) by (unfold real_units; destruct (minus_bit l); lia).
  apply (nearest_scale 53 1021) in N; [|lia|lia].
  replace (mix b1 b2 * 2 ^ 1021 * dbl (magnitude l)) with (mix b1 b2 * dbl (magnitude l) * 2 ^ 1021) by ring.
  exact N.
Qed.
