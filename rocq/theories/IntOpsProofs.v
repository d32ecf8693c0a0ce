From Verif Require Import Base IntOpsModel IntOpsSpec.

Local Ltac ranges := unfold is_int64, int64_min, int64_max in *.

Lemma checked_intro z : checked z (if negb (is_int64b z) then Throw else Ok (to_i64 z)).
Proof.
  unfold checked.
  destruct (is_int64b z) eqn:E; cbn [negb].
  - left; apply is_int64b_spec in E; split; [exact E|]. rewrite to_i64_id; auto.
  - right; split; [|reflexivity]. intros H; apply is_int64b_spec in H; congruence.
Qed.

Lemma op_inc_ok v : checked (v + 1) (op_inc v).
Proof. exact (checked_intro _). Qed.
Lemma op_dec_ok v : checked (v - 1) (op_dec v).
Proof. exact (checked_intro _). Qed.
Lemma op_neg_ok v : checked (- v) (op_neg v).
Proof. exact (checked_intro (0 - v)). Qed.
Lemma op_add_ok l r : checked (l + r) (op_add l r).
Proof. exact (checked_intro _). Qed.
Lemma op_sub_ok l r : checked (l - r) (op_sub l r).
Proof. exact (checked_intro _). Qed.
Lemma op_mul_ok l r : checked (l * r) (op_mul l r).
Proof. exact (checked_intro _). Qed.

Lemma shiftr63_sign v : is_int64 v -> Z.shiftr v 63 = if v <? 0 then -1 else 0.
Proof.
  intros H; ranges. rewrite Z.shiftr_div_pow2 by lia.
  destruct (v <? 0) eqn:E.
  - symmetry; apply Z.div_unique with (r := v + 2 ^ 63); lia.
  - apply Z.div_small; lia.
Qed.

Lemma op_abs_ok v : is_int64 v -> checked (Z.abs v) (op_abs v).
Proof.
  intros H; unfold op_abs, subm.
  destruct (is_int64b (0 - v)) eqn:E; cbn [negb].
  - left. apply is_int64b_spec in E. split; [ranges; lia|].
    rewrite to_i64_id by exact E. rewrite shiftr63_sign by exact H.
    destruct (v <? 0) eqn:S; f_equal.
    + rewrite Z.land_m1_r. rewrite Z.lxor_comm, <- Z.lxor_assoc, Z.lxor_nilpotent, Z.lxor_0_l. lia.
    + rewrite Z.land_0_r, Z.lxor_0_l. lia.
  - right; split; [|reflexivity].
    intros H2. assert (is_int64b (0 - v) = true); [|congruence].
    apply is_int64b_spec; ranges; lia.
Qed.

Lemma same_sign_pos l m : 0 < l -> 0 <= m * l -> 0 <= m.
Proof. intros; nia. Qed.
Lemma same_sign_neg l m : l < 0 -> 0 <= m * l -> m <= 0.
Proof. intros; nia. Qed.
Lemma mul_lt_abs r k d : r * k = d -> Z.abs d < Z.abs r -> k = 0.
Proof.
  intros E H. rewrite <- E, Z.abs_mul in H.
  destruct (Z.eq_dec k 0) as [|N]; [assumption|].
  assert (1 <= Z.abs k) by lia. assert (0 <= Z.abs r) by lia. nia.
Qed.

Lemma trunc_div_unique l r q1 m1 q2 m2 :
  r <> 0 -> trunc_div l r q1 m1 -> trunc_div l r q2 m2 -> q1 = q2 /\ m1 = m2.
Proof.
  unfold trunc_div; intros Hr (E1 & B1 & S1) (E2 & B2 & S2).
  assert (r * (q2 - q1) = m1 - m2) as E by lia.
  assert (Z.abs (m1 - m2) < Z.abs r) as B.
  { destruct (Z.eq_dec l 0) as [->|Hl].
    - assert (r * (- q1) = m1) as F1 by lia. assert (r * (- q2) = m2) as F2 by lia.
      apply mul_lt_abs in F1, F2; try assumption. 
      assert (q1 = 0) by lia. assert (q2 = 0) by lia. subst. lia.
    - assert (0 < l \/ l < 0) as [L|L] by lia.
      + pose proof (same_sign_pos _ _ L S1). pose proof (same_sign_pos _ _ L S2). lia.
      + pose proof (same_sign_neg _ _ L S1). pose proof (same_sign_neg _ _ L S2). lia. }
  apply mul_lt_abs in E; [|exact B]. assert (q2 = q1) by lia. subst q2. lia.
Qed.

Lemma trunc_div_quot_rem l r : r <> 0 -> trunc_div l r (Z.quot l r) (Z.rem l r).
Proof.
  intros Hr; unfold trunc_div. pose proof (Z.quot_rem' l r).
  pose proof (Z.rem_bound_abs l r Hr). pose proof (Z.rem_sign_mul l r Hr). lia.
Qed.

Lemma quot_in_range l r : is_int64 l -> is_int64 r -> r <> 0 ->
  ~ is_int64 (Z.quot l r) <-> (l = int64_min /\ r = -1).
Proof.
  intros Hl Hr Hn; split.
  - intros H.
    assert (Z.abs (Z.quot l r) * Z.abs r <= Z.abs l) as A.
    { rewrite <- Z.quot_abs by lia. rewrite Z.mul_comm. apply Z.mul_quot_le; lia. }
    ranges. assert (2 ^ 63 <= Z.abs (Z.quot l r)) as Q by lia.
    assert (Z.abs r = 1) as R.
    { destruct (Z_le_gt_dec (Z.abs r) 1) as [|G]; [lia|].
      assert (2 ^ 63 * 2 <= Z.abs (Z.quot l r) * Z.abs r) by (apply Z.mul_le_mono_nonneg; lia). lia. }
    assert (r = 1 \/ r = -1) as [->| ->] by lia.
    + rewrite Z.quot_1_r in *. lia.
    + change (-1) with (- (1)) in *. rewrite Z.quot_opp_r, Z.quot_1_r in * by lia. lia.
  - intros [-> ->]. ranges. vm_compute. intuition congruence.
Qed.

Lemma op_div_ok l r q m : is_int64 l -> is_int64 r -> r <> 0 -> trunc_div l r q m ->
  checked q (op_div l r).
Proof.
  intros Hl Hr Hn H.
  destruct (trunc_div_unique _ _ _ _ _ _ Hn H (trunc_div_quot_rem l r Hn)) as [-> ->].
  pose proof (quot_in_range l r Hl Hr Hn) as Q.
  unfold checked, op_div.
  replace (r =? 0) with false by lia.
  destruct ((l =? int64_min) && (r =? -1)) eqn:E; cbn [orb].
  - right; split; [apply Q; lia|reflexivity].
  - left.
    assert (E1 : is_int64b (Z.quot l r) = true).
    { destruct (is_int64b (Z.quot l r)) eqn:F; [reflexivity|].
      assert (~ is_int64 (Z.quot l r)) as N by (intros G; apply is_int64b_spec in G; congruence).
      apply Q in N. lia. }
    rewrite E1. split; [apply is_int64b_spec; exact E1|reflexivity].
Qed.

Lemma op_mod_ok l r q m : is_int64 l -> is_int64 r -> r <> 0 -> trunc_div l r q m ->
  (is_int64 q /\ op_mod l r = Ok m) \/ (~ is_int64 q /\ op_mod l r = Throw).
Proof.
  intros Hl Hr Hn H.
  destruct (trunc_div_unique _ _ _ _ _ _ Hn H (trunc_div_quot_rem l r Hn)) as [-> ->].
  pose proof (quot_in_range l r Hl Hr Hn) as Q.
  unfold op_mod.
  replace (r =? 0) with false by lia.
  destruct ((l =? int64_min) && (r =? -1)) eqn:E; cbn [orb].
  - right; split; [apply Q; lia|reflexivity].
  - left.
    assert (E1 : is_int64b (Z.quot l r) = true).
    { destruct (is_int64b (Z.quot l r)) eqn:F; [reflexivity|].
      assert (~ is_int64 (Z.quot l r)) as N by (intros G; apply is_int64b_spec in G; congruence).
      apply Q in N. lia. }
    rewrite E1. split; [apply is_int64b_spec; exact E1|reflexivity].
Qed.

Lemma modular_to_i64 z : modular z (to_i64 z).
Proof.
  split; [apply to_i64_range|].
  unfold to_i64. exists ((z + 2 ^ 63) / 2 ^ 64).
  pose proof (Z.div_mod (z + 2 ^ 63) (2 ^ 64) ltac:(lia)). lia.
Qed.

Lemma op_addm_ok l r : exists x, op_addm l r = Ok x /\ modular (l + r) x.
Proof. eexists; split; [reflexivity|]; apply modular_to_i64. Qed.
Lemma op_subm_ok l r : exists x, op_subm l r = Ok x /\ modular (l - r) x.
Proof. eexists; split; [reflexivity|]; apply modular_to_i64. Qed.
Lemma op_mulm_ok l r : exists x, op_mulm l r = Ok x /\ modular (l * r) x.
Proof. eexists; split; [reflexivity|]; apply modular_to_i64. Qed.

Lemma lxor_m1 z : Z.lxor (-1) z = Z.lnot z.
Proof. rewrite Z.lxor_comm; apply Z.lxor_m1_r. Qed.

Lemma not_int64b z : is_int64b z = false -> z < int64_min \/ int64_max < z.
Proof. unfold is_int64b; lia. Qed.

Lemma op_adds_ok l r : is_int64 l -> is_int64 r -> exists x, op_adds l r = Ok x /\ saturated (l + r) x.
Proof.
  intros Hl Hr; unfold op_adds, addm.
  eexists; split; [reflexivity|]. unfold saturated.
  destruct (is_int64b (l + r)) eqn:E; cbn [negb].
  - apply is_int64b_spec in E. rewrite to_i64_id by exact E. ranges; lia.
  - apply not_int64b in E. rewrite shiftr63_sign by exact Hl.
    destruct (l <? 0) eqn:S; [rewrite lxor_m1|rewrite Z.lxor_0_l];
    unfold Z.lnot, Z.pred; ranges; lia.
Qed.

Lemma op_subs_ok l r : is_int64 l -> is_int64 r -> exists x, op_subs l r = Ok x /\ saturated (l - r) x.
Proof.
  intros Hl Hr; unfold op_subs, subm.
  eexists; split; [reflexivity|]. unfold saturated.
  destruct (is_int64b (l - r)) eqn:E; cbn [negb].
  - apply is_int64b_spec in E. rewrite to_i64_id by exact E. ranges; lia.
  - apply not_int64b in E. rewrite shiftr63_sign by exact Hl.
    destruct (l <? 0) eqn:S; [rewrite lxor_m1|rewrite Z.lxor_0_l];
    unfold Z.lnot, Z.pred; ranges; lia.
Qed.

Lemma op_muls_ok l r : is_int64 l -> is_int64 r -> exists x, op_muls l r = Ok x /\ saturated (l * r) x.
Proof.
  intros Hl Hr; unfold op_muls, mulm.
  eexists; split; [reflexivity|]. unfold saturated.
  destruct (is_int64b (l * r)) eqn:E; cbn [negb].
  - apply is_int64b_spec in E. rewrite to_i64_id by exact E. ranges; lia.
  - apply not_int64b in E. rewrite !shiftr63_sign by assumption.
    assert (HS : (l <? 0) = (r <? 0) -> int64_max < l * r) by (ranges; nia).
    assert (HD : (l <? 0) <> (r <? 0) -> l * r < int64_min) by (ranges; nia).
    destruct (l <? 0) eqn:S1, (r <? 0) eqn:S2;
    rewrite ?Z.lxor_nilpotent, ?lxor_m1, ?Z.lxor_0_l, ?Z.lxor_0_r, ?lxor_m1;
    unfold Z.lnot, Z.pred in *;
    try (specialize (HS eq_refl)); try (specialize (HD ltac:(congruence)));
    ranges; try lia.
Qed.

(* Shifts *)
Lemma to_i64_congr a b : (exists k, a = b + k * 2 ^ 64) -> to_i64 a = to_i64 b.
Proof.
  intros [k ->]; unfold to_i64.
  replace (b + k * 2 ^ 64 + 2 ^ 63) with (b + 2 ^ 63 + k * 2 ^ 64) by lia.
  rewrite Z.mod_add by lia; reflexivity.
Qed.

Lemma to_u64_congr z : exists k, to_u64 z = z + k * 2 ^ 64.
Proof.
  unfold to_u64. exists (- (z / 2 ^ 64)).
  pose proof (Z.div_mod z (2 ^ 64) ltac:(lia)). lia.
Qed.
Lemma to_i64_congr' z : exists k, to_i64 z = z + k * 2 ^ 64.
Proof.
  destruct (modular_to_i64 z) as [_ [k Hk]]. exists (- k). lia.
Qed.

Lemma ushl_ok v n : 0 <= n < 64 -> ushl v n = Ok (to_i64 (v * 2 ^ n)).
Proof.
  intros H; unfold ushl.
  replace ((0 <=? n) && (n <? 64)) with true by lia.
  f_equal. rewrite Z.shiftl_mul_pow2 by lia.
  apply to_i64_congr. destruct (to_u64_congr v) as [k Hk].
  exists (k * 2 ^ n). rewrite Hk. ring.
Qed.

Lemma op_sll_ok l r : r < 0 /\ op_sll l r = Throw \/
  0 <= r /\ exists x, op_sll l r = Ok x /\ modular (l * 2 ^ r) x.
Proof.
  unfold op_sll, sll_steps.
  destruct (r <? 0) eqn:E; [left; split; [lia|reflexivity]|right; split; [lia|]].
  rewrite ushl_ok by lia. cbn [bind].
  destruct (Z.min r 63 =? r) eqn:F.
  - rewrite ushl_ok by lia. eexists; split; [reflexivity|].
    replace (Z.min r 63) with r by lia. change (2 ^ 0) with 1. rewrite Z.mul_1_r.
    rewrite (to_i64_id (to_i64 _)) by apply to_i64_range. apply modular_to_i64.
  - rewrite ushl_ok by lia. eexists; split; [reflexivity|].
    replace (Z.min r 63) with 63 by lia.
    replace (to_i64 (to_i64 (l * 2 ^ 63) * 2 ^ 1)) with (to_i64 (l * 2 ^ r)); [apply modular_to_i64|].
    apply to_i64_congr.
    destruct (to_i64_congr' (l * 2 ^ 63)) as [k ->].
    exists (l * 2 ^ (r - 64) - l - 2 * k).
    replace (2 ^ r) with (2 ^ (r - 64) * 2 ^ 64) by (rewrite <- Z.pow_add_r by lia; f_equal; lia).
    ring.
Qed.

Lemma ushr_ok v n : 0 <= n < 64 -> ushr v n = Ok (to_i64 (to_u64 v / 2 ^ n)).
Proof.
  intros H; unfold ushr.
  replace ((0 <=? n) && (n <? 64)) with true by lia.
  rewrite Z.shiftr_div_pow2 by lia. reflexivity.
Qed.

Lemma to_u64_to_i64 z : to_u64 (to_i64 z) = to_u64 z.
Proof.
  destruct (to_i64_congr' z) as [k ->]. unfold to_u64. apply Z.mod_add; lia.
Qed.
Lemma to_u64_small z : is_uint64 z -> to_u64 z = z.
Proof. unfold is_uint64, to_u64; intros; apply Z.mod_small; lia. Qed.

Lemma op_srl_ok l r : r < 0 /\ op_srl l r = Throw \/
  0 <= r /\ op_srl l r = Ok (to_i64 (to_u64 l / 2 ^ r)).
Proof.
  unfold op_srl, srl_steps.
  destruct (r <? 0) eqn:E; [left; split; [lia|reflexivity]|right; split; [lia|]].
  rewrite ushr_ok by lia. cbn [bind].
  pose proof (to_u64_range l) as RU; unfold is_uint64 in RU.
  destruct (Z.min r 63 =? r) eqn:F.
  - rewrite ushr_ok by lia.
    replace (Z.min r 63) with r by lia. change (2 ^ 0) with 1. rewrite Z.div_1_r.
    rewrite to_u64_to_i64. f_equal. f_equal.
    apply to_u64_small. split; [apply Z.div_pos; lia|].
    apply Z.le_lt_trans with (to_u64 l); [|lia].
    apply Z.div_le_upper_bound; [lia|]. nia.
  - rewrite ushr_ok by lia.
    replace (Z.min r 63) with 63 by lia.
    rewrite to_u64_to_i64. rewrite to_u64_small.
    2: { split; [apply Z.div_pos; lia|]. apply Z.div_lt_upper_bound; lia. }
    rewrite Z.div_div by lia. f_equal. f_equal.
    transitivity 0; [apply Z.div_small; lia|].
    symmetry; apply Z.div_small. split; [lia|].
    apply Z.lt_le_trans with (2 ^ 64); [lia|]. apply Z.pow_le_mono_r; lia.
Qed.

Lemma op_sra_ok l r : is_int64 l -> r < 0 /\ op_sra l r = Throw \/
  0 <= r /\ op_sra l r = Ok (l / 2 ^ r).
Proof.
  intros Hl. unfold op_sra.
  destruct (r <? 0) eqn:E; [left; split; [lia|reflexivity]|right; split; [lia|]].
  f_equal. rewrite Z.shiftr_div_pow2 by lia.
  destruct (Z_le_gt_dec r 63).
  - replace (Z.min r 63) with r by lia; reflexivity.
  - replace (Z.min r 63) with 63 by lia.
    assert (P : 2 ^ 63 <= 2 ^ r) by (apply Z.pow_le_mono_r; lia).
    ranges. destruct (l <? 0) eqn:S.
    + transitivity (-1); [symmetry|].
      * apply Z.div_unique with (r := l + 2 ^ 63); lia.
      * apply Z.div_unique with (r := l + 2 ^ r); lia.
    + rewrite !Z.div_small by lia; reflexivity.
Qed.

Lemma op_sla_ok l r : is_int64 l ->
  r < 0 /\ op_sla l r = Throw \/ 0 <= r /\ checked (l * 2 ^ r) (op_sla l r).
Proof.
  intros Hl. unfold op_sla.
  destruct (r <? 0) eqn:E; [left; split; [lia|reflexivity]|right; split; [lia|]].
  destruct (Z.eq_dec l 0) as [->|Hn].
  { left. rewrite Z.mul_0_l. split; [ranges; lia|].
    cbn [Z.eqb negb andb]. rewrite ushl_ok by lia. rewrite Z.mul_0_l. reflexivity. }
  replace (l =? 0) with false by lia. cbn [negb andb].
  destruct (Z_le_gt_dec r 63) as [Hr|Hr].
  - replace (Z.min r 63) with r by lia. rewrite Z.eqb_refl. cbn [negb orb].
    rewrite shiftr63_sign by exact Hl.
    rewrite Z.shiftr_div_pow2 by lia.
    assert (P : 2 ^ 63 = 2 ^ (63 - r) * 2 ^ r) by (rewrite <- Z.pow_add_r by lia; f_equal; lia).
    assert (P1 : 0 < 2 ^ (63 - r)) by (apply Z.pow_pos_nonneg; lia).
    assert (P2 : 0 < 2 ^ r) by (apply Z.pow_pos_nonneg; lia).
    set (a := 2 ^ (63 - r)) in *. set (b := 2 ^ r) in *.
    assert (Hiff : is_int64 (l * b) <-> - a <= l < a).
    { unfold is_int64, int64_min, int64_max. rewrite P. split; intros; nia. }
    assert (Hdiv : l / a = (if l <? 0 then -1 else 0) <-> - a <= l < a).
    { destruct (l <? 0) eqn:S; split; intros H.
      - pose proof (Z.div_mod l a ltac:(lia)). pose proof (Z.mod_pos_bound l a P1). nia.
      - symmetry. apply Z.div_unique with (r := l + a); lia.
      - pose proof (Z.div_mod l a ltac:(lia)). pose proof (Z.mod_pos_bound l a P1). nia.
      - apply Z.div_small; lia. }
    destruct (l / a =? (if l <? 0 then -1 else 0)) eqn:G; cbn [negb].
    + left. assert (is_int64 (l * b)) as HI by (apply Hiff, Hdiv; lia).
      split; [exact HI|]. rewrite ushl_ok by lia. fold b. rewrite to_i64_id; auto.
    + right. split; [|reflexivity]. rewrite Hiff, <- Hdiv. lia.
  - replace (Z.min r 63) with 63 by lia. replace (63 =? r) with false by lia. cbn [negb orb].
    right. split; [|reflexivity].
    assert (P : 2 ^ 64 <= 2 ^ r) by (apply Z.pow_le_mono_r; lia).
    ranges. nia.
Qed.

(* Bit counting *)
Lemma to_u64_testbit v i : 0 <= i < 64 -> Z.testbit (to_u64 v) i = Z.testbit v i.
Proof. intros; unfold to_u64; apply Z.mod_pow2_bits_low; lia. Qed.

Lemma count_leading_spec u n :
  let k := count_leading u n in
  0 <= k <= Z.of_nat n
  /\ (forall i, Z.of_nat n - k <= i < Z.of_nat n -> Z.testbit u i = false)
  /\ (k < Z.of_nat n -> Z.testbit u (Z.of_nat n - 1 - k) = true).
Proof.
  induction n as [|n IH]; cbn [count_leading]; cbv zeta.
  - repeat split; lia.
  - cbv zeta in IH. destruct IH as (A & B & C).
    destruct (Z.testbit u (Z.of_nat n)) eqn:E.
    + split; [lia|]. split; [lia|]. intros _. replace (Z.of_nat (S n) - 1 - 0) with (Z.of_nat n) by lia. exact E.
    + split; [lia|]. split.
      * intros i Hi. destruct (Z.eq_dec i (Z.of_nat n)) as [->|]; [exact E|]. apply B; lia.
      * intros Hk. replace (Z.of_nat (S n) - 1 - (1 + count_leading u n)) with (Z.of_nat n - 1 - count_leading u n) by lia.
        apply C; lia.
Qed.

Lemma count_trailing_spec u n : forall f,
  let k := count_trailing u f n in
  0 <= k <= Z.of_nat n
  /\ (forall i, f <= i < f + k -> Z.testbit u i = false)
  /\ (k < Z.of_nat n -> Z.testbit u (f + k) = true).
Proof.
  induction n as [|n IH]; intros f; cbn [count_trailing]; cbv zeta.
  - repeat split; lia.
  - destruct (IH (f + 1)) as (A & B & C).
    destruct (Z.testbit u f) eqn:E.
    + split; [lia|]. split; [lia|]. intros _. rewrite Z.add_0_r; exact E.
    + split; [lia|]. split.
      * intros i Hi. destruct (Z.eq_dec i f) as [->|]; [exact E|]. apply B; lia.
      * intros Hk. replace (f + (1 + count_trailing u (f + 1) n)) with (f + 1 + count_trailing u (f + 1) n) by lia.
        apply C; lia.
Qed.

Lemma no_bits_zero u : is_uint64 u -> (forall i, 0 <= i < 64 -> Z.testbit u i = false) -> u = 0.
Proof.
  intros [H1 H2] H. apply Z.bits_inj'. intros i Hi. rewrite Z.bits_0.
  destruct (Z_lt_ge_dec i 64); [apply H; lia|].
  rewrite <- (Z.mod_small u (2 ^ 64)) by lia. apply Z.mod_pow2_bits_high; lia.
Qed.

Lemma land63 k : 0 <= k < 64 -> Z.land k 63 = k.
Proof.
  intros. replace 63 with (Z.ones 6) by reflexivity. rewrite Z.land_ones by lia.
  apply Z.mod_small. change (2 ^ 6) with 64; lia.
Qed.

Lemma op_lzcnt_ok v : exists k, op_lzcnt v = Ok k /\ leading_zeros v k.
Proof.
  eexists; split; [reflexivity|]. unfold lzcnt64, leading_zeros, bit.
  pose proof (to_u64_range v) as RU.
  destruct (to_u64 v =? 0) eqn:E.
  - split; [lia|]. split; [|lia]. intros i Hi. rewrite <- to_u64_testbit by lia.
    replace (to_u64 v) with 0 by lia. apply Z.bits_0.
  - destruct (count_leading_spec (to_u64 v) 64) as (A & B & C). cbv zeta in *.
    change (Z.of_nat 64) with 64 in *.
    set (k := count_leading (to_u64 v) 64) in *.
    assert (k < 64).
    { destruct (Z.eq_dec k 64) as [K|]; [|lia].
      assert (to_u64 v = 0); [|lia]. apply no_bits_zero; [exact RU|]. intros; apply B; lia. }
    rewrite land63 by lia. split; [lia|]. split.
    + intros i Hi. rewrite <- to_u64_testbit by lia. apply B; lia.
    + intros _. rewrite <- to_u64_testbit by lia. replace (63 - k) with (64 - 1 - k) by lia. apply C; lia.
Qed.

Lemma op_tzcnt_ok v : exists k, op_tzcnt v = Ok k /\ trailing_zeros v k.
Proof.
  eexists; split; [reflexivity|]. unfold tzcnt64, trailing_zeros, bit.
  pose proof (to_u64_range v) as RU.
  destruct (to_u64 v =? 0) eqn:E.
  - split; [lia|]. split; [|lia]. intros i Hi. rewrite <- to_u64_testbit by lia.
    replace (to_u64 v) with 0 by lia. apply Z.bits_0.
  - destruct (count_trailing_spec (to_u64 v) 64 0) as (A & B & C). cbv zeta in *.
    change (Z.of_nat 64) with 64 in *.
    set (k := count_trailing (to_u64 v) 0 64) in *.
    assert (k < 64).
    { destruct (Z.eq_dec k 64) as [K|]; [|lia].
      assert (to_u64 v = 0); [|lia]. apply no_bits_zero; [exact RU|]. intros; apply B; lia. }
    rewrite land63 by lia. split; [lia|]. split.
    + intros i Hi. rewrite <- to_u64_testbit by lia. apply B; lia.
    + intros _. rewrite <- to_u64_testbit by lia. rewrite <- (Z.add_0_l k). apply C; lia.
Qed.

Lemma count_ones_spec u n :
  count_ones u n = Z.of_nat (length (filter (fun i => Z.testbit u (Z.of_nat i)) (seq 0 n))).
Proof.
  induction n as [|n IH]; [reflexivity|].
  cbn [count_ones]. rewrite seq_S, filter_app, app_length, IH. cbn [filter plus].
  destruct (Z.testbit u (Z.of_nat n)); cbn [length]; lia.
Qed.

Lemma op_popcnt_ok v : exists k, op_popcnt v = Ok k /\ ones v k.
Proof.
  eexists; split; [reflexivity|]. unfold popcnt64, ones, bit. rewrite count_ones_spec.
  do 2 f_equal. apply filter_ext_in. intros i Hi. apply in_seq in Hi.
  apply to_u64_testbit; lia.
Qed.

(* Self-assignment *)
Lemma self_assign_ok o x : is_int64 x -> o <> Bsll -> apply_self_assign o x = apply_binop o x x.
Proof.
  intros Hx Ho. destruct o; try reflexivity; [congruence|].
  unfold apply_self_assign, apply_binop, op_srl, srl_steps.
  destruct (x <? 0) eqn:E; [reflexivity|].
  rewrite ushr_ok by lia. cbn [bind].
  assert (RU : to_u64 x = x) by (apply to_u64_small; unfold is_uint64; ranges; lia).
  rewrite RU.
  assert (Z0 : x / 2 ^ Z.min x 63 = 0).
  { apply Z.div_small. split; [lia|].
    destruct (Z_lt_ge_dec x 63).
    - rewrite Z.min_l by lia. apply Z.pow_gt_lin_r; lia.
    - rewrite Z.min_r by lia. ranges; lia. }
  rewrite Z0. change (to_i64 0) with 0.
  assert (U0 : forall b : bool, ushr 0 (if b then 0 else 1) = Ok 0) by (intros []; reflexivity).
  rewrite !U0. reflexivity.
Qed.

Lemma self_assign_refuted :
  exists o x, is_int64 x /\ apply_binop o x x = Ok 2 /\ apply_self_assign o x = Ok 4.
Proof. exists Bsll, 1. vm_compute. intuition congruence. Qed.
