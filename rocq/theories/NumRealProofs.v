(* Proofs about converting literals to doubles. *)
From Verif Require Import Base Text Monad Lists Bits NumTables NumGetModel NumSpec NumGetProofs NumCastProofs NumRoundProofs.

Local Open Scope Z_scope.

Lemma nearest_zero k N : 0 <= k -> 0 <= N -> 2 * N < 2 ^ k -> nearest_at k N 0.
Proof.
  intros Hk HN Hlt. apply (nearest_between k N 0 false); [exact Hk|unfold infinity; lia| | |reflexivity];
    change (dbl 0) with 0; change (dbl (0 + 1)) with 1; lia.
Qed.

Lemma dbl_infinity : dbl infinity = 2 ^ 2098.
Proof. vm_compute. reflexivity. Qed.

Lemma lzcnt_ok m : 0 < m < 2 ^ 64 ->
  0 <= lzcnt64 m <= 63 /\ to_u64 (Z.shiftl m (lzcnt64 m)) = m * 2 ^ lzcnt64 m /\
  2 ^ 63 <= m * 2 ^ lzcnt64 m < 2 ^ 64.
Proof.
  intros Hm. unfold lzcnt64.
  pose proof (Z.log2_spec m (proj1 Hm)) as [HL1 HL2].
  pose proof (Z.log2_nonneg m).
  assert (Z.log2 m < 64) by (apply Z.log2_lt_pow2; lia).
  pose proof (pow2_pos (63 - Z.log2 m) ltac:(lia)) as HP.
  assert (B : 2 ^ 63 <= m * 2 ^ (63 - Z.log2 m) < 2 ^ 64).
  { assert (H1 : 2 ^ 63 = 2 ^ Z.log2 m * 2 ^ (63 - Z.log2 m)) by (rewrite <- Z.pow_add_r by lia; f_equal; lia).
    assert (H2 : 2 ^ 64 = 2 ^ Z.succ (Z.log2 m) * 2 ^ (63 - Z.log2 m)) by (rewrite <- Z.pow_add_r by lia; f_equal; lia).
    rewrite H1, H2. split; [apply Z.mul_le_mono_nonneg_r; lia|apply Z.mul_lt_mono_pos_r; lia]. }
  split; [lia|]. split; [|exact B].
  rewrite Z.shiftl_mul_pow2 by lia. unfold to_u64. apply Z.mod_small. lia.
Qed.

Lemma just_above A K m W P r : A * K = m * (W * P) -> W * P <= K -> 0 < P -> 0 < r < W ->
  A * K < (m * W + r) * P < (A + 1) * K.
Proof.
  intros H1 H2 H3 H4.
  assert (0 < r * P < W * P) by (split; [apply Z.mul_pos_pos|apply Z.mul_lt_mono_pos_r]; lia).
  rewrite Z.mul_add_distr_r. replace (m * W * P) with (m * (W * P)) by ring. lia.
Qed.

Lemma cast_D_nearest n D E x : 0 <= D -> Stored n D E x -> n <> Decimal ->
  ~ just_above_half_least D E ->
  exists m, cast_D x = sign_bit (n_sign x) + m /\ nearest_even D E m.
Proof.
  intros HD HS Hn Hj.
  destruct (stored_split n D E x HD HS) as (w & r & Hw & HDe & Hr & Hmore & He & Hm & Hbig).
  assert (Hp : power n = 2) by (destruct n; [reflexivity|congruence|reflexivity]). rewrite Hp in *.
  assert (Hrx : radix n <= 16) by (destruct n; cbn; lia).
  pose proof HS as (Hc & Hb & _). unfold cast_D. rewrite Hc, Hb, Hp.
  set (m := n_mant x) in *. set (e := n_exp x) in *.
  assert (Hw0 : w = 0 -> r = 0) by (intros W; rewrite W, Z.pow_0_r in Hr; lia).
  destruct (m =? 0) eqn:M0.
  { exists 0. split; [unfold sd_zero; lia|].
    assert (w = 0) by (destruct (Z.eq_dec w 0); [assumption|destruct (Hbig ltac:(lia)); nia]).
    rewrite (Hw0 H) in HDe. assert (HD0 : D = 0) by nia. rewrite HD0.
    unfold nearest_even. set (k := Z.max 0 _). pose proof (pow2_pos k ltac:(lia)). apply nearest_zero; lia. }
  set (k := Z.max 0 (- (E + 1074)) + 64).
  set (T := 2 ^ (E + 1074 + k)).
  assert (HT : 0 < T) by (apply pow2_pos; lia).
  assert (HwT : 2 ^ w * T = 2 ^ (e + 1074 + k)) by (unfold T; rewrite <- Z.pow_add_r by lia; f_equal; lia).
  assert (HN : D * T = m * 2 ^ (e + 1074 + k) + r * T) by (rewrite HDe, <- HwT; ring).
  assert (HR : 0 <= r * T < 2 ^ (e + 1074 + k)) by (rewrite <- HwT; nia).
  destruct (e <? -10000) eqn:L1.
  { exists 0. split; [unfold sd_zero; lia|].
    apply (nearest_even_at D E 0 k); [lia..|]. fold T. apply nearest_zero; [lia|nia|].
    assert (HB : D * T < 2 ^ 64 * 2 ^ (e + 1074 + k)) by nia.
    rewrite <- Z.pow_add_r in HB by lia.
    assert (2 * 2 ^ (64 + (e + 1074 + k)) <= 2 ^ k).
    { rewrite <- Z.pow_succ_r by lia. apply Z.pow_le_mono_r; lia. }
    lia. }
  destruct (10000 <? e) eqn:L2.
  { exists infinity. split; [unfold sd_inf, infinity; lia|].
    apply (nearest_even_at D E infinity k); [lia..|]. fold T. apply nearest_infinity; [lia|].
    rewrite dbl_infinity, <- Z.pow_add_r by lia.
    assert (2 ^ (2098 + k) <= 2 ^ (e + 1074 + k)) by (apply Z.pow_le_mono_r; lia). nia. }
  change (2 =? 10) with false. cbv zeta iota.
  destruct (lzcnt_ok m ltac:(lia)) as (Hsh & -> & Hbits).
  set (sh := lzcnt64 m) in *. set (bits := m * 2 ^ sh) in *.
  assert (Hrm : n_more x = true -> 0 < r /\ 2 ^ 60 <= m /\ 0 < w).
  { intros Hm'. rewrite Hm' in Hmore. symmetry in Hmore. apply negb_true_iff in Hmore.
    assert (0 < w) by lia. destruct (Hbig H) as [HB _]. split; [lia|]. split; [|lia].
    assert ((m + 1) * radix n <= (m + 1) * 16) by (apply Z.mul_le_mono_nonneg_l; lia). lia. }
  assert (Hs3 : n_more x = true -> sh <= 3).
  { intros Hm'. destruct (Hrm Hm') as (_ & Hm60 & _).
    unfold sh, lzcnt64. assert (60 <= Z.log2 m) by (apply Z.log2_le_pow2; lia). lia. }
  set (U := 2 ^ (e - sh + 1074 + k)).
  assert (HUs : U * 2 ^ sh = 2 ^ (e + 1074 + k)) by (unfold U; rewrite <- Z.pow_add_r by lia; f_equal; lia).
  destruct (compose_ok (n_sign x) (n_more x) bits (e - sh + 1086) k (D * T) U (r * T) sh) as (mm & -> & HA).
  - exact Hbits.
  - lia.
  - lia.
  - unfold U. f_equal. lia.
  - lia.
  - rewrite HN. unfold bits. rewrite <- HUs. ring.
  - lia.
  - intros Hm'. rewrite Hm' in Hmore. symmetry in Hmore. apply negb_false_iff in Hmore. nia.
  - intros Hm'. destruct (Hrm Hm'). rewrite HUs. nia.
  - intros Hm'. specialize (Hs3 Hm'). split; [lia|]. exists m. reflexivity.
  - intros Hm' Hx HB. apply Hj. destruct (Hrm Hm') as (Hr0 & _ & Hw1). specialize (Hs3 Hm').
    unfold just_above_half_least. set (k1 := Z.max 0 (- (E + 1135))).
    assert (HE1 : 2 ^ 60 * 2 ^ k1 = m * (2 ^ w * 2 ^ (E + 1135 + k1))).
    { assert (HX : m = 2 ^ (63 - sh)).
      { apply (Z.mul_cancel_r _ _ (2 ^ sh)); [pose proof (pow2_pos sh ltac:(lia)); lia|].
        rewrite <- Z.pow_add_r by lia. fold bits. rewrite HB. f_equal. lia. }
      rewrite HX, <- !Z.pow_add_r by lia. f_equal. lia. }
    assert (HE2 : 2 ^ w * 2 ^ (E + 1135 + k1) <= 2 ^ k1).
    { rewrite <- Z.pow_add_r by lia. apply Z.pow_le_mono_r; lia. }
    pose proof (pow2_pos (E + 1135 + k1) ltac:(lia)) as HP1.
    rewrite HDe, (Z.pow_add_r 2 60) by lia. cbv zeta.
    apply (just_above (2 ^ 60) (2 ^ k1) m (2 ^ w)); [exact HE1|exact HE2|exact HP1|split; [exact Hr0|apply Hr]].
  - exists mm. split; [reflexivity|]. apply (nearest_even_at D E mm k); [lia..|]. exact HA.
Qed.
