(* Proofs about converting what was read to an integer. *)
From Verif Require Import Base Text Monad Lists NumTables NumGetModel NumSpec NumGetProofs.

Local Open Scope Z_scope.

Lemma power_pos n : 2 <= power n.
Proof. destruct n; cbn; lia. Qed.
Lemma radix_power n j : 0 <= j -> radix n ^ j = power n ^ (per_digit n * j).
Proof.
  intros H; destruct n; cbn [radix power per_digit]; rewrite ?Z.mul_1_l; try reflexivity.
  change 16 with (2 ^ 4). rewrite Z.pow_mul_r; lia.
Qed.
Lemma per_digit_pos n : 1 <= per_digit n <= 4.
Proof. destruct n; cbn; lia. Qed.

Lemma raise_ok p n : 2 <= p -> forall m, 0 < m < 2 ^ 64 ->
  (m * p ^ Z.of_nat n < 2 ^ 64 /\ raise_mant p n m = (m * p ^ Z.of_nat n, false)) \/
  (2 ^ 64 <= m * p ^ Z.of_nat n /\ snd (raise_mant p n m) = true).
Proof.
  intros Hp; induction n as [|n IH]; intros m Hm.
  - left. change (Z.of_nat 0) with 0. rewrite Z.pow_0_r, Z.mul_1_r. cbn. split; [lia|reflexivity].
  - cbn [raise_mant]. unfold mulm_u. rewrite Nat2Z.inj_succ, Z.pow_succ_r by lia.
    assert (HP : 1 <= p ^ Z.of_nat n) by (pose proof (Z.pow_pos_nonneg p (Z.of_nat n)); lia).
    destruct (m * p <? 2 ^ 64) eqn:E; cbn [negb].
    + rewrite (Z.mul_assoc m p). unfold to_u64. rewrite Z.mod_small by nia. apply IH. nia.
    + right. split; [|reflexivity]. rewrite Z.mul_assoc. nia.
Qed.

Lemma lower_ok p n : 2 <= p -> forall m ix, 0 < m ->
  fst (lower_mant p n m ix) = m / p ^ Z.of_nat n /\
  (m / p ^ Z.of_nat n <> 0 ->
   snd (lower_mant p n m ix) = (ix || negb (m mod p ^ Z.of_nat n =? 0))).
Proof.
  intros Hp; induction n as [|n IH]; intros m ix Hm.
  - change (Z.of_nat 0) with 0. rewrite Z.pow_0_r, Z.div_1_r, Z.mod_1_r. cbn. rewrite orb_false_r. auto.
  - cbn [lower_mant]. rewrite Nat2Z.inj_succ, Z.pow_succ_r by lia.
    assert (HP : 1 <= p ^ Z.of_nat n) by (pose proof (Z.pow_pos_nonneg p (Z.of_nat n)); lia).
    rewrite <- Z.div_div by lia.
    destruct (m / p =? 0) eqn:E.
    + replace (m / p) with 0 by lia. rewrite Z.div_0_l by lia. cbn [fst]. split; [reflexivity|lia].
    + assert (H0 : 0 <= m / p) by (apply Z.div_pos; lia).
      destruct (IH (m / p) (ix || negb (m mod p =? 0)) ltac:(lia)) as [H1 H2].
      split; [exact H1|]. intros Hnz. rewrite (H2 Hnz), <- orb_assoc. f_equal.
      rewrite Z.rem_mul_r by lia.
      pose proof (Z.mod_pos_bound m p ltac:(lia)).
      pose proof (Z.mod_pos_bound (m / p) (p ^ Z.of_nat n) ltac:(lia)).
      destruct (m mod p =? 0) eqn:A; destruct ((m / p) mod p ^ Z.of_nat n =? 0) eqn:B; cbn [negb orb];
        symmetry; apply negb_true_iff || apply negb_false_iff; nia.
Qed.

Lemma lxor_ones y n : 0 <= n -> 0 <= y < 2 ^ n -> Z.lxor y (2 ^ n - 1) = 2 ^ n - 1 - y.
Proof.
  intros Hn Hy.
  assert (H : y + Z.lxor y (2 ^ n - 1) = 2 ^ n - 1); [|lia].
  replace (2 ^ n - 1) with (Z.ones n) by (rewrite Z.ones_equiv; lia).
  rewrite Z.add_nocarry_lxor.
  - rewrite <- Z.lxor_assoc, Z.lxor_nilpotent, Z.lxor_0_l. reflexivity.
  - apply Z.bits_inj'; intros i Hi. rewrite Z.land_spec, Z.lxor_spec, Z.bits_0.
    destruct (Z_lt_ge_dec i n).
    + rewrite Z.ones_spec_low by lia. destruct (Z.testbit y i); reflexivity.
    + assert (Ht : Z.testbit y i = false); [|rewrite Ht; reflexivity].
      destruct (Z.eq_dec y 0) as [->|]; [apply Z.bits_0|].
      apply Z.bits_above_log2; [lia|]. apply Z.log2_lt_pow2; [lia|].
      assert (2 ^ n <= 2 ^ i) by (apply Z.pow_le_mono_r; lia). lia.
Qed.

Lemma last_value (sign : bool) bits :
  0 < bits <= (if sign then 2 ^ 63 else int64_max) ->
  to_i64 (Z.lxor (Z.lxor (to_u64 (bits - (if sign then 2 ^ 63 else int64_max) + int64_max)) int64_max)
            (if sign then 2 ^ 63 else int64_max)) = (if sign then - bits else bits).
Proof.
  intros H. rewrite Z.lxor_assoc. destruct sign.
  - replace (Z.lxor int64_max (2 ^ 63)) with (2 ^ 64 - 1) by reflexivity.
    unfold int64_max in *. replace (bits - 2 ^ 63 + (2 ^ 63 - 1)) with (bits - 1) by lia.
    unfold to_u64. rewrite Z.mod_small by lia. rewrite lxor_ones by lia.
    unfold to_i64. replace (2 ^ 64 - 1 - (bits - 1) + 2 ^ 63) with (2 ^ 63 - bits + 1 * 2 ^ 64) by lia.
    rewrite Z.mod_add, Z.mod_small by lia. lia.
  - rewrite Z.lxor_nilpotent, Z.lxor_0_r. unfold int64_max in *.
    replace (bits - (2 ^ 63 - 1) + (2 ^ 63 - 1)) with bits by lia.
    unfold to_u64. rewrite Z.mod_small by lia. apply to_i64_id. unfold is_int64, int64_min, int64_max; lia.
Qed.

Lemma is_integer_at p D E a s : 2 <= p -> 0 <= s -> 0 <= E + s ->
  (is_integer p D E a <-> D * p ^ (E + s) = a * p ^ s).
Proof.
  intros Hp Hs HE. unfold is_integer.
  replace (E + s) with (Z.max E 0 + (s - Z.max (- E) 0)) by lia.
  replace (p ^ s) with (p ^ (Z.max (- E) 0 + (s - Z.max (- E) 0))) by (f_equal; lia).
  rewrite !Z.pow_add_r by lia.
  assert (0 < p ^ (s - Z.max (- E) 0)) by (apply Z.pow_pos_nonneg; lia).
  rewrite !Z.mul_assoc. split; intros HH; [rewrite HH; reflexivity|].
  apply Z.mul_cancel_r in HH; [exact HH|lia].
Qed.

Section CAST.
Context (n : notation) (D E : Z) (x : num).
Context (HD : 0 <= D) (HS : Stored n D E x).
Local Notation p := (power n).
Local Notation m := (n_mant x).
Local Notation e := (n_exp x).

Lemma stored_split : exists w r,
  0 <= w /\ D = m * p ^ w + r /\ 0 <= r < p ^ w /\ n_more x = negb (r =? 0) /\
  e = E + w /\ 0 <= m < 2 ^ 64 /\ (0 < w -> 2 ^ 64 < (m + 1) * radix n /\ 2 ^ 64 <= D).
Proof.
  destruct HS as (_ & _ & j & Hj & Hm & Hmore & He & Hr & Hb).
  exists (per_digit n * j), (D mod radix n ^ j).
  pose proof (per_digit_pos n) as HP. rewrite <- radix_power by lia.
  assert (HB : 0 < radix n ^ j) by (apply Z.pow_pos_nonneg; destruct n; cbn; lia).
  pose proof (Z.div_mod D (radix n ^ j) ltac:(lia)). pose proof (Z.mod_pos_bound D (radix n ^ j) HB).
  rewrite Hm at 1. split; [nia|]. split; [lia|]. split; [lia|]. split; [exact Hmore|]. split; [exact He|].
  split; [exact Hr|]. intros Hw; apply Hb; nia.
Qed.

Lemma pw_pos k : 0 <= k -> 1 <= p ^ k.
Proof. intros; pose proof (power_pos n); pose proof (Z.pow_pos_nonneg p k); lia. Qed.
Lemma pw_big k : 100 <= k -> 2 ^ 100 <= p ^ k.
Proof.
  intros. transitivity (2 ^ k); [apply Z.pow_le_mono_r; lia|].
  apply Z.pow_le_mono_l; pose proof (power_pos n); lia.
Qed.

(* The integer stored, if it is one. *)
Lemma stored_integer_exact a : n_more x = false ->
  (is_integer p D E a <-> is_integer p m e a).
Proof.
  intros Hmore. destruct stored_split as (w & r & Hw & HDe & Hr & Hm & He & _).
  assert (r = 0) by (destruct (r =? 0) eqn:Z0; [lia|cbn [negb] in Hm; congruence]). subst r.
  pose proof (power_pos n) as Hp.
  set (t := Z.max 0 (- e)).
  rewrite (is_integer_at p D E a (w + t)) by (auto; lia).
  rewrite (is_integer_at p m e a t) by (auto; lia).
  rewrite HDe, Z.add_0_r. replace (E + (w + t)) with (e + t) by lia.
  rewrite (Z.pow_add_r p w t) by lia. pose proof (pw_pos w Hw).
  split; intros HH; [|nia].
  apply (Z.mul_cancel_r _ _ (p ^ w)); nia.
Qed.

Lemma pos_integer_e a : 0 < m ->
  is_integer p m e a ->
  (0 <= e /\ a = m * p ^ e) \/ (e < 0 /\ m = a * p ^ (- e)).
Proof.
  intros Hm HI. unfold is_integer in HI. destruct (Z_le_gt_dec 0 e); [left|right]; (split; [lia|]).
  - replace (Z.max e 0) with e in HI by lia. replace (Z.max (- e) 0) with 0 in HI by lia.
    rewrite Z.pow_0_r in HI. lia.
  - replace (Z.max e 0) with 0 in HI by lia. replace (Z.max (- e) 0) with (- e) in HI by lia.
    rewrite Z.pow_0_r in HI. lia.
Qed.

Let umax := if n_sign x then 2 ^ 63 else int64_max.

Lemma cast_I_sound : snd (cast_I x) = true ->
  exists a, is_integer p D E a /\ 0 <= a <= umax /\
    fst (cast_I x) = (if n_sign x then - a else a).
Proof.
  pose proof HS as (Hc & Hb & _). unfold cast_I. rewrite Hc, Hb.
  destruct stored_split as (w & r & Hw & HDe & Hr & Hmore & He & Hmr & _).
  pose proof (power_pos n) as Hp. fold umax.
  assert (HU : 0 < umax < 2 ^ 64) by (unfold umax, int64_max; destruct (n_sign x); lia).
  assert (HL : forall bits ix, 0 < bits ->
    snd (if umax <? bits then (to_i64 umax, false)
         else (to_i64 (Z.lxor (Z.lxor (to_u64 (bits - umax + int64_max)) int64_max) umax), negb ix)) = true ->
    ix = false /\ bits <= umax /\
    fst (if umax <? bits then (to_i64 umax, false)
         else (to_i64 (Z.lxor (Z.lxor (to_u64 (bits - umax + int64_max)) int64_max) umax), negb ix))
    = (if n_sign x then - bits else bits)).
  { intros bits ix Hb0. destruct (umax <? bits) eqn:U; cbn [fst snd]; [discriminate|].
    intros Hix. split; [destruct ix; [discriminate|reflexivity]|]. split; [lia|].
    unfold umax. apply last_value. fold umax. lia. }
  destruct (m =? 0) eqn:M0.
  { cbn [fst snd]. intros HM. exists 0.
    assert (Hmm : n_more x = false) by (destruct (n_more x); [discriminate|reflexivity]).
    split; [|split; [lia|destruct (n_sign x); reflexivity]].
    apply stored_integer_exact; [exact Hmm|]. unfold is_integer. replace m with 0 by lia. lia. }
  destruct (e <? -10000) eqn:L1; [discriminate|].
  destruct (10000 <? e) eqn:L2; [discriminate|].
  assert (Hm0 : 0 < m) by lia.
  destruct (0 <? e) eqn:L3.
  - destruct (raise_ok p (Z.to_nat e) Hp m ltac:(lia)) as [[HB ->]|[HB HO]].
    + intros HH. apply HL in HH; [|pose proof (pw_pos e); rewrite Z2Nat.id by lia; nia].
      destruct HH as (Hmf & Hle & ->). rewrite Z2Nat.id in * by lia.
      exists (m * p ^ e). split; [|split; [pose proof (pw_pos e); nia|reflexivity]].
      apply stored_integer_exact; [exact Hmf|]. unfold is_integer.
      replace (Z.max e 0) with e by lia. replace (Z.max (- e) 0) with 0 by lia.
      rewrite Z.pow_0_r; lia.
    + destruct (raise_mant p (Z.to_nat e) m) as [b o]; cbn [snd] in HO. rewrite HO. discriminate.
  - destruct (e <? 0) eqn:L4.
    + destruct (lower_ok p (Z.to_nat (- e)) Hp m (n_more x) ltac:(lia)) as [HB HX].
      destruct (lower_mant p (Z.to_nat (- e)) m (n_more x)) as [b ix]; cbn [fst snd] in HB, HX.
      rewrite Z2Nat.id in HB, HX by lia. destruct (b =? 0) eqn:B0; [discriminate|].
      pose proof (pw_pos (- e) ltac:(lia)) as HPW.
      assert (0 <= b) by (subst b; apply Z.div_pos; lia).
      intros HH. apply HL in HH; [|lia]. destruct HH as (Hix & Hle & ->).
      specialize (HX ltac:(lia)). rewrite Hix in HX. symmetry in HX. apply orb_false_iff in HX as [Hmf Hmod].
      exists b. split; [|split; [lia|reflexivity]].
      apply stored_integer_exact; [exact Hmf|]. unfold is_integer.
      replace (Z.max e 0) with 0 by lia. replace (Z.max (- e) 0) with (- e) by lia.
      rewrite Z.pow_0_r. pose proof (Z.div_mod m (p ^ (- e)) ltac:(lia)). rewrite <- HB in *.
      apply negb_false_iff in Hmod. nia.
    + intros HH. apply HL in HH; [|lia]. destruct HH as (Hmf & Hle & ->).
      exists m. split; [|split; [lia|reflexivity]].
      apply stored_integer_exact; [exact Hmf|]. unfold is_integer.
      replace (Z.max e 0) with 0 by lia. replace (Z.max (- e) 0) with 0 by lia. lia.
Qed.

Lemma cast_I_complete a :
  (n <> Hexadecimal \/ D < 2 ^ 64) ->
  is_integer p D E a -> 0 <= a <= umax ->
  cast_I x = ((if n_sign x then - a else a), true).
Proof.
  intros Hhex HI Ha. pose proof HS as (Hc & Hb & _). unfold cast_I. rewrite Hc, Hb.
  destruct stored_split as (w & r & Hw & HDe & Hr & Hmore & He & Hmr & Hbig).
  pose proof (power_pos n) as Hp. fold umax.
  assert (HU : 0 < umax <= 2 ^ 63) by (unfold umax, int64_max; destruct (n_sign x); lia).
  assert (Hmf : n_more x = false).
  { rewrite Hmore. destruct (r =? 0) eqn:R0; [reflexivity|exfalso].
    assert (0 < w) by (destruct (Z.eq_dec w 0) as [W|]; [rewrite W, Z.pow_0_r in Hr; lia|lia]).
    destruct (Hbig ltac:(lia)) as [Hbig1 HD64].
    set (t := Z.max 0 (- e)) in *.
    apply (is_integer_at p D E a (w + t)) in HI; [|lia..].
    rewrite HDe in HI. replace (E + (w + t)) with (e + t) in HI by lia.
    rewrite (Z.pow_add_r p w t) in HI by lia.
    destruct (Z_le_gt_dec e 0) as [Hle|Hgt].
    - replace (e + t) with 0 in HI by lia. rewrite Z.pow_0_r, Z.mul_1_r in HI.
      assert (HX : (m * p ^ w + r) mod p ^ w = (a * (p ^ w * p ^ t)) mod p ^ w) by (rewrite HI; reflexivity).
      rewrite Z.add_comm, Z.mod_add, Z.mod_small in HX by lia.
      replace (a * (p ^ w * p ^ t)) with (a * p ^ t * p ^ w) in HX by ring.
      rewrite Z.mod_mul in HX by lia. lia.
    - replace t with 0 in HI by lia. rewrite Z.pow_0_r, Z.mul_1_r, Z.add_0_r in HI.
      assert (HPE : p <= p ^ e).
      { replace e with (1 + (e - 1)) by lia. rewrite Z.pow_add_r, Z.pow_1_r by lia.
        pose proof (pw_pos (e - 1) ltac:(lia)). nia. }
      assert (Hlt : m * p < a).
      { assert (m * p ^ w * p < a * p ^ w) by nia. pose proof (pw_pos w Hw). nia. }
      destruct Hhex as [Hn|HD64'].
      + assert (radix n = p) by (destruct n; [reflexivity|reflexivity|congruence]).
        assert (p <= 10) by (destruct n; cbn; lia). nia.
      + lia. }
  apply stored_integer_exact in HI; [|exact Hmf].
  assert (HL : forall bits ix, 0 < bits <= umax -> ix = false ->
    (if umax <? bits then (to_i64 umax, false)
     else (to_i64 (Z.lxor (Z.lxor (to_u64 (bits - umax + int64_max)) int64_max) umax), negb ix)) =
    ((if n_sign x then - bits else bits), true)).
  { intros bits ix Hb0 ->. replace (umax <? bits) with false by lia. f_equal.
    unfold umax. apply last_value. fold umax. lia. }
  destruct (m =? 0) eqn:M0.
  { rewrite Hmf. cbn [negb]. f_equal.
    unfold is_integer in HI. replace m with 0 in HI by lia.
    pose proof (pw_pos (Z.max (- e) 0) ltac:(lia)).
    assert (a = 0) by nia. destruct (n_sign x); lia. }
  assert (Hm0 : 0 < m) by lia.
  destruct (pos_integer_e a Hm0 HI) as [[Hge Hae]|[Hlt Hme]].
  - replace (e <? -10000) with false by lia.
    destruct (10000 <? e) eqn:L2.
    { exfalso. pose proof (pw_big e ltac:(lia)).
      assert (2 ^ 63 < 2 ^ 100) by (apply Z.pow_lt_mono_r; lia). nia. }
    destruct (0 <? e) eqn:L3.
    + destruct (raise_ok p (Z.to_nat e) Hp m ltac:(lia)) as [[HB HR]|[HB HO]]; rewrite Z2Nat.id in * by lia.
      * rewrite HR. rewrite HL; [rewrite Hae; reflexivity| |exact Hmf].
        rewrite <- Hae. pose proof (pw_pos e Hge). nia.
      * assert (2 ^ 63 < 2 ^ 64) by reflexivity. lia.
    + replace e with 0 in * by lia. rewrite Z.pow_0_r, Z.mul_1_r in Hae. subst a.
      change (0 <? 0) with false. cbn iota. apply HL; [lia|exact Hmf].
  - destruct (e <? -10000) eqn:L1.
    { exfalso. pose proof (pw_big (- e) ltac:(lia)) as HBG.
      assert (H100 : 2 ^ 64 < 2 ^ 100) by (apply Z.pow_lt_mono_r; lia).
      assert (Ha1 : 1 <= a) by (destruct (Z.eq_dec a 0) as [Z0|]; [rewrite Z0 in Hme; lia|lia]).
      pose proof (Z.mul_le_mono_nonneg_r 1 a (p ^ (- e)) ltac:(lia) Ha1). lia. }
    replace (10000 <? e) with false by lia.
    replace (0 <? e) with false by lia. replace (e <? 0) with true by lia.
    pose proof (pw_pos (- e) ltac:(lia)) as HPW.
    destruct (lower_ok p (Z.to_nat (- e)) Hp m (n_more x) ltac:(lia)) as [HB HX].
    destruct (lower_mant p (Z.to_nat (- e)) m (n_more x)) as [b ix]; cbn [fst snd] in HB, HX.
    rewrite Z2Nat.id in HB, HX by lia.
    replace (m / p ^ (- e)) with a in HB, HX by (rewrite Hme at 1; rewrite Z.div_mul by lia; reflexivity). subst b.
    assert (a <> 0) by (intros ->; lia). replace (a =? 0) with false by lia.
    apply HL; [lia|]. rewrite HX by lia.
    rewrite Hmf. cbn [orb]. apply negb_false_iff. rewrite Hme. rewrite Z.mod_mul by lia. reflexivity.
Qed.

End CAST.
