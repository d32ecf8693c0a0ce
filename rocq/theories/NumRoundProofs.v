(* Proofs about rounding to a double. *)
From Verif Require Import Base Text Monad Lists Bits NumTables NumGetModel NumSpec NumGetProofs NumCastProofs.

Local Open Scope Z_scope.

Lemma dbl_normal e q : 1 <= e -> 2 ^ 52 <= q < 2 ^ 53 ->
  dbl ((e - 1) * 2 ^ 52 + q) = q * 2 ^ (e - 1).
Proof.
  intros He Hq. unfold dbl.
  replace ((e - 1) * 2 ^ 52 + q <? 2 ^ 52) with false by lia.
  replace ((e - 1) * 2 ^ 52 + q) with ((q - 2 ^ 52) + e * 2 ^ 52) by lia.
  rewrite Z.mod_add, Z.div_add, Z.mod_small, Z.div_small by lia.
  replace (2 ^ 52 + (q - 2 ^ 52)) with q by lia. rewrite Z.add_0_l. reflexivity.
Qed.
Lemma dbl_normal_top e q : 1 <= e -> 2 ^ 52 <= q <= 2 ^ 53 ->
  dbl ((e - 1) * 2 ^ 52 + q) = q * 2 ^ (e - 1).
Proof.
  intros He Hq. destruct (Z.eq_dec q (2 ^ 53)) as [->|]; [|apply dbl_normal; lia].
  replace ((e - 1) * 2 ^ 52 + 2 ^ 53) with ((e + 1 - 1) * 2 ^ 52 + 2 ^ 52) by lia.
  rewrite dbl_normal by lia. replace (e + 1 - 1) with (e - 1 + 1) by lia.
  rewrite Z.pow_add_r by lia. change (2 ^ 53) with (2 ^ 52 * 2 ^ 1). lia.
Qed.
Lemma dbl_sub q : 0 <= q <= 2 ^ 52 -> dbl q = q.
Proof.
  intros Hq. destruct (Z.eq_dec q (2 ^ 52)) as [->|]; [reflexivity|].
  unfold dbl. replace (q <? 2 ^ 52) with true by lia. reflexivity.
Qed.

Lemma dbl_succ t : 0 <= t -> dbl t < dbl (t + 1).
Proof.
  intros Ht. destruct (Z_lt_ge_dec t (2 ^ 52)).
  - rewrite !dbl_sub by lia; lia.
  - set (e := t / 2 ^ 52). set (q := 2 ^ 52 + t mod 2 ^ 52).
    pose proof (Z.mod_pos_bound t (2 ^ 52) ltac:(lia)).
    pose proof (Z.div_mod t (2 ^ 52) ltac:(lia)) as HE.
    assert (1 <= e) by (apply Z.div_le_lower_bound; lia).
    replace t with ((e - 1) * 2 ^ 52 + q) by (unfold e, q in *; lia).
    rewrite <- Z.add_assoc.
    rewrite (dbl_normal_top e q), (dbl_normal_top e (q + 1)) by (unfold q; lia).
    assert (0 < 2 ^ (e - 1)) by (apply Z.pow_pos_nonneg; lia). nia.
Qed.
Lemma dbl_mono a b : 0 <= a -> a <= b -> dbl a <= dbl b.
Proof.
  intros Ha Hab. replace b with (a + Z.of_nat (Z.to_nat (b - a))) by lia.
  induction (Z.to_nat (b - a)) as [|n IH]; [rewrite Z.add_0_r; lia|].
  rewrite Nat2Z.inj_succ. replace (a + Z.succ (Z.of_nat n)) with (a + Z.of_nat n + 1) by lia.
  pose proof (dbl_succ (a + Z.of_nat n) ltac:(lia)). lia.
Qed.
Lemma dbl_lt a b : 0 <= a -> a < b -> dbl a < dbl b.
Proof.
  intros Ha Hab. pose proof (dbl_succ a Ha). pose proof (dbl_mono (a + 1) b ltac:(lia) ltac:(lia)). lia.
Qed.

Lemma pow2_pos k : 0 <= k -> 0 < 2 ^ k.
Proof. intros; apply Z.pow_pos_nonneg; lia. Qed.

(* The nearest of two neighbours. *)
Lemma nearest_between k N t (up : bool) :
  0 <= k -> 0 <= t < infinity ->
  dbl t * 2 ^ k <= N < dbl (t + 1) * 2 ^ k ->
  (if up then dbl t * 2 ^ k + dbl (t + 1) * 2 ^ k <= 2 * N
   else 2 * N <= dbl t * 2 ^ k + dbl (t + 1) * 2 ^ k) ->
  (2 * N = dbl t * 2 ^ k + dbl (t + 1) * 2 ^ k -> up = negb (Z.even t)) ->
  nearest_at k N (if up then t + 1 else t).
Proof.
  intros Hk Ht HN Hup Htie. pose proof (pow2_pos k Hk) as HP.
  split; [destruct up; lia|]. intros c Hc Hne e. subst e. cbv beta.
  assert (Hcases : c <= t - 1 \/ c = t \/ c = t + 1 \/ t + 2 <= c) by lia.
  destruct Hcases as [Hc1|[Hc1|[Hc1|Hc1]]].
  - assert (dbl c < dbl t) by (apply dbl_lt; lia).
    assert (dbl c * 2 ^ k < dbl t * 2 ^ k) by nia. destruct up; lia.
  - subst c. destruct up; [|congruence].
    destruct (Z.eq_dec (2 * N) (dbl t * 2 ^ k + dbl (t + 1) * 2 ^ k)) as [E|]; [|lia].
    right. split; [lia|]. specialize (Htie E).
    rewrite Z.even_add. symmetry in Htie. apply negb_true_iff in Htie. rewrite Htie. reflexivity.
  - subst c. destruct up; [congruence|].
    destruct (Z.eq_dec (2 * N) (dbl t * 2 ^ k + dbl (t + 1) * 2 ^ k)) as [E|]; [|lia].
    right. split; [lia|]. specialize (Htie E).
    symmetry in Htie. apply negb_false_iff in Htie. exact Htie.
  - assert (dbl (t + 1) < dbl c) by (apply dbl_lt; lia).
    assert (dbl (t + 1) * 2 ^ k < dbl c * 2 ^ k) by nia. destruct up; lia.
Qed.
Lemma nearest_infinity k N : 0 <= k -> dbl infinity * 2 ^ k <= N -> nearest_at k N infinity.
Proof.
  intros Hk HN. pose proof (pow2_pos k Hk) as HP.
  split; [unfold infinity; lia|]. intros c Hc Hne e; subst e; cbv beta.
  assert (dbl c < dbl infinity) by (apply dbl_lt; lia).
  assert (dbl c * 2 ^ k < dbl infinity * 2 ^ k) by nia. lia.
Qed.

Lemma nearest_scale k d N m : 0 <= k -> 0 <= d ->
  nearest_at (k + d) (N * 2 ^ d) m <-> nearest_at k N m.
Proof.
  intros Hk Hd. unfold nearest_at. pose proof (pow2_pos d Hd) as HP.
  assert (HE : forall x, Z.abs (N * 2 ^ d - dbl x * 2 ^ (k + d)) = Z.abs (N - dbl x * 2 ^ k) * 2 ^ d).
  { intros x. rewrite Z.pow_add_r by lia.
    replace (N * 2 ^ d - dbl x * (2 ^ k * 2 ^ d)) with ((N - dbl x * 2 ^ k) * 2 ^ d) by ring.
    rewrite Z.abs_mul. rewrite (Z.abs_eq (2 ^ d)) by lia. reflexivity. }
  split; intros [Hm HH]; (split; [exact Hm|]); intros c Hc Hne; specialize (HH c Hc Hne); cbv beta zeta in *.
  - rewrite !HE in HH. destruct HH as [HH|[HH HV]]; [left; nia|right; split; [nia|exact HV]].
  - rewrite !HE. destruct HH as [HH|[HH HV]]; [left; nia|right; split; [nia|exact HV]].
Qed.

Lemma nearest_even_at D E m k : 0 <= k -> 0 <= E + 1074 + k ->
  nearest_even D E m <-> nearest_at k (D * 2 ^ (E + 1074 + k)) m.
Proof.
  intros Hk HE. unfold nearest_even. set (k0 := Z.max 0 (- (E + 1074))).
  replace (D * 2 ^ (E + 1074 + k)) with (D * 2 ^ (E + 1074 + k0) * 2 ^ (k - k0)).
  - replace k with (k0 + (k - k0)) at 1 by lia. symmetry. apply nearest_scale; lia.
  - rewrite <- Z.mul_assoc, <- Z.pow_add_r by lia. do 2 f_equal. lia.
Qed.

(* The two nearest doubles coincide. *)
Lemma nearest_unique k N a b : nearest_at k N a -> nearest_at k N b ->
  (Z.even a = true -> Z.even b = true -> a = b) -> a = b.
Proof.
  intros [Ha HA] [Hb HB] HE. destruct (Z.eq_dec a b) as [|Hne]; [assumption|].
  specialize (HA b Hb ltac:(congruence)). specialize (HB a Ha ltac:(congruence)). cbv beta zeta in *.
  destruct HA as [HA|[HA EA]]; destruct HB as [HB|[HB EB]]; try lia; auto.
Qed.
Lemma nearest_exact k m a : 0 <= k -> 0 <= m <= infinity -> nearest_at k (dbl m * 2 ^ k) a -> a = m.
Proof.
  intros Hk Hm [Ha HA]. destruct (Z.eq_dec a m) as [|Hne]; [assumption|exfalso].
  specialize (HA m Hm ltac:(congruence)). cbv beta zeta in HA.
  rewrite Z.sub_diag in HA. pose proof (pow2_pos k Hk).
  assert (dbl a <> dbl m).
  { destruct (Z_lt_ge_dec a m); [pose proof (dbl_lt a m); lia|pose proof (dbl_lt m a); lia]. }
  assert (dbl m * 2 ^ k - dbl a * 2 ^ k <> 0) by nia. lia.
Qed.

(* round_up *)
Lemma top_bit z : 0 <= z < 2 ^ 64 -> Z.shiftr z 63 = (if 2 ^ 63 <=? z then 1 else 0).
Proof.
  intros H. rewrite Z.shiftr_div_pow2 by lia.
  destruct (2 ^ 63 <=? z) eqn:E.
  - replace z with ((z - 2 ^ 63) + 1 * 2 ^ 63) by lia. rewrite Z.div_add, Z.div_small by lia. lia.
  - apply Z.div_small; lia.
Qed.
Lemma top_bit_sub a b : 0 <= a <= 2 ^ 63 -> 0 <= b < 2 ^ 64 -> b - a <= 2 ^ 63 ->
  Z.shiftr (to_u64 (a - b)) 63 = (if a <? b then 1 else if a - b =? 2 ^ 63 then 1 else 0).
Proof.
  intros Ha Hb Hab. unfold to_u64. rewrite top_bit by (apply Z.mod_pos_bound; lia).
  destruct (a <? b) eqn:E.
  - replace (a - b) with ((2 ^ 64 + a - b) + (-1) * 2 ^ 64) by lia.
    rewrite Z.mod_add, Z.mod_small by lia. replace (2 ^ 63 <=? 2 ^ 64 + a - b) with true by lia. reflexivity.
  - rewrite Z.mod_small by lia. destruct (a - b =? 2 ^ 63) eqn:F; destruct (2 ^ 63 <=? a - b) eqn:G; lia.
Qed.

Lemma land_1_odd q : Z.land q 1 = Z.b2z (Z.odd q).
Proof. change 1 with (Z.ones 1). rewrite Z.land_ones by lia. change (2 ^ 1) with 2. apply Zmod_odd. Qed.

Lemma round_up_ok s f (more : bool) q : 1 <= s <= 63 -> 0 <= f < 2 ^ s -> 0 <= q ->
  round_up (2 ^ s) (2 * f + Z.b2z more) q =
  Z.b2z ((2 ^ s <? 2 * f + Z.b2z more) || ((2 ^ s =? 2 * f + Z.b2z more) && Z.odd q)).
Proof.
  intros Hs Hf Hq. unfold round_up.
  assert (Hs2 : 2 <= 2 ^ s <= 2 ^ 63).
  { split; [change 2 with (2 ^ 1) at 1; apply Z.pow_le_mono_r; lia|apply Z.pow_le_mono_r; lia]. }
  set (b := 2 * f + Z.b2z more).
  assert (Hb : 0 <= b < 2 * 2 ^ s) by (unfold b; destruct more; cbn [Z.b2z]; lia).
  rewrite (top_bit_sub (2 ^ s - 1) b), (top_bit_sub (2 ^ s) b) by lia.
  rewrite Z.land_comm, Z.land_assoc. 
  set (u := if 2 ^ s - 1 <? b then 1 else if 2 ^ s - 1 - b =? 2 ^ 63 then 1 else 0).
  set (v := if 2 ^ s <? b then 1 else if 2 ^ s - b =? 2 ^ 63 then 1 else 0).
  replace u with (Z.b2z (2 ^ s <=? b)) by (unfold u; destruct (2 ^ s - 1 <? b) eqn:A, (2 ^ s - 1 - b =? 2 ^ 63) eqn:B, (2 ^ s <=? b) eqn:C; cbn [Z.b2z]; lia).
  destruct (2 ^ s <=? b) eqn:C; cbn [Z.b2z].
  - change (Z.land 1 1) with 1.
    rewrite Z.land_comm, land_1_odd.
    destruct (2 ^ s <? b) eqn:G; cbn [orb].
    + unfold v. rewrite Z.bit0_odd || idtac.
      replace (Z.odd (Z.lor 1 q)) with true; [reflexivity|].
      rewrite <- !Z.bit0_odd, Z.lor_spec. reflexivity.
    + replace (2 ^ s =? b) with true by lia. cbn [andb]. unfold v.
      destruct (2 ^ s - b =? 2 ^ 63) eqn:B; [exfalso; lia|].
      rewrite Z.lor_0_l. reflexivity.
  - change (Z.land 1 0) with 0. rewrite Z.land_0_l.
    replace (2 ^ s <? b) with false by lia. replace (2 ^ s =? b) with false by lia. reflexivity.
Qed.

(* The decision *)
Definition goes_up (s f : Z) (more : bool) (q : Z) : bool :=
  (2 ^ s <? 2 * f + Z.b2z more) || ((2 ^ s =? 2 * f + Z.b2z more) && Z.odd q).

Lemma goes_up_near s f (more : bool) q U R sh :
  1 <= s -> 0 <= f < 2 ^ s -> 0 < U -> 0 <= R ->
  (more = false -> R = 0) ->
  (more = true -> 0 < R < U * 2 ^ sh) ->
  (more = true -> 0 <= sh < s /\ exists z, f = z * 2 ^ sh) ->
  let F := f * U + R in
  let G := 2 ^ s * U in
  0 <= F < G /\
  (if goes_up s f more q then G <= 2 * F else 2 * F <= G) /\
  (2 * F = G -> goes_up s f more q = Z.odd q).
Proof.
  intros Hs Hf HU HR Hm0 Hm1 Hm2 F G. subst F G. unfold goes_up.
  destruct more; cbn [Z.b2z].
  - destruct (Hm1 eq_refl) as [HR1 HR2]. destruct (Hm2 eq_refl) as [Hsh [z Hz]].
    assert (HS : 2 ^ s = 2 * 2 ^ (s - 1 - sh) * 2 ^ sh).
    { change 2 with (2 ^ 1) at 2. rewrite <- !Z.pow_add_r by lia. f_equal; lia. }
    pose proof (pow2_pos (s - 1 - sh) ltac:(lia)) as HX. pose proof (pow2_pos sh ltac:(lia)) as HY.
    set (X := 2 ^ (s - 1 - sh)) in *. set (Y := 2 ^ sh) in *.
    assert (Hz2 : z < 2 * X) by nia.
    assert (Hz0 : 0 <= z) by nia.
    rewrite HS, Hz.
    assert (HF : z * Y * U + R < 2 * X * Y * U) by nia.
    split; [nia|].
    assert (Hpar : 2 * X * Y <> 2 * (z * Y) + 1) by lia.
    replace (2 * X * Y =? 2 * (z * Y) + 1) with false by lia. cbn [andb]. rewrite orb_false_r.
    destruct (2 * X * Y <? 2 * (z * Y) + 1) eqn:A.
    + assert (X <= z) by nia. split; [nia|]. intros; exfalso; nia.
    + assert (z < X) by nia. split; [nia|]. intros; exfalso; nia.
  - rewrite (Hm0 eq_refl), !Z.add_0_r.
    split; [nia|]. 
    destruct (2 ^ s <? 2 * f) eqn:A; cbn [orb].
    + split; [nia|]. intros; exfalso; nia.
    + destruct (2 ^ s =? 2 * f) eqn:B; cbn [andb].
      * split; [|reflexivity]. destruct (Z.odd q); nia.
      * split; [nia|]. intros; exfalso; nia.
Qed.

Lemma with_exp_ok (sign : bool) b e :
  0 <= b < 2 ^ 52 -> -100 <= e <= 2046 ->
  Z.lor (Z.lor b (sign_bit sign)) (Z.shiftl (Z.land e (Z.shiftr (- e) 15)) 52) =
  sign_bit sign + (Z.max e 0 * 2 ^ 52 + b).
Proof.
  intros Hb He.
  assert (HE : Z.land e (Z.shiftr (- e) 15) = Z.max e 0).
  { destruct (Z_le_gt_dec e 0).
    - rewrite Z.shiftr_div_pow2, (Z.div_small (- e)), Z.land_0_r by lia. lia.
    - replace (Z.shiftr (- e) 15) with (-1); [rewrite Z.land_m1_r; lia|].
      rewrite Z.shiftr_div_pow2 by lia. apply Z.div_unique with (2 ^ 15 - e); lia. }
  rewrite HE. rewrite (Z.lor_comm (Z.lor b _)), (Z.lor_comm b).
  unfold sign_bit. destruct sign.
  - rewrite Z.lor_assoc, (Z.lor_comm (Z.shiftl _ _)).
    replace (Z.lor (2 ^ 63) (Z.shiftl (Z.max e 0) 52)) with (2 ^ 63 + Z.max e 0 * 2 ^ 52).
    + replace (2 ^ 63 + Z.max e 0 * 2 ^ 52) with ((2 ^ 11 + Z.max e 0) * 2 ^ 52) by lia.
      rewrite lor_mul_add by lia. lia.
    + change (2 ^ 63) with (1 * 2 ^ 63). rewrite Z.shiftl_mul_pow2 by lia.
      rewrite lor_mul_add by lia. lia.
  - rewrite Z.lor_0_l, shl_lor by lia. lia.
Qed.

Lemma shl1_more f (more : bool) : 0 <= f -> Z.lor (Z.shiftl f 1) (if more then 1 else 0) = 2 * f + Z.b2z more.
Proof.
  intros Hf. rewrite shl_lor by (destruct more; lia). change (2 ^ 1) with 2. destruct more; cbn [Z.b2z]; lia.
Qed.

Lemma compose_ok sign (more : bool) bits exp k N U R sh :
  2 ^ 63 <= bits < 2 ^ 64 -> 0 <= k -> 0 <= exp - 12 + k -> U = 2 ^ (exp - 12 + k) ->
  exp <= 20000 ->
  N = bits * U + R -> 0 <= R -> (more = false -> R = 0) ->
  (more = true -> 0 < R < U * 2 ^ sh) ->
  (more = true -> 0 <= sh <= 10 /\ exists z, bits = z * 2 ^ sh) ->
  (more = true -> exp = -52 -> bits <> 2 ^ 63) ->
  exists m, compose sign more bits exp = sign_bit sign + m /\ nearest_at k N m.
Proof.
  intros Hbits Hk HEk HU Hmax HN HR Hm0 Hm1 Hm2 Hexc.
  assert (HU0 : 0 < U) by (subst U; apply pow2_pos; lia).
  pose proof (pow2_pos k Hk) as HK.
  unfold compose. cbv zeta.
  destruct (1 <=? exp) eqn:E1.
  - change (2 ^ 11 - 1) with (2 ^ 11 - 1). rewrite land_mask by lia.
    set (f := bits mod 2 ^ 11). set (q := bits / 2 ^ 11).
    assert (Hf : 0 <= f < 2 ^ 11) by (apply Z.mod_pos_bound; lia).
    pose proof (Z.div_mod bits (2 ^ 11) ltac:(lia)) as HB. fold f q in HB.
    assert (Hq : 2 ^ 52 <= q < 2 ^ 53) by lia.
    rewrite shl1_more by lia. rewrite (Z.shiftr_div_pow2 bits 11) by lia. fold q.
    rewrite round_up_ok by lia. fold (goes_up 11 f more q).
    destruct (goes_up_near 11 f more q U R sh ltac:(lia) Hf HU0 HR Hm0 Hm1) as (HF & Hup & Htie).
    { intros Hm; destruct (Hm2 Hm) as [Hs [z Hz]]. split; [lia|].
      exists (z - q * 2 ^ (11 - sh)). rewrite Z.mul_sub_distr_r, <- Z.mul_assoc, <- Z.pow_add_r by lia.
      replace (11 - sh + sh) with 11 by lia. lia. }
    set (up := goes_up 11 f more q) in *.
    assert (HG : 2 ^ 11 * U = 2 ^ (exp - 1) * 2 ^ k).
    { rewrite HU, <- !Z.pow_add_r by lia. f_equal; lia. }
    set (t := (exp - 1) * 2 ^ 52 + q).
    assert (Dt : dbl t = q * 2 ^ (exp - 1)) by (apply dbl_normal_top; lia).
    assert (Dt1 : dbl (t + 1) = (q + 1) * 2 ^ (exp - 1)).
    { unfold t. rewrite <- Z.add_assoc. apply dbl_normal_top; lia. }
    assert (HNe : N = dbl t * 2 ^ k + (f * U + R)).
    { rewrite HN, HB, Dt. rewrite <- Z.mul_assoc, <- HG. ring. }
    assert (Hgap : dbl (t + 1) * 2 ^ k = dbl t * 2 ^ k + 2 ^ 11 * U).
    { rewrite Dt, Dt1, HG. ring. }
    assert (Hq' : 2 ^ 52 <= q + Z.b2z up <= 2 ^ 53) by (destruct up; cbn [Z.b2z]; lia).
    assert (Hsh : Z.land (Z.shiftr (q + Z.b2z up) 53) 1 = (if q + Z.b2z up =? 2 ^ 53 then 1 else 0)).
    { rewrite Z.shiftr_div_pow2 by lia. destruct (q + Z.b2z up =? 2 ^ 53) eqn:Q.
      - replace (q + Z.b2z up) with (2 ^ 53) by lia. reflexivity.
      - rewrite Z.div_small by lia. reflexivity. }
    rewrite Hsh.
    destruct (Z_lt_ge_dec t infinity) as [Hti|Hti].
    + exists (if up then t + 1 else t). split.
      * unfold infinity, t in *.
        destruct (q + Z.b2z up =? 2 ^ 53) eqn:Q.
        -- assert (up = true) by (destruct up; [reflexivity|cbn [Z.b2z] in Q; lia]).
           replace (q + Z.b2z up) with (2 ^ 53) by lia.
           replace (Z.land (Z.shiftr (2 ^ 53) 1) (2 ^ 52 - 1)) with 0 by reflexivity.
           rewrite H in *; cbn [Z.b2z] in Q.
           destruct (2046 <? exp + 1) eqn:X.
           ++ unfold sd_inf. lia.
           ++ rewrite with_exp_ok by lia. lia.
        -- replace (2046 <? exp + 0) with false by lia.
           rewrite Z.shiftr_0_r, land_mask by lia.
           replace (q + Z.b2z up) with ((q + Z.b2z up - 2 ^ 52) + 1 * 2 ^ 52) by lia.
           rewrite Z.mod_add, Z.mod_small by lia. rewrite with_exp_ok by lia.
           destruct up; cbn [Z.b2z] in *; lia.
      * apply nearest_between; [exact Hk|unfold t in *; lia|lia| |].
        -- destruct up; lia.
        -- intros HT. rewrite Htie by lia.
           unfold t. rewrite Z.even_add. change (2 ^ 52) with (2 * 2 ^ 51).
           replace ((exp - 1) * (2 * 2 ^ 51)) with (2 * ((exp - 1) * 2 ^ 51)) by ring.
           rewrite Z.even_mul. cbn [Z.even orb Bool.eqb]. rewrite <- Z.negb_even. destruct (Z.even q); reflexivity.
    + exists infinity. split.
      * assert (HX : 2046 < exp) by (unfold infinity, t in *; lia).
        replace (2046 <? exp + (if q + Z.b2z up =? 2 ^ 53 then 1 else 0)) with true by (destruct (q + Z.b2z up =? 2 ^ 53); lia).
        reflexivity.
      * apply nearest_infinity; [exact Hk|]. rewrite HNe.
        pose proof (dbl_mono infinity t ltac:(unfold infinity; lia) ltac:(lia)) as HDM.
        pose proof (Z.mul_le_mono_nonneg_r _ _ (2 ^ k) ltac:(lia) HDM). lia.
  - destruct (-51 <=? exp) eqn:E2.
    + set (s := 12 - exp). assert (Hs : 12 <= s <= 63) by (unfold s; lia).
      assert (HS2 : 2 ^ 12 <= 2 ^ s) by (apply Z.pow_le_mono_r; lia).
      rewrite (land_mask bits s) by lia.
      set (f := bits mod 2 ^ s). set (q := bits / 2 ^ s).
      assert (Hf : 0 <= f < 2 ^ s) by (apply Z.mod_pos_bound; lia).
      pose proof (Z.div_mod bits (2 ^ s) ltac:(lia)) as HB. fold f q in HB.
      assert (Hq : 0 <= q < 2 ^ 52).
      { split; [apply Z.div_pos; lia|]. apply Z.div_lt_upper_bound; [lia|].
        assert (2 ^ 64 = 2 ^ 12 * 2 ^ 52) by reflexivity. nia. }
      rewrite shl1_more by exact (proj1 Hf). rewrite (Z.shiftr_div_pow2 bits s) by lia. fold q.
      rewrite round_up_ok by lia. fold (goes_up s f more q).
      destruct (goes_up_near s f more q U R sh ltac:(lia) Hf HU0 HR Hm0 Hm1) as (HF & Hup & Htie).
      { intros Hm; destruct (Hm2 Hm) as [Hsx [z Hz]]. split; [lia|].
        exists (z - q * 2 ^ (s - sh)). rewrite Z.mul_sub_distr_r, <- Z.mul_assoc, <- Z.pow_add_r by lia.
        replace (s - sh + sh) with s by lia. lia. }
      set (up := goes_up s f more q) in *.
      assert (HG : 2 ^ s * U = 2 ^ k).
      { rewrite HU, <- !Z.pow_add_r by lia. f_equal; unfold s; lia. }
      assert (Dt : dbl q = q) by (apply dbl_sub; lia).
      assert (Dt1 : dbl (q + 1) = q + 1) by (apply dbl_sub; lia).
      assert (HNe : N = dbl q * 2 ^ k + (f * U + R)).
      { rewrite HN, HB, Dt. rewrite <- HG. ring. }
      assert (Hgap : dbl (q + 1) * 2 ^ k = dbl q * 2 ^ k + 2 ^ s * U) by (rewrite Dt, Dt1, HG; ring).
      exists (if up then q + 1 else q). split.
      * assert (Hsh : Z.land (Z.shiftr (q + Z.b2z up) 52) 1 = (if q + Z.b2z up =? 2 ^ 52 then 1 else 0)).
        { rewrite Z.shiftr_div_pow2 by lia. destruct (q + Z.b2z up =? 2 ^ 52) eqn:Q.
          - replace (q + Z.b2z up) with (2 ^ 52) by lia. reflexivity.
          - rewrite Z.div_small by (destruct up; cbn [Z.b2z] in *; lia). reflexivity. }
        rewrite Hsh. destruct (q + Z.b2z up =? 2 ^ 52) eqn:Q.
        -- assert (up = true) by (destruct up; [reflexivity|cbn [Z.b2z] in Q; lia]).
           assert (exp = 0).
           { assert (HQ : q = 2 ^ 52 - 1) by (rewrite H in Q; cbn [Z.b2z] in Q; lia).
             destruct (Z.eq_dec exp 0); [assumption|exfalso].
             assert (2 ^ 13 <= 2 ^ s) by (apply Z.pow_le_mono_r; unfold s; lia).
             assert (2 ^ 64 = 2 ^ 13 * 2 ^ 51) by reflexivity. nia. }
           subst exp. replace (Z.shiftr (0 + 1) 15) with 0 by reflexivity.
           rewrite Z.land_0_r, Z.shiftr_0_r. replace (q + Z.b2z up) with (2 ^ 52) by lia.
           replace (Z.land (2 ^ 52) (2 ^ 52 - 1)) with 0 by reflexivity.
           rewrite with_exp_ok by lia. rewrite H in *; cbn [Z.b2z] in Q. lia.
        -- rewrite Z.land_0_l, Z.shiftr_0_r, land_mask by lia.
           rewrite Z.mod_small by (destruct up; cbn [Z.b2z] in *; lia).
           rewrite with_exp_ok by (destruct up; cbn [Z.b2z] in *; lia).
           replace (Z.max (exp + 0) 0) with 0 by lia. destruct up; cbn [Z.b2z] in *; lia.
      * apply nearest_between; [exact Hk|unfold infinity; lia|lia| |].
        -- destruct up; lia.
        -- intros HT. rewrite Htie by lia. rewrite <- Z.negb_even. reflexivity.
    + destruct (exp =? -52) eqn:E3.
      * assert (exp = -52) by lia. subst exp.
        assert (HU2 : 2 ^ 64 * U = 2 ^ k).
        { rewrite HU, <- Z.pow_add_r by lia. f_equal; lia. }
        assert (HRU : more = true -> R < 2 ^ 10 * U).
        { intros Hm. destruct (Hm1 Hm). destruct (Hm2 Hm) as [Hs _].
          assert (2 ^ sh <= 2 ^ 10) by (apply Z.pow_le_mono_r; lia). nia. }
        assert (Hlt : N < 2 ^ 64 * U).
        { destruct more; [|rewrite (Hm0 eq_refl) in HN; nia].
          destruct (Hm2 eq_refl) as [Hs [z Hz]]. destruct (Hm1 eq_refl) as [_ HR2].
          assert (H64 : 2 ^ 64 = 2 ^ (64 - sh) * 2 ^ sh) by (rewrite <- Z.pow_add_r by lia; f_equal; lia).
          pose proof (pow2_pos sh ltac:(lia)).
          assert (z < 2 ^ (64 - sh)) by nia.
          rewrite HN, Hz, H64. nia. }
        destruct (bits <=? 2 ^ 63) eqn:B.
        -- assert (Hb : bits = 2 ^ 63) by lia.
           assert (more = false) by (destruct more; [exfalso; apply (Hexc eq_refl eq_refl Hb)|reflexivity]).
           exists 0. split; [unfold sd_zero; lia|].
           apply (nearest_between k N 0 false); [exact Hk|unfold infinity; lia| | |].
           ++ change (dbl 0) with 0. change (dbl (0 + 1)) with 1. nia.
           ++ change (dbl 0) with 0. change (dbl (0 + 1)) with 1. rewrite (Hm0 H) in HN. rewrite HN, Hb. lia.
           ++ reflexivity.
        -- exists 1. split; [rewrite with_exp_ok by lia; reflexivity|].
           apply (nearest_between k N 0 true); [exact Hk|unfold infinity; lia| | |].
           ++ change (dbl 0) with 0. change (dbl (0 + 1)) with 1. nia.
           ++ change (dbl 0) with 0. change (dbl (0 + 1)) with 1. nia.
           ++ change (dbl 0) with 0. change (dbl (0 + 1)) with 1. intros; exfalso. nia.
      * assert (HU2 : 2 ^ 65 * U <= 2 ^ k).
        { rewrite HU, <- Z.pow_add_r by lia. apply Z.pow_le_mono_r; lia. }
        assert (Hlt : N < 2 ^ 64 * U).
        { destruct more; [|rewrite (Hm0 eq_refl) in HN; nia].
          destruct (Hm2 eq_refl) as [Hs [z Hz]]. destruct (Hm1 eq_refl) as [_ HR2].
          assert (H64 : 2 ^ 64 = 2 ^ (64 - sh) * 2 ^ sh) by (rewrite <- Z.pow_add_r by lia; f_equal; lia).
          pose proof (pow2_pos sh ltac:(lia)).
          assert (z < 2 ^ (64 - sh)) by nia.
          rewrite HN, Hz, H64. nia. }
        exists 0. split; [unfold sd_zero; lia|].
        apply (nearest_between k N 0 false); [exact Hk|unfold infinity; lia| | |].
        -- change (dbl 0) with 0. change (dbl (0 + 1)) with 1. nia.
        -- change (dbl 0) with 0. change (dbl (0 + 1)) with 1. lia.
        -- reflexivity.
Qed.
