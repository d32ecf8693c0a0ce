(* Proofs about writing a real in decimal and reading it back. *)
From Verif Require Import Base Text Monad Lists Bits NumTables NumGetModel NumPutModel NumSpec DecSpec
  NumGetProofs NumCastProofs NumRoundProofs NumRealProofs NumPutProofs NumFormatProofs NumTripProofs DecProofs DecPutProofs DecReadProofs DecShortProofs.

Local Open Scope Z_scope.

(* ---- neighbours ---- *)

Lemma gap_even m : 0 < m -> even_spacing m -> dbl m - dbl (m - 1) = dbl (m + 1) - dbl m.
Proof.
  intros Hm He. destruct (gap_shape m ltac:(lia)) as (q & e & E0 & E1 & E2 & E3 & E4 & E5).
  destruct (gap_shape (m - 1) ltac:(lia)) as (q' & e' & F0 & F1 & F2 & F3 & F4 & F5).
  replace (m - 1 + 1) with m in F2 by lia. rewrite F1, E2. rewrite F2 at 1. rewrite E1.
  assert (e' = e).
  { destruct (Z_lt_ge_dec q (2 ^ 52)) as [A|A]; [specialize (E4 A)|]; (destruct (Z_lt_ge_dec q' (2 ^ 52)) as [B|B]; [specialize (F4 B)|]); try lia.
    destruct (Z.eq_dec q (2 ^ 52)) as [->|D]; [|lia]. exfalso. destruct He as [He|He]; [|lia].
    apply He. rewrite E5. replace (e * 2 ^ 52 + 2 ^ 52) with ((e + 1) * 2 ^ 52) by ring. apply Z.mod_mul. lia. }
  subst e'. ring.
Qed.

Lemma within_nearest D E m : 0 < m < infinity -> even_spacing m -> within_half D E m -> nearest_decimal D E m.
Proof.
  intros Hm He HW. split; [lia|]. intros c Hc Hne. cbv zeta. left. unfold within_half in HW.
  assert (K1 : 0 < 10 ^ Z.max (- E) 0) by (apply Z.pow_pos_nonneg; lia).
  set (K := 10 ^ Z.max (- E) 0) in *. set (N := D * 10 ^ Z.max E 0 * 2 ^ 1074) in *. clearbody K N.
  pose proof (gap_even m ltac:(lia) He) as HG.
  assert (C : dbl (m + 1) <= dbl c \/ dbl c <= dbl (m - 1)).
  { destruct (Z_lt_ge_dec m c); [left|right]; apply dbl_mono; lia. }
  set (d := dbl m) in *. set (u := dbl (m + 1)) in *. set (l := dbl (m - 1)) in *. set (x := dbl c) in *. clearbody d u l x.
  assert (C' : (u - d) * K <= (x - d) * K \/ (u - d) * K <= (d - x) * K).
  { destruct C; [left|right]; (apply Z.mul_le_mono_nonneg_r; lia). }
  rewrite !Z.mul_sub_distr_r in *. lia.
Qed.

Lemma gap_below m : 0 < m -> dbl m - dbl (m - 1) <= dbl (m + 1) - dbl m <= 2 * (dbl m - dbl (m - 1)).
Proof.
  intros H. pose proof (gap_next (m - 1) ltac:(lia)) as K. replace (m - 1 + 1) with m in K by lia.
  replace (m - 1 + 2) with (m + 1) in K by lia. exact K.
Qed.

Lemma within_close D E m m' : 0 < m < infinity -> within_half D E m -> close_decimal D E m' -> m - 1 <= m' <= m + 1.
Proof.
  intros Hm HW (_ & _ & HC). unfold within_half in HW.
  assert (K1 : 0 < 10 ^ Z.max (- E) 0) by (apply Z.pow_pos_nonneg; lia).
  set (K := 10 ^ Z.max (- E) 0) in *. set (N := D * 10 ^ Z.max E 0 * 2 ^ 1074) in *. clearbody K N.
  pose proof (gap_below m ltac:(lia)) as HB.
  destruct (Z_lt_ge_dec N (dbl m * K)) as [C|C].
  - destruct (HC (m - 1) ltac:(lia)) as [[-> _]|[-> _]]; try lia. replace (m - 1 + 1) with m by lia.
    split; [|lia]. assert (Q : (dbl (m + 1) - dbl m) * K <= 2 * (dbl m - dbl (m - 1)) * K) by (apply Z.mul_le_mono_nonneg_r; lia).
    rewrite <- Z.mul_assoc, !Z.mul_sub_distr_r in *. lia.
  - assert (P : dbl m * K <= N <= dbl (m + 1) * K).
    { split; [lia|]. pose proof (dbl_succ m ltac:(lia)) as Q. assert (Q2 : 0 <= (dbl (m + 1) - dbl m) * K) by (apply Z.mul_nonneg_nonneg; lia).
      rewrite !Z.mul_sub_distr_r in *. lia. }
    destruct (HC m ltac:(lia) P) as [[-> _]|[-> _]]; lia.
Qed.

Lemma near_close D E m m' : 0 < m < infinity -> near_double D E m -> close_decimal D E m' -> m' = m.
Proof.
  intros Hm HW (_ & _ & HC). unfold near_double in HW.
  assert (K1 : 0 < 10 ^ Z.max (- E) 0) by (apply Z.pow_pos_nonneg; lia).
  set (K := 10 ^ Z.max (- E) 0) in *. set (N := D * 10 ^ Z.max E 0 * 2 ^ 1074) in *. clearbody K N.
  pose proof (gap_below m ltac:(lia)) as HB.
  assert (Q : (dbl m - dbl (m - 1)) * K <= (dbl (m + 1) - dbl m) * K) by (apply Z.mul_le_mono_nonneg_r; lia).
  rewrite <- Z.mul_assoc in HW.
  destruct (Z_lt_ge_dec N (dbl m * K)) as [C|C].
  - specialize (HC (m - 1) ltac:(lia)). replace (m - 1 + 1) with m in HC by lia. cbv zeta in HC.
    assert (P : dbl (m - 1) * K <= N <= dbl m * K) by (rewrite !Z.mul_sub_distr_r in *; lia). specialize (HC P).
    rewrite Z.mul_add_distr_r, !Z.mul_sub_distr_r in *. destruct HC as [[_ HC]|[-> _]]; lia.
  - specialize (HC m ltac:(lia)). cbv zeta in HC.
    assert (P : dbl m * K <= N <= dbl (m + 1) * K) by (rewrite !Z.mul_sub_distr_r in *; lia). specialize (HC P).
    rewrite Z.mul_add_distr_r, !Z.mul_sub_distr_r in *. destruct HC as [[-> _]|[_ HC]]; lia.
Qed.
Lemma near_well D E m : 0 < m < infinity -> near_double D E m -> well_within D E m.
Proof.
  intros Hm HW. unfold near_double, well_within in *.
  assert (K1 : 0 < 10 ^ Z.max (- E) 0) by (apply Z.pow_pos_nonneg; lia).
  set (K := 10 ^ Z.max (- E) 0) in *. set (N := D * 10 ^ Z.max E 0 * 2 ^ 1074) in *. clearbody K N.
  pose proof (gap_below m ltac:(lia)) as HB.
  assert (Q : (dbl m - dbl (m - 1)) * K <= (dbl (m + 1) - dbl m) * K) by (apply Z.mul_le_mono_nonneg_r; lia).
  rewrite <- Z.mul_assoc in HW. lia.
Qed.
Lemma exact_near D E m : 0 < m < infinity -> is_double D E m -> near_double D E m.
Proof.
  intros Hm H. unfold is_double, near_double in *. rewrite <- H, Z.sub_diag. cbn [Z.abs Z.mul].
  apply Z.mul_pos_pos; [|apply Z.pow_pos_nonneg; lia]. pose proof (dbl_succ (m - 1) ltac:(lia)) as K.
  replace (m - 1 + 1) with m in K by lia. lia.
Qed.
Lemma double_same D E D' E' m : same_value 10 D E D' E' -> is_double D' E' m -> is_double D E m.
Proof.
  intros HS H. apply same_cross in HS. unfold is_double in *.
  assert (K2 : 10 ^ Z.max (- E') 0 <> 0) by (apply Z.pow_nonzero; lia).
  apply (Z.mul_cancel_r _ _ (10 ^ Z.max (- E') 0)); [exact K2|].
  transitivity (dbl m * 10 ^ Z.max (- E') 0 * 10 ^ Z.max (- E) 0); [ring|]. rewrite H.
  transitivity (D' * 10 ^ Z.max E' 0 * 10 ^ Z.max (- E) 0 * 2 ^ 1074); [ring|]. rewrite <- HS. ring.
Qed.

(* ---- std.numeric.format ---- *)

Definition sign_of (bits : Z) : option bool := if minus_bit bits then Some true else None.

Lemma format_dec_ok bits base ebase : 0 <= bits < 2 ^ 64 -> 0 < magnitude bits < infinity ->
  base_notation base Decimal -> ebase_fits Decimal ebase ->
  exists l, format_real bits base ebase = Ok (text_of l) /\ wf_literal l /\ l_notation l = Decimal /\
    l_sign l = sign_of bits /\ within_half (significand l) (scale l) (magnitude bits) /\
    (ebase <> None -> l_exp l <> None /\ length (l_int l) = 1%nat /\
       match l_int l with [] => False | d :: _ => fst d <> 0 end) /\
    (forall D E, 2 ^ 52 <= magnitude bits -> 0 < D < 10 ^ 15 -> well_within D E (magnitude bits) ->
       same_value 10 (significand l) (scale l) D E).
Proof.
  intros Hb Hm HB He. rewrite (format_real_put Decimal) by assumption. cbn [put_real].
  destruct (frexp10_ok bits Hb Hm) as (r & E & Ef & HC & Hr & HE & HW).
  destruct (put_Dec_text (match ebase with None => true | _ => false end) bits r E Ef HC Hr HE) as (I & F & e & Eq & W & _ & HS & HP).
  exists (real_lit Decimal (minus_bit bits) I F e). split; [exact Eq|]. split; [exact W|]. split; [reflexivity|].
  split; [reflexivity|]. split; [exact (within_same _ _ _ _ _ HS HW)|]. split.
  - intros Hne. apply HP. destruct ebase; [reflexivity|congruence].
  - intros D E0 Hg HD HN. destruct (frexp10_short bits D E0 Hb ltac:(lia) HD HN) as (r' & E' & Ef' & HS').
    rewrite Ef in Ef'. injection Ef' as <- <-. eapply same_value_trans; [lia|exact HS|exact HS'].
Qed.

Lemma integer_units l i bits : l_notation l = Decimal -> l_sign l = sign_of bits -> denotes_integer l i ->
  within_half (significand l) (scale l) (magnitude bits) ->
  2 * Z.abs (i * 2 ^ 1074 - real_units bits) < dbl (magnitude bits + 1) - dbl (magnitude bits).
Proof.
  intros Hn Hs HI HW. unfold denotes_integer, is_integer in HI. rewrite Hn, Hs in HI. cbn [power] in HI.
  unfold within_half in HW. unfold sign_of in HI. unfold real_units.
  assert (K1 : 0 < 10 ^ Z.max (- scale l) 0) by (apply Z.pow_pos_nonneg; lia).
  set (K := 10 ^ Z.max (- scale l) 0) in *. set (P := 10 ^ Z.max (scale l) 0) in *. set (D := significand l) in *.
  set (S := 2 ^ 1074) in *. set (d := dbl (magnitude bits)) in *. set (g := dbl (magnitude bits + 1) - d) in *. clearbody K P D S d g.
  apply (Z.mul_lt_mono_pos_r K); [exact K1|]. eapply Z.le_lt_trans; [|exact HW].
  rewrite <- Z.mul_assoc. rewrite <- (Z.abs_eq K) at 1 by lia. rewrite <- Z.abs_mul, Z.mul_sub_distr_r.
  apply Z.mul_le_mono_nonneg_l; [lia|]. destruct (minus_bit bits); cbn [signed] in HI.
  - replace (i * S * K) with (i * K * S) by ring. rewrite <- HI. replace (- D * P * S - - d * K) with (- (D * P * S - d * K)) by ring.
    rewrite Z.abs_opp. lia.
  - replace (i * S * K) with (i * K * S) by ring. rewrite <- HI. lia.
Qed.

Lemma sign_of_negative l bits : l_sign l = sign_of bits -> negative l = minus_bit bits.
Proof. intros H. unfold negative. rewrite H. unfold sign_of. destruct (minus_bit bits); reflexivity. Qed.

Lemma format_dec_trip bits base ebase : 0 <= bits < 2 ^ 64 -> 0 < magnitude bits < infinity ->
  base_notation base Decimal -> ebase_fits Decimal ebase ->
  exists t, format_real bits base ebase = Ok t /\
    (exists x m, parse_D t = Ok (Some (x, [])) /\ cast_D x = sign_pattern (minus_bit bits) + m /\
       magnitude bits - 1 <= m <= magnitude bits + 1) /\
    match std_numeric_parse t with
    | Ok (Integer i) => 2 * Z.abs (i * 2 ^ 1074 - real_units bits) < dbl (magnitude bits + 1) - dbl (magnitude bits)
    | Ok (Real b) => exists m, b = sign_pattern (minus_bit bits) + m /\ magnitude bits - 1 <= m <= magnitude bits + 1
    | _ => False
    end.
Proof.
  intros Hb Hm HB He. destruct (format_dec_ok bits base ebase Hb Hm HB He) as (l & -> & W & Hn & Hs & HW & _).
  exists (text_of l). split; [reflexivity|]. pose proof (sign_of_negative l bits Hs) as Hneg. split.
  - destruct (parse_D_close l W Hn) as (x & m & HP & HC & HM). rewrite Hneg in HC. exists x, m.
    split; [exact HP|]. split; [exact HC|]. exact (within_close _ _ _ _ Hm HW HM).
  - pose proof (parse_decimal_close [] l [] W ltac:(constructor) ltac:(constructor) Hn) as HP.
    rewrite app_nil_l, app_nil_r in HP. destruct (std_numeric_parse (text_of l)) as [[i|b]| |]; try exact HP.
    + destruct HP as (_ & _ & HD). exact (integer_units l i bits Hn Hs HD HW).
    + destruct HP as (m & -> & HM). rewrite Hneg. exists m. split; [reflexivity|]. exact (within_close _ _ _ _ Hm HW HM).
Qed.

Lemma format_dec_nearest bits base ebase : 0 <= bits < 2 ^ 64 -> 0 < magnitude bits < infinity ->
  base_notation base Decimal -> ebase_fits Decimal ebase -> even_spacing (magnitude bits) ->
  exists l, format_real bits base ebase = Ok (text_of l) /\ wf_literal l /\ l_notation l = Decimal /\
    l_sign l = sign_of bits /\ nearest_decimal (significand l) (scale l) (magnitude bits).
Proof.
  intros Hb Hm HB He HE. destruct (format_dec_ok bits base ebase Hb Hm HB He) as (l & Eq & W & Hn & Hs & HW & _).
  exists l. split; [exact Eq|]. split; [exact W|]. split; [exact Hn|]. split; [exact Hs|]. apply within_nearest; assumption.
Qed.

Lemma bits_parts s m : 0 <= m < 2 ^ 63 -> minus_bit (sign_pattern s + m) = s /\ magnitude (sign_pattern s + m) = m /\
  0 <= sign_pattern s + m < 2 ^ 64.
Proof.
  intros H. unfold minus_bit, magnitude. destruct s; unfold sign_pattern.
  - split; [lia|]. split; [|lia]. replace (2 ^ 63 + m) with (m + 1 * 2 ^ 63) by ring. rewrite Z.mod_add by lia. apply Z.mod_small. lia.
  - split; [lia|]. split; [|lia]. apply Z.mod_small. lia.
Qed.

(* a literal of at most 15 digits comes back *)
Lemma dec_again l t base ebase : wf_literal l -> l_notation l = Decimal -> 0 < significand l < 10 ^ 15 ->
  2 ^ 52 <= t < infinity -> near_double (significand l) (scale l) t ->
  base_notation base Decimal -> ebase_fits Decimal ebase ->
  exists x l', parse_D (text_of l) = Ok (Some (x, [])) /\ cast_D x = sign_pattern (negative l) + t /\
    format_real (cast_D x) base ebase = Ok (text_of l') /\ wf_literal l' /\ l_notation l' = Decimal /\
    negative l' = negative l /\ same_value 10 (significand l') (scale l') (significand l) (scale l).
Proof.
  intros W Hn HD Ht HN HB He. destruct (parse_D_close l W Hn) as (x & m & HP & HC & HM).
  assert (m = t) by (apply (near_close _ _ t m ltac:(lia) HN HM)). subst m.
  destruct (bits_parts (negative l) t ltac:(unfold infinity in Ht; lia)) as (B1 & B2 & B3).
  destruct (format_dec_ok (cast_D x) base ebase) as (l' & Eq & W' & Hn' & Hs' & _ & _ & HF); try assumption; try (rewrite HC; assumption).
  { rewrite HC, B2. lia. }
  exists x, l'. split; [exact HP|]. split; [exact HC|]. split; [exact Eq|]. split; [exact W'|]. split; [exact Hn'|]. split.
  - rewrite (sign_of_negative l' _ Hs'), HC. exact B1.
  - rewrite HC, B2 in HF. apply HF; [lia|exact HD|]. apply near_well; [lia|exact HN].
Qed.

(* a real of at most 15 digits comes back *)
Lemma dec_exact bits D E base ebase : 0 <= bits < 2 ^ 64 -> 2 ^ 52 <= magnitude bits < infinity ->
  0 < D < 10 ^ 15 -> is_double D E (magnitude bits) -> base_notation base Decimal -> ebase_fits Decimal ebase ->
  exists l, format_real bits base ebase = Ok (text_of l) /\ same_value 10 (significand l) (scale l) D E /\
    (exists x, parse_D (text_of l) = Ok (Some (x, [])) /\ cast_D x = bits) /\
    match std_numeric_parse (text_of l) with
    | Ok (Integer i) => i * 2 ^ 1074 = real_units bits
    | Ok (Real b) => b = bits
    | _ => False
    end.
Proof.
  intros Hb Hm HD HE HB He. destruct (format_dec_ok bits base ebase Hb ltac:(lia) HB He) as (l & Eq & W & Hn & Hs & _ & _ & HF).
  specialize (HF D E ltac:(lia) HD (near_well _ _ (magnitude bits) ltac:(lia) (exact_near _ _ (magnitude bits) ltac:(lia) HE))).
  pose proof (double_same _ _ _ _ _ HF HE) as HE'. pose proof (sign_of_negative l bits Hs) as Hneg.
  assert (Hbits : sign_pattern (minus_bit bits) + magnitude bits = bits) by (symmetry; exact (bits_split bits Hb)).
  exists l. split; [exact Eq|]. split; [exact HF|]. split.
  - destruct (parse_D_exact l (magnitude bits) W Hn ltac:(lia) HE') as (x & HP & HC). exists x. split; [exact HP|].
    rewrite HC, Hneg. exact Hbits.
  - pose proof (parse_decimal_close [] l [] W ltac:(constructor) ltac:(constructor) Hn) as HP.
    rewrite app_nil_l, app_nil_r in HP. destruct (std_numeric_parse (text_of l)) as [[i|b]| |]; try exact HP.
    + destruct HP as (_ & _ & HI). unfold denotes_integer, is_integer in HI. rewrite Hn, Hs in HI. cbn [power] in HI.
      unfold is_double in HE'. unfold real_units, sign_of in *.
      assert (K1 : 10 ^ Z.max (- scale l) 0 <> 0) by (apply Z.pow_nonzero; lia).
      apply (Z.mul_cancel_r _ _ (10 ^ Z.max (- scale l) 0)); [exact K1|].
      transitivity (i * 10 ^ Z.max (- scale l) 0 * 2 ^ 1074); [ring|]. rewrite <- HI.
      destruct (minus_bit bits); cbn [signed].
      * transitivity (- (dbl (magnitude bits) * 10 ^ Z.max (- scale l) 0)); [rewrite HE'; ring|ring].
      * rewrite HE'. reflexivity.
    + destruct HP as (m & -> & HM). rewrite Hneg, (close_exact _ _ m (magnitude bits) ltac:(lia) HE' HM). exact Hbits.
Qed.

Lemma dec_special bits base ebase : 0 <= bits < 2 ^ 64 -> magnitude bits = 0 \/ magnitude bits = infinity ->
  base_notation base Decimal -> ebase_fits Decimal ebase ->
  exists t, format_real bits base ebase = Ok t /\
    exists x, parse_D t = Ok (Some (x, [])) /\ cast_D x = bits.
Proof.
  intros Hb Hm HB He. rewrite (format_real_put Decimal) by assumption. cbn [put_real].
  unfold put_Dec, frexp10_17. destruct Hm as [Hm|Hm].
  - rewrite (split_zero bits Hb Hm). cbn [finite_nonzero f_cls negb obind].
    destruct (minus_bit bits) eqn:M; (eexists; split; [reflexivity|]; eexists; split; [reflexivity|]; rewrite (bits_split bits Hb), Hm, M; reflexivity).
  - rewrite (split_infinity bits Hb Hm). cbn [finite_nonzero f_cls negb obind].
    destruct (minus_bit bits) eqn:M; (eexists; split; [reflexivity|]; eexists; split; [reflexivity|]; rewrite (bits_split bits Hb), Hm, M; reflexivity).
Qed.
