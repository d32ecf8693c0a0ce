(* Proofs about writing a real in binary or hexadecimal and reading it back. *)
From Verif Require Import Base Text Monad Lists Bits NumTables NumGetModel NumPutModel NumSpec
  NumGetProofs NumCastProofs NumRoundProofs NumRealProofs NumPutProofs NumFormatProofs.

Local Open Scope Z_scope.


Lemma bits_split bits : 0 <= bits < 2 ^ 64 -> bits = sign_bit (minus_bit bits) + magnitude bits.
Proof.
  intros H. unfold minus_bit, magnitude, sign_bit. destruct (2 ^ 63 <=? bits) eqn:B.
  - rewrite <- (Z.mod_add bits (-1)) by lia. rewrite Z.mod_small; lia.
  - rewrite Z.mod_small; lia.
Qed.

Lemma split_parts bits : 0 <= bits < 2 ^ 64 ->
  (to_i64 bits <? 0) = minus_bit bits /\
  Z.land (Z.shiftr bits 52) 2047 = magnitude bits / 2 ^ 52 /\
  Z.land bits (2 ^ 52 - 1) = magnitude bits mod 2 ^ 52.
Proof.
  intros H. split; [|split].
  - unfold minus_bit, to_i64. destruct (2 ^ 63 <=? bits) eqn:B.
    + rewrite <- (Z.mod_add _ (-1)) by lia. rewrite Z.mod_small by lia. lia.
    + rewrite Z.mod_small by lia. lia.
  - change 2047 with (2 ^ 11 - 1). rewrite land_mask, Z.shiftr_div_pow2 by lia. unfold magnitude.
    pose proof (Z.div_mod bits (2 ^ 63) ltac:(lia)).
    change (2 ^ 63) with (2 ^ 52 * 2 ^ 11). rewrite Z.rem_mul_r by lia.
    rewrite Z.add_comm, (Z.mul_comm (2 ^ 52)), Z.div_add_l by lia.
    rewrite (Z.div_small (bits mod 2 ^ 52)) by (apply Z.mod_pos_bound; lia). lia.
  - rewrite land_mask by lia. unfold magnitude.
    change (2 ^ 63) with (2 ^ 52 * 2 ^ 11). rewrite Z.rem_mul_r by lia.
    rewrite Z.add_comm, (Z.mul_comm (2 ^ 52) (_ mod _)), Z.add_comm, Z.mod_add, Z.mod_mod by lia. reflexivity.
Qed.

Lemma lor_top52 m : 0 <= m < 2 ^ 52 -> Z.lor m (2 ^ 52) = 2 ^ 52 + m.
Proof.
  intros H. rewrite Z.lor_comm. change (2 ^ 52) with (1 * 2 ^ 52) at 1.
  rewrite lor_mul_add by lia. lia.
Qed.
Lemma lor_top52_in m : 2 ^ 52 <= m < 2 ^ 53 -> Z.lor m (2 ^ 52) = m.
Proof.
  intros H. assert (HE : m = Z.lor (m - 2 ^ 52) (2 ^ 52)) by (rewrite lor_top52 by lia; lia).
  rewrite HE at 1. rewrite <- Z.lor_assoc, Z.lor_diag. symmetry. exact HE.
Qed.

(* The mantissa and the exponent of a finite number other than zero. *)
Lemma split_finite bits : 0 <= bits < 2 ^ 64 -> 0 < magnitude bits < infinity ->
  exists m, let f := split_double bits in
    finite_nonzero f = true /\ f_sign f = minus_bit bits /\
    Z.lor (f_mant f) (2 ^ 52) = m /\ Z.lor (2 ^ 52) (Z.land (f_mant f) (2 ^ 52 - 1)) = m /\
    2 ^ 52 <= m < 2 ^ 53 /\ -51 <= f_exp f <= 2046 /\
    same_value 2 m (f_exp f - 1075) (dbl (magnitude bits)) (-1074) /\
    (magnitude bits < 2 ^ 52 -> f_exp f <= 0 /\ m = magnitude bits * 2 ^ (1 - f_exp f)) /\
    (2 ^ 52 <= magnitude bits -> f_exp f = magnitude bits / 2 ^ 52 /\ m = 2 ^ 52 + magnitude bits mod 2 ^ 52).
Proof.
  intros Hb Hm. cbv zeta. destruct (split_parts bits Hb) as (HS & HE & HM).
  unfold split_double. rewrite HS, HE, HM. clear HS HE HM.
  set (g := magnitude bits) in *. unfold infinity in Hm.
  pose proof (Z.mod_pos_bound g (2 ^ 52) ltac:(lia)) as Hr. pose proof (Z.div_mod g (2 ^ 52) ltac:(lia)) as Hd.
  assert (He : 0 <= g / 2 ^ 52 <= 2046).
  { split; [apply Z.div_pos; lia|]. assert (g / 2 ^ 52 < 2047) by (apply Z.div_lt_upper_bound; lia). lia. }
  destruct (Z.eq_dec (g / 2 ^ 52) 0) as [Z0|Z0].
  - rewrite Z0 in *. assert (Hg : g mod 2 ^ 52 = g) by lia. rewrite Hg in *. cbn [Z.leb Z.compare orb].
    assert (Hcode : Z.lor (Z.land 0 2) (Z.shiftr (g + int64_max) 63) = 1).
    { rewrite Z.land_0_l, Z.lor_0_l, Z.shiftr_div_pow2 by lia. unfold int64_max.
      symmetry. apply Z.div_unique with (g - 1); lia. }
    rewrite Hcode. cbn [Z.eqb Pos.eqb].
    pose proof (lzcnt_ok g ltac:(lia)) as (Hl1 & _ & Hl2).
    assert (Hlz : 12 <= lzcnt64 g).
    { unfold lzcnt64. assert (Z.log2 g < 52) by (apply Z.log2_lt_pow2; lia). lia. }
    set (sh := lzcnt64 g - 11) in *.
    assert (Hm2 : 2 ^ 52 <= g * 2 ^ sh < 2 ^ 53).
    { assert (HX : 2 ^ lzcnt64 g = 2 ^ sh * 2 ^ 11) by (rewrite <- Z.pow_add_r by (unfold sh; lia); f_equal; unfold sh; lia).
      rewrite HX in Hl2. assert (2 ^ 63 = 2 ^ 52 * 2 ^ 11) by reflexivity. assert (2 ^ 64 = 2 ^ 53 * 2 ^ 11) by reflexivity. nia. }
    assert (Hu : to_u64 (Z.shiftl g sh) = g * 2 ^ sh).
    { rewrite Z.shiftl_mul_pow2 by (unfold sh; lia). unfold to_u64. apply Z.mod_small. lia. }
    rewrite Hu. exists (g * 2 ^ sh). cbn [f_cls f_sign f_mant f_exp finite_nonzero].
    split; [reflexivity|]. split; [reflexivity|]. split; [apply lor_top52_in; exact Hm2|].
    split.
    { rewrite land_mask by lia. set (q := g * 2 ^ sh) in *.
      replace (q mod 2 ^ 52) with (q - 2 ^ 52).
      2:{ rewrite <- (Z.mod_add q (-1)) by lia. rewrite Z.mod_small; lia. }
      rewrite Z.lor_comm, lor_top52 by lia. lia. }
    split; [exact Hm2|]. split; [unfold sh; lia|]. split.
    + exists 0, sh. rewrite dbl_sub by lia. rewrite Z.pow_0_r. unfold sh. repeat split; lia.
    + split; [intros _; split; [unfold sh; lia|f_equal; f_equal; lia]|lia].
  - replace ((g / 2 ^ 52 <=? 0) || (2047 <=? g / 2 ^ 52)) with false by lia.
    exists (2 ^ 52 + g mod 2 ^ 52). cbn [f_cls f_sign f_mant f_exp finite_nonzero].
    split; [reflexivity|]. split; [reflexivity|]. split; [apply lor_top52; lia|].
    split; [rewrite land_mask, Z.mod_mod, Z.lor_comm, lor_top52 by lia; reflexivity|].
    split; [lia|]. split; [lia|]. split.
    + exists (g / 2 ^ 52 - 1), 0. split; [lia|]. split; [lia|]. split; [lia|]. rewrite Z.pow_0_r, Z.mul_1_r.
      unfold dbl. replace (g <? 2 ^ 52) with false by lia. reflexivity.
    + split; [lia|]. intros _. split; reflexivity.
Qed.

Lemma split_zero bits : 0 <= bits < 2 ^ 64 -> magnitude bits = 0 ->
  split_double bits = Frexp Fp_zero (minus_bit bits) 0 0.
Proof.
  intros Hb Hm. destruct (split_parts bits Hb) as (HS & HE & HM).
  unfold split_double. rewrite HS, HE, HM, Hm. reflexivity.
Qed.
Lemma split_infinity bits : 0 <= bits < 2 ^ 64 -> magnitude bits = infinity ->
  split_double bits = Frexp Fp_infinity (minus_bit bits) 2047 0.
Proof.
  intros Hb Hm. destruct (split_parts bits Hb) as (HS & HE & HM).
  unfold split_double. rewrite HS, HE, HM, Hm. reflexivity.
Qed.
Lemma split_nan bits : 0 <= bits < 2 ^ 64 -> infinity < magnitude bits ->
  exists e m, split_double bits = Frexp Fp_nan (minus_bit bits) e m.
Proof.
  intros Hb Hm. destruct (split_parts bits Hb) as (HS & HE & HM).
  unfold split_double. rewrite HS, HE, HM. unfold infinity in Hm.
  assert (Hg : magnitude bits < 2 ^ 63) by (apply Z.mod_pos_bound; lia).
  assert (Hq : magnitude bits / 2 ^ 52 = 2047) by (symmetry; apply Z.div_unique with (magnitude bits - 2047 * 2 ^ 52); lia).
  rewrite Hq. cbn [Z.leb Z.compare Pos.compare Pos.compare_cont orb].
  assert (Hr : 0 < magnitude bits mod 2 ^ 52 < 2 ^ 52).
  { pose proof (Z.div_mod (magnitude bits) (2 ^ 52) ltac:(lia)). pose proof (Z.mod_pos_bound (magnitude bits) (2 ^ 52) ltac:(lia)). lia. }
  assert (Hcode : Z.shiftr (magnitude bits mod 2 ^ 52 + int64_max) 63 = 1).
  { rewrite Z.shiftr_div_pow2 by lia. unfold int64_max. symmetry. apply Z.div_unique with (magnitude bits mod 2 ^ 52 - 1); lia. }
  rewrite Hcode. change (Z.lor (Z.land 2047 2) 1) with 3. cbn. eauto.
Qed.

Lemma same_value_trans p D E D' E' D'' E'' : 2 <= p ->
  same_value p D E D' E' -> same_value p D' E' D'' E'' -> same_value p D E D'' E''.
Proof.
  intros Hp (s1 & t1 & H1 & H2 & H3 & H4) (s2 & t2 & H5 & H6 & H7 & H8).
  exists (s1 + s2), (t1 + t2). repeat split; try lia. rewrite !Z.pow_add_r by lia.
  replace (D * (p ^ s1 * p ^ s2)) with (D * p ^ s1 * p ^ s2) by ring. rewrite H4.
  replace (D' * p ^ t1 * p ^ s2) with (D' * p ^ s2 * p ^ t1) by ring. rewrite H8. ring.
Qed.

Definition put_real (n : notation) : bool -> Z -> outcome bytes :=
  match n with Binary => put_B | Decimal => put_Dec | Hexadecimal => put_X end.

Lemma drop_prefixed n neg r : n <> Decimal ->
  skipn (Z.to_nat (if neg : bool then 1 - 1 else 1)) (str "-" ++ prefix_text n false ++ r)
  = (if neg then [45] else []) ++ prefix_text n false ++ r.
Proof. intros Hn. destruct n; [|congruence|]; destruct neg; reflexivity. Qed.

Lemma shift_pair q : Z.land q 3 = q mod 4 /\ Z.shiftr q 2 = q / 4.
Proof. split; [change 3 with (2 ^ 2 - 1); rewrite land_mask by lia; reflexivity|rewrite Z.shiftr_div_pow2 by lia; reflexivity]. Qed.

Lemma put_power2_ok n plain bits : n <> Decimal -> 0 <= bits < 2 ^ 64 -> 0 < magnitude bits < infinity ->
  exists I F e, put_real n plain bits = Ok (text_of (real_lit n (minus_bit bits) I F e)) /\
    wf_literal (real_lit n (minus_bit bits) I F e) /\ capitals (I ++ fr_of F) /\
    same_value 2 (significand (real_lit n (minus_bit bits) I F e)) (scale (real_lit n (minus_bit bits) I F e))
               (dbl (magnitude bits)) (-1074) /\
    (plain = false -> e <> None /\ length I = 1%nat /\ match I with [] => False | d :: _ => fst d <> 0 end).
Proof.
  intros Hn Hb Hm. destruct (split_finite bits Hb Hm) as (m & HF). cbv zeta in HF.
  destruct HF as (HC & HS & HM & _ & Hmr & He & HV & _).
  set (f := split_double bits) in *.
  assert (HX : frexp2_52 bits = Frexp (f_cls f) (minus_bit bits) (f_exp f - 1075) m).
  { unfold frexp2_52. fold f. rewrite HC, HS, HM. reflexivity. }
  assert (HSp : special_text (Frexp (f_cls f) (minus_bit bits) (f_exp f - 1075) m) = None).
  { unfold special_text. cbn [f_cls]. unfold finite_nonzero in HC. destruct (f_cls f); try discriminate; reflexivity. }
  destruct n; [|congruence|]; cbn [put_real].
  - unfold put_B. rewrite HX, HSp. cbn [f_exp f_mant]. unfold drop_sign. cbn [f_sign].
    destruct (layout_ok Binary 53 m ltac:(lia) ltac:(cbn; lia) ltac:(cbn [radix]; lia)
      plain (str "-0b") (if minus_bit bits then 1 - 1 else 1) (minus_bit bits) (f_exp f - 1075 + 52) (f_exp f - 1075 + 52) 112 53)
      as (I & F & e & E & W1 & W2 & W3 & W4);
      [reflexivity|lia|cbn [per_digit]; lia|reflexivity|lia|intros r; apply (drop_prefixed Binary); exact Hn|].
    exists I, F, e. split; [exact E|]. split; [exact W1|]. split; [exact W2|]. split.
    + eapply same_value_trans; [lia|exact W3|]. cbn [per_digit].
      replace (1 * (f_exp f - 1075 + 52 - (53 - 1))) with (f_exp f - 1075) by lia. exact HV.
    + intros Hp. specialize (W4 Hp). destruct W4 as (W5 & W6 & W7). split; [exact W5|]. split; [exact W6|].
      destruct I as [|d t]; [exact W7|]. rewrite W7. cbn [radix].
      replace (m / 2 ^ (53 - 1)) with 1; [lia|]. apply Z.div_unique with (m - 2 ^ 52); lia.
  - unfold put_X. rewrite HX, HSp. cbn [f_exp f_mant]. unfold drop_sign. cbn [f_sign].
    set (exp1 := f_exp f - 1075 + 52). destruct (shift_pair exp1) as [-> ->].
    pose proof (Z.mod_pos_bound exp1 4 ltac:(lia)) as Hr. pose proof (Z.div_mod exp1 4 ltac:(lia)) as Hd.
    assert (Hp3 : 1 <= 2 ^ (exp1 mod 4) <= 8).
    { change 1 with (2 ^ 0). change 8 with (2 ^ 3). split; apply Z.pow_le_mono_r; lia. }
    set (m' := m * 2 ^ (exp1 mod 4)).
    assert (Hm' : 2 ^ 52 <= m' < 2 ^ 56) by (unfold m'; nia).
    replace (to_u64 (Z.shiftl m (exp1 mod 4))) with m'.
    2:{ rewrite Z.shiftl_mul_pow2 by lia. fold m'. unfold to_u64. symmetry. apply Z.mod_small. lia. }
    destruct (layout_ok Hexadecimal 14 m' ltac:(lia) ltac:(cbn; lia) ltac:(change (radix Hexadecimal ^ 14) with (2 ^ 56); lia)
      plain (str "-0x") (if minus_bit bits then 1 - 1 else 1) (minus_bit bits) (exp1 / 4) (exp1 / 4 * 4) 112 14)
      as (I & F & e & E & W1 & W2 & W3 & W4);
      [reflexivity|unfold exp1 in *; lia|cbn [per_digit]; lia|reflexivity|lia|intros r; apply (drop_prefixed Hexadecimal); exact Hn|].
    exists I, F, e. split; [exact E|]. split; [exact W1|]. split; [exact W2|]. split.
    + eapply same_value_trans; [lia|exact W3|]. eapply same_value_trans; [lia| |exact HV].
      cbn [per_digit]. exists 0, (exp1 mod 4). rewrite Z.pow_0_r, Z.mul_1_r. split; [lia|]. split; [lia|].
      split; [unfold exp1 in *; lia|reflexivity].
    + intros Hp. specialize (W4 Hp). destruct W4 as (W5 & W6 & W7). split; [exact W5|]. split; [exact W6|].
      destruct I as [|d t]; [exact W7|]. rewrite W7. cbn [radix]. change (16 ^ (14 - 1)) with (2 ^ 52).
      assert (1 <= m' / 2 ^ 52) by (apply Z.div_le_lower_bound; lia). lia.
Qed.

(* A literal whose value is a double is read as this double. *)
Lemma exact_read n D E x g : 0 <= D -> Stored n D E x -> n <> Decimal -> 0 < g < infinity ->
  same_value 2 D E (dbl g) (-1074) -> cast_D x = sign_bit (n_sign x) + g.
Proof.
  intros HD HS Hn Hg (s & s' & Hs & Hs' & HE & HV).
  assert (Hg1 : 1 <= dbl g).
  { change 1 with (dbl 1). apply dbl_mono; lia. }
  destruct (cast_D_nearest n D E x HD HS Hn) as (m & -> & HN).
  - unfold just_above_half_least. set (k := Z.max 0 (- (E + 1135))). intros [H1 H2].
    (* D * 2^s = dbl g * 2^s' *)
    assert (HX : D * 2 ^ (E + 1135 + k) * 2 ^ s = dbl g * 2 ^ (61 + k) * 2 ^ s).
    { rewrite <- !Z.mul_assoc, (Z.mul_comm _ (2 ^ s)), !Z.mul_assoc, HV.
      rewrite <- !Z.mul_assoc, <- !Z.pow_add_r by lia. do 2 f_equal. lia. }
    apply Z.mul_cancel_r in HX; [|pose proof (pow2_pos s Hs); lia].
    rewrite HX, (Z.pow_add_r 2 61) in H2 by lia. pose proof (pow2_pos k ltac:(lia)). nia.
  - f_equal. set (k := Z.max 0 (- (E + 1074))).
    apply (nearest_exact k g m); [lia|lia|].
    assert (HX : D * 2 ^ (E + 1074 + k) = dbl g * 2 ^ k).
    { apply (Z.mul_cancel_r _ _ (2 ^ s)); [pose proof (pow2_pos s Hs); lia|].
      rewrite <- !Z.mul_assoc, (Z.mul_comm _ (2 ^ s)), !Z.mul_assoc, HV.
      rewrite <- !Z.mul_assoc, <- !Z.pow_add_r by lia. do 2 f_equal. lia. }
    rewrite <- HX. exact HN.
Qed.

Lemma text_sign l : wf_literal l -> negative l = true <-> l_sign l = Some true.
Proof. intros _. unfold negative. destruct (l_sign l) as [[]|]; split; congruence. Qed.

Lemma significand_nonneg l : wf_literal l -> 0 <= significand l.
Proof.
  intros (H & _). apply positional_nonneg; [destruct (l_notation l); cbn; lia|exact H].
Qed.

(* Integers. *)
Lemma parse_sound a l b i : wf_literal l -> Forall is_white a -> Forall is_white b ->
  std_numeric_parse (a ++ text_of l ++ b) = Ok (Integer i) ->
  l_frac l = None /\ is_int64 i /\ denotes_integer l i.
Proof.
  intros W Ha Hb. destruct (std_parse_ok a l b W Ha Hb) as (x & Hs & HS & ->).
  destruct (l_frac l); [discriminate|]. cbn [andb].
  destruct (snd (cast_I x)) eqn:EX; [|discriminate]. intros HI. injection HI as <-.
  split; [reflexivity|].
  destruct (cast_I_sound _ _ _ x (significand_nonneg l W) HS EX) as (v & HI & Hr & ->).
  rewrite Hs in *. unfold denotes_integer, negative in *.
  unfold is_int64, int64_min, int64_max in *. unfold is_integer in *.
  destruct (l_sign l) as [[]|]; cbn [signed]; split; nia.
Qed.

Lemma cast_I_denotes l x i : wf_literal l -> n_sign x = negative l ->
  Stored (l_notation l) (significand l) (scale l) x ->
  l_notation l <> Hexadecimal \/ significand l < 2 ^ 64 ->
  denotes_integer l i -> is_int64 i -> cast_I x = (i, true).
Proof.
  intros W Hs HS Hx HD Hi.
  set (a := if negative l then - i else i).
  assert (HI : is_integer (power (l_notation l)) (significand l) (scale l) a).
  { unfold denotes_integer, is_integer, a, negative in *. destruct (l_sign l) as [[]|]; cbn [signed] in HD; nia. }
  assert (Ha : 0 <= a).
  { unfold is_integer in HI. pose proof (significand_nonneg l W).
    pose proof (Z.pow_nonneg (power (l_notation l)) (Z.max (scale l) 0) ltac:(pose proof (power_pos (l_notation l)); lia)).
    pose proof (Z.pow_pos_nonneg (power (l_notation l)) (Z.max (- scale l) 0) ltac:(pose proof (power_pos (l_notation l)); lia) ltac:(lia)).
    nia. }
  rewrite (cast_I_complete _ _ _ x (significand_nonneg l W) HS a Hx HI).
  - f_equal. rewrite Hs. unfold a. destruct (negative l); lia.
  - rewrite Hs. unfold a in *. unfold is_int64, int64_min, int64_max in *. destruct (negative l); lia.
Qed.

Lemma parse_complete a l b i : wf_literal l -> Forall is_white a -> Forall is_white b ->
  l_frac l = None -> l_notation l <> Hexadecimal \/ significand l < 2 ^ 64 ->
  denotes_integer l i -> is_int64 i ->
  std_numeric_parse (a ++ text_of l ++ b) = Ok (Integer i).
Proof.
  intros W Ha Hb Hf Hx HD Hi. destruct (std_parse_ok a l b W Ha Hb) as (x & Hs & HS & ->).
  rewrite Hf, (cast_I_denotes l x i W Hs HS Hx HD Hi). reflexivity.
Qed.

Lemma format_int_shape v base ebase n :
  is_int64 v -> base_notation base n -> ebase_fits n ebase ->
  exists l, format_int v base ebase = Ok (text_of l) /\ wf_literal l /\
    l_notation l = n /\ l_capital l = false /\ l_frac l = None /\
    l_sign l = (if v <? 0 then Some true else None) /\
    capitals (l_int l) /\ least_digits 1 (l_int l) /\ denotes_integer l v /\
    match l_exp l with
    | None => ebase = None
    | Some e => ebase <> None /\ (v <> 0 -> significand l mod power n <> 0)
    end.
Proof.
  intros Hv Hb He. destruct (format_int_ok v base ebase n Hv Hb He) as (ds & e & E & W & Hc & Hl & Hd & _ & Hx).
  exists (int_lit n v ds e). repeat (split; [first [assumption|reflexivity]|]).
  cbn [int_lit l_exp]. destruct e; [|exact Hx]. destruct Hx as [H1 H2]. split; [exact H1|].
  unfold significand, frac_digits. cbn [int_lit l_notation l_int l_frac]. rewrite app_nil_r. exact H2.
Qed.

Lemma format_int_trip v base ebase n :
  is_int64 v -> base_notation base n -> ebase_fits n ebase ->
  exists t, format_int v base ebase = Ok t /\ std_numeric_parse t = Ok (Integer v).
Proof.
  intros Hv Hb He. destruct (format_int_ok v base ebase n Hv Hb He) as (ds & e & E & W & Hc & Hl & Hd & Hs & Hx).
  eexists. split; [exact E|].
  rewrite <- (app_nil_r (text_of _)), <- (app_nil_l (_ ++ [])).
  apply parse_complete; auto.
Qed.

Lemma put_get n v p : is_int64 v -> 1 <= p -> (n = Binary -> p < 64) ->
  exists t, put_I n v p = Ok t /\
    (exists x, parse_integer n t = Ok (Some (x, [])) /\ cast_I x = (v, true)) /\
    (exists x, parse_I t = Ok (Some (x, [])) /\ cast_I x = (v, true)).
Proof.
  intros Hv Hp Hn. destruct (put_I_ok n v p Hv Hp Hn) as (ds & E & Hok & Hc & Hval & Hl & Hlen).
  set (l := int_lit n v ds None).
  assert (Hne : ds <> []).
  { intros ->. unfold least_digits in Hl. cbn [length] in Hl. destruct n; cbn [most_digits] in Hl; lia. }
  assert (W : wf_literal l) by (apply wf_int_lit; auto).
  assert (HS : significand l = Z.abs v).
  { unfold significand, frac_digits, l, int_lit. cbn [l_notation l_int l_frac]. rewrite app_nil_r. exact Hval. }
  assert (HD : denotes_integer l v).
  { unfold denotes_integer. rewrite HS. unfold scale, exp_value, frac_digits, l, int_lit, minus.
    cbn [l_notation l_sign l_frac l_exp length]. unfold is_integer. rewrite Z.mul_0_r.
    change (0 - 0) with 0. change (Z.max 0 0) with 0. change (Z.max (- 0) 0) with 0. rewrite !Z.pow_0_r, !Z.mul_1_r.
    destruct (v <? 0) eqn:V; cbn [signed]; lia. }
  assert (HX : l_notation l <> Hexadecimal \/ significand l < 2 ^ 64).
  { right. rewrite HS. unfold is_int64, int64_min, int64_max in Hv. lia. }
  exists (text_of l). split; [exact E|]. split.
  - destruct (parse_integer_ok l W eq_refl) as (x & Hx & Hs & HSt). exists x. split; [exact Hx|].
    exact (cast_I_denotes l x v W Hs HSt HX HD Hv).
  - destruct (parse_I_ok l W eq_refl) as (x & Hx & Hs & HSt). exists x. split; [exact Hx|].
    exact (cast_I_denotes l x v W Hs HSt HX HD Hv).
Qed.

(* Reals. *)
Lemma parse_real_nearest a l b : wf_literal l -> Forall is_white a -> Forall is_white b ->
  l_notation l <> Decimal -> ~ just_above_half_least (significand l) (scale l) ->
  match std_numeric_parse (a ++ text_of l ++ b) with
  | Ok (Integer i) => l_frac l = None /\ is_int64 i /\ denotes_integer l i
  | Ok (Real r) => exists m, r = sign_pattern (negative l) + m /\ nearest_even (significand l) (scale l) m
  | _ => False
  end.
Proof.
  intros W Ha Hb Hn Hj. pose proof (parse_sound a l b) as HSound.
  destruct (std_parse_ok a l b W Ha Hb) as (x & Hs & HS & E). rewrite E in *.
  destruct (_ && _); [apply HSound; auto|].
  destruct (cast_D_nearest _ _ _ x (significand_nonneg l W) HS Hn Hj) as (m & -> & HN).
  exists m. split; [rewrite Hs; reflexivity|exact HN].
Qed.

Lemma put_power2_trip n plain bits : n <> Decimal -> 0 <= bits < 2 ^ 64 -> magnitude bits <= infinity ->
  exists t, put_real n plain bits = Ok t /\
    (exists x, parse_D t = Ok (Some (x, [])) /\ cast_D x = bits) /\
    (std_numeric_parse t = Ok (Real bits) \/
     exists i, std_numeric_parse t = Ok (Integer i) /\ is_int64 i /\ magnitude bits < infinity /\
       real_units bits = i * 2 ^ 1074).
Proof.
  intros Hn Hb Hm. pose proof (Z.mod_pos_bound bits (2 ^ 63) ltac:(lia)) as Hg. fold (magnitude bits) in Hg.
  destruct (Z.eq_dec (magnitude bits) 0) as [Z0|Z0].
  { assert (Hs : put_real n plain bits = Ok ((if minus_bit bits then [45] else []) ++ str "0")).
    { assert (HX : frexp2_52 bits = Frexp Fp_zero (minus_bit bits) 0 0)
        by (unfold frexp2_52; rewrite split_zero by assumption; reflexivity).
      destruct n; [|congruence|]; cbn [put_real]; [unfold put_B|unfold put_X]; rewrite HX; reflexivity. }
    rewrite Hs. rewrite (bits_split bits Hb), Z0, Z.add_0_r.
    assert (HM : minus_bit (sign_bit (minus_bit bits)) = minus_bit bits) by (destruct (minus_bit bits); reflexivity).
    assert (HG : magnitude (sign_bit (minus_bit bits)) = 0) by (destruct (minus_bit bits); reflexivity).
    unfold real_units. rewrite HM, HG. clear HM HG.
    destruct (minus_bit bits); (eexists; split; [reflexivity|]; split; [eexists; split; reflexivity|]; right; exists 0;
      split; [reflexivity|]; split; [unfold is_int64, int64_min, int64_max; lia|]; split; [unfold infinity; lia|reflexivity]). }
  destruct (Z.eq_dec (magnitude bits) infinity) as [I0|I0].
  { assert (Hs : put_real n plain bits = Ok ((if minus_bit bits then [45] else []) ++ str "infinity")).
    { assert (HX : frexp2_52 bits = Frexp Fp_infinity (minus_bit bits) 2047 0)
        by (unfold frexp2_52; rewrite split_infinity by assumption; reflexivity).
      destruct n; [|congruence|]; cbn [put_real]; [unfold put_B|unfold put_X]; rewrite HX; reflexivity. }
    rewrite Hs. rewrite (bits_split bits Hb), I0.
    destruct (minus_bit bits); (eexists; split; [reflexivity|]; split; [eexists; split; reflexivity|]; left; vm_compute; reflexivity). }
  destruct (put_power2_ok n plain bits Hn Hb ltac:(lia)) as (I & F & e & E & W & _ & HV & _).
  set (l := real_lit n (minus_bit bits) I F e) in *.
  exists (text_of l). split; [exact E|].
  assert (HN : negative l = minus_bit bits) by (unfold negative, l, real_lit; cbn [l_sign]; destruct (minus_bit bits); reflexivity).
  assert (HR : forall x, n_sign x = negative l -> Stored (l_notation l) (significand l) (scale l) x -> cast_D x = bits).
  { intros x Hs HS. rewrite (exact_read _ _ _ x (magnitude bits) (significand_nonneg l W) HS Hn ltac:(lia) HV).
    rewrite Hs, HN. symmetry. apply bits_split. exact Hb. }
  split.
  { destruct (parse_D_ok l W) as (x & HP & Hs & HS). exists x. split; [exact HP|]. apply HR; assumption. }
  pose proof (parse_sound [] l []) as HSound.
  destruct (std_parse_ok [] l [] W ltac:(constructor) ltac:(constructor)) as (x & Hs & HS & EP).
  rewrite app_nil_l, app_nil_r in *. rewrite EP in *.
  destruct (_ && _).
  - right. eexists. split; [reflexivity|].
    destruct (HSound _ W ltac:(constructor) ltac:(constructor) eq_refl) as (_ & Hi & HD).
    split; [exact Hi|]. split; [lia|].
    set (i := fst (cast_I x)) in *.
    destruct HV as (s & s' & H0 & H0' & HE & HV).
    unfold denotes_integer, is_integer in HD. change (power (l_notation l)) with (match n with Decimal => 10 | _ => 2 end) in HD.
    assert (Hp : (match n with Decimal => 10 | _ => 2 end) = 2) by (destruct n; [reflexivity|congruence|reflexivity]).
    rewrite Hp in HD.
    set (D := significand l) in *. set (E0 := scale l) in *.
    (* sD * 2^max(E,0) = i * 2^max(-E,0), D * 2^s = g * 2^s', s - s' = E + 1074 *)
    assert (HSg : real_units bits = signed (l_sign l) (dbl (magnitude bits))).
    { unfold real_units, l, real_lit. cbn [l_sign]. destruct (minus_bit bits); reflexivity. }
    rewrite HSg.
    assert (HV2 : signed (l_sign l) D * 2 ^ s = signed (l_sign l) (dbl (magnitude bits)) * 2 ^ s').
    { destruct (l_sign l) as [[]|]; cbn [signed]; lia. }
    set (sD := signed (l_sign l) D) in *. set (u := signed (l_sign l) (dbl (magnitude bits))) in *.
    pose proof (pow2_pos s H0). pose proof (pow2_pos s' H0').
    pose proof (pow2_pos (Z.max E0 0) ltac:(lia)). pose proof (pow2_pos (Z.max (- E0) 0) ltac:(lia)).
    apply (Z.mul_cancel_r _ _ (2 ^ s' * 2 ^ Z.max E0 0)); [nia|].
    transitivity (u * 2 ^ s' * 2 ^ Z.max E0 0); [ring|]. rewrite <- HV2.
    transitivity (sD * 2 ^ Z.max E0 0 * 2 ^ s); [ring|]. rewrite HD.
    rewrite <- !Z.mul_assoc, <- !Z.pow_add_r by lia. do 2 f_equal. lia.
  - left. rewrite (HR x Hs HS). reflexivity.
Qed.

Lemma format_real_put n bits base ebase : base_notation base n -> ebase_fits n ebase ->
  format_real bits base ebase = put_real n (match ebase with None => true | _ => false end) bits.
Proof.
  intros Hb He. unfold format_real.
  assert (HB : (match base with Some b => b | None => 10 end) = radix n).
  { unfold base_notation in Hb. destruct base; [exact Hb|subst n; reflexivity]. }
  rewrite HB. unfold ebase_fits in He. destruct ebase as [e|]; [subst e|]; destruct n; reflexivity.
Qed.

Lemma format_real_trip n bits base ebase : n <> Decimal -> 0 <= bits < 2 ^ 64 -> ~ is_nan bits ->
  base_notation base n -> ebase_fits n ebase ->
  exists t, format_real bits base ebase = Ok t /\
    (exists x, parse_D t = Ok (Some (x, [])) /\ cast_D x = bits) /\
    (std_numeric_parse t = Ok (Real bits) \/
     exists i, std_numeric_parse t = Ok (Integer i) /\ is_int64 i /\ magnitude bits < infinity /\
       real_units bits = i * 2 ^ 1074).
Proof.
  intros Hn Hb Hnan HB He. rewrite (format_real_put n) by assumption.
  apply put_power2_trip; [assumption..|]. unfold is_nan in Hnan. lia.
Qed.

Lemma put_nan n plain bits : 0 <= bits < 2 ^ 64 -> is_nan bits ->
  put_real n plain bits = Ok ((if minus_bit bits then [45] else []) ++ str "nan").
Proof.
  intros Hb Hn. destruct (split_nan bits Hb Hn) as (e & m & HE).
  assert (HX : frexp2_52 bits = Frexp Fp_nan (minus_bit bits) e m) by (unfold frexp2_52; rewrite HE; reflexivity).
  destruct n; cbn [put_real]; [unfold put_B; rewrite HX; reflexivity| |unfold put_X; rewrite HX; reflexivity].
  unfold put_Dec, frexp10_17. rewrite HE. reflexivity.
Qed.
Lemma format_real_nan n bits base ebase : 0 <= bits < 2 ^ 64 -> is_nan bits ->
  base_notation base n -> ebase_fits n ebase ->
  exists t b, format_real bits base ebase = Ok t /\ std_numeric_parse t = Ok (Real b) /\
    is_nan b /\ minus_bit b = minus_bit bits.
Proof.
  intros Hb Hn HB He. rewrite (format_real_put n), put_nan by assumption.
  destruct (minus_bit bits).
  - eexists; exists (2 ^ 63 + 4095 * 2 ^ 51); split; [reflexivity|]. split; [vm_compute; reflexivity|]. split; reflexivity.
  - eexists; exists (4095 * 2 ^ 51); split; [reflexivity|]. split; [vm_compute; reflexivity|]. split; reflexivity.
Qed.

Lemma format_real_shape n bits base ebase : n <> Decimal -> 0 <= bits < 2 ^ 64 -> 0 < magnitude bits < infinity ->
  base_notation base n -> ebase_fits n ebase ->
  exists l, format_real bits base ebase = Ok (text_of l) /\ wf_literal l /\
    l_notation l = n /\ l_capital l = false /\
    l_sign l = (if minus_bit bits then Some true else None) /\
    capitals (l_int l ++ frac_digits l) /\
    same_value 2 (significand l) (scale l) (dbl (magnitude bits)) (-1074) /\
    (ebase <> None -> l_exp l <> None /\ length (l_int l) = 1%nat /\
       match l_int l with [] => False | d :: _ => fst d <> 0 end).
Proof.
  intros Hn Hb Hm HB He. rewrite (format_real_put n) by assumption.
  destruct (put_power2_ok n (match ebase with None => true | _ => false end) bits Hn Hb Hm) as (I & F & e & E & W & HC & HV & HP).
  exists (real_lit n (minus_bit bits) I F e). split; [exact E|]. split; [exact W|].
  split; [reflexivity|]. split; [reflexivity|]. split; [reflexivity|]. split; [exact HC|]. split; [exact HV|].
  intros Hne. apply HP. destruct ebase; [reflexivity|congruence].
Qed.

Lemma format_real_rejects bits base ebase :
  ~ (exists n, base_notation base n /\ ebase_fits n ebase) -> format_real bits base ebase = Throw.
Proof.
  intros H. unfold format_real.
  set (b := match base with Some b => b | None => 10 end).
  assert (HB : forall n, b = radix n -> base_notation base n).
  { intros n Hn. unfold b in Hn. destruct base; [exact Hn|]. destruct n; try discriminate. reflexivity. }
  assert (HE : forall n, b = radix n -> exists e, ebase = Some e /\ (e =? power n) = false).
  { intros n Hn. destruct ebase as [e|].
    - exists e. split; [reflexivity|]. apply Z.eqb_neq. intros ->. apply H. exists n. split; [auto|reflexivity].
    - exfalso. apply H. exists n. split; [auto|exact I]. }
  destruct (b =? 2) eqn:B2.
  { destruct (HE Binary ltac:(cbn; lia)) as (e & -> & HX). cbn [power] in HX. rewrite HX. reflexivity. }
  destruct (b =? 16) eqn:B16.
  { destruct (HE Hexadecimal ltac:(cbn; lia)) as (e & -> & HX). cbn [power] in HX. rewrite HX. reflexivity. }
  destruct (b =? 10) eqn:B10; [|reflexivity].
  destruct (HE Decimal ltac:(cbn; lia)) as (e & -> & HX). cbn [power] in HX. rewrite HX. reflexivity.
Qed.
