(* Proofs about writing a real in decimal: numbers with few digits are found again. *)
From Verif Require Import Base Text Monad Lists Bits NumTables NumGetModel NumPutModel NumSpec DecSpec
  NumGetProofs NumCastProofs NumRoundProofs NumRealProofs NumPutProofs NumFormatProofs NumTripProofs DecProofs DecPutProofs DecReadProofs.

Local Open Scope Z_scope.

Definition stp (mn df : Z) (acc : Z * Z * Z) (div : Z) : Z * Z * Z :=
  let '(b, r_digits, r_mult) := acc in
  let next_digits := to_u64 (r_digits + div / 2) / div in
  let next_mult := to_u64 (r_mult * div) in
  let next_bits := to_u64 (next_digits * next_mult) in
  if to_u64 (next_bits - mn) <=? df then (next_bits, next_digits, next_mult) else acc.
Lemma shorten_steps divs mn df b : shorten divs mn df b = fst (fst (fold_left (stp mn df) divs (b, b, 1))).
Proof.
  unfold shorten. change (fold_left _ divs (b, b, 1)) with (fold_left (stp mn df) divs (b, b, 1)).
  destruct (fold_left (stp mn df) divs (b, b, 1)) as [[x y] z]. reflexivity.
Qed.

Section Find.
Variables (mn df G : Z).
Hypothesis Hmn : 0 < mn.
Hypothesis Hdf : 0 <= df < 450.
Hypothesis HG : mn <= G <= mn + df.
Hypothesis HG3 : (1000 | G).
Hypothesis HGm : G <= 2 * 10 ^ 18.

Lemma only_one x : (1000 | x) -> mn <= x <= mn + df -> x = G.
Proof. destruct HG3 as [a ->]. intros [b ->] H. lia. Qed.
Lemma accepted x : 0 <= x < 2 ^ 64 -> (to_u64 (x - mn) <=? df) = true <-> mn <= x <= mn + df.
Proof. intros H. rewrite Z.leb_le. apply diff_in; lia. Qed.

Lemma stp_try b q rm div : 0 <= q -> 0 < rm -> 2 <= div -> rm * div <= 10 ^ 17 -> q * rm <= 4 * 10 ^ 18 -> q <= 4 * 10 ^ 18 ->
  (1000 | rm * div) ->
  stp mn df (b, q, rm) div = (b, q, rm) /\ ~ mn <= (q + div / 2) / div * (rm * div) <= mn + df \/
  exists q' rm', stp mn df (b, q, rm) div = (G, q', rm') /\ q' * rm' = G /\ (1000 | rm') /\ 0 < rm' <= rm * div /\ 0 <= q'.
Proof.
  intros Hq Hrm Hd H17 Hqr Hq4 H1000. cbn [stp]. cbv zeta.
  assert (Hdd : 0 <= div / 2 <= div) by (split; [apply Z.div_pos; lia|apply Z.div_le_upper_bound; lia]).
  assert (Hdm : div <= 10 ^ 17) by nia.
  rewrite (u64_small (q + div / 2)) by lia. rewrite (u64_small (rm * div)) by nia.
  set (nd := (q + div / 2) / div).
  assert (Hnd : 0 <= nd) by (apply Z.div_pos; lia).
  assert (Hnd2 : nd * div <= q + div).
  { pose proof (Z.mul_div_le (q + div / 2) div ltac:(lia)) as K. fold nd in K. lia. }
  assert (Hnb : nd * (rm * div) <= q * rm + rm * div).
  { replace (nd * (rm * div)) with (nd * div * rm) by ring. nia. }
  assert (Hnb0 : 0 <= nd * (rm * div)) by (apply Z.mul_nonneg_nonneg; nia).
  rewrite (u64_small (nd * (rm * div))) by lia.
  destruct (to_u64 (nd * (rm * div) - mn) <=? df) eqn:E.
  - right. apply accepted in E; [|lia].
    assert (X : nd * (rm * div) = G) by (apply only_one; [apply Z.divide_mul_r, H1000|exact E]).
    exists nd, (rm * div). rewrite X. repeat split; auto; nia.
  - left. split; [reflexivity|]. intros C. apply accepted in C; [congruence|lia].
Qed.
Lemma stp_keep q rm div : 0 <= q -> q * rm = G -> (1000 | rm) -> 0 < rm -> 2 <= div -> rm * div <= 10 ^ 17 ->
  exists q' rm', stp mn df (G, q, rm) div = (G, q', rm') /\ q' * rm' = G /\ (1000 | rm') /\ 0 < rm' <= rm * div /\ 0 <= q'.
Proof.
  intros Hq HqG H1000 Hrm Hd H17.
  destruct (stp_try G q rm div Hq Hrm Hd H17 ltac:(lia) ltac:(nia) (Z.divide_mul_l _ _ _ H1000)) as [[E _]|E]; [|exact E].
  exists q, rm. repeat split; auto; nia.
Qed.

Lemma keeps divs : forall q rm, 0 <= q -> q * rm = G -> (1000 | rm) -> 0 < rm ->
  Forall (fun d => 2 <= d) divs -> rm * fold_right Z.mul 1 divs <= 10 ^ 17 ->
  fst (fst (fold_left (stp mn df) divs (G, q, rm))) = G.
Proof.
  induction divs as [|d divs IH]; intros q rm Hq HqG H1000 Hrm HF HP; [reflexivity|].
  pose proof (Forall_inv HF) as Hd. pose proof (Forall_inv_tail HF) as HF'. cbn beta in Hd. cbn [fold_right fold_left] in *.
  assert (H1 : 1 <= fold_right Z.mul 1 divs).
  { clear - HF'. induction HF' as [|x l Hx _ IH]; cbn [fold_right]; [lia|nia]. }
  assert (Hrd : rm * d <= 10 ^ 17) by nia.
  destruct (stp_keep q rm d Hq HqG H1000 Hrm Hd Hrd) as (q' & rm' & -> & Hq' & Hr' & Hrr & Hq0).
  apply IH; try assumption; [lia|]. nia.
Qed.

Lemma shorten_finds c : mn <= c <= mn + df -> 2 * mn + df - 1 <= 2 * c <= 2 * mn + df ->
  shorten tries mn df c = G.
Proof.
  intros Hc Hmid. rewrite shorten_steps. unfold tries. cbn [fold_left].
  assert (D8 : (1000 | 1 * 100000000)) by (exists 100000; reflexivity).
  assert (D4 : (1000 | 1 * 10000)) by (exists 10; reflexivity).
  destruct (stp_try c c 1 100000000 ltac:(lia) ltac:(lia) ltac:(lia) ltac:(lia) ltac:(lia) ltac:(lia) D8) as [[-> _]|(q & rm & -> & H1 & H2 & H3 & H4)].
  2:{ apply (keeps [10000; 100; 100; 10] q rm); try assumption; [lia|repeat constructor; lia|cbn [fold_right]; lia]. }
  destruct (stp_try c c 1 10000 ltac:(lia) ltac:(lia) ltac:(lia) ltac:(lia) ltac:(lia) ltac:(lia) D4) as [[-> _]|(q & rm & -> & H1 & H2 & H3 & H4)].
  2:{ apply (keeps [100; 100; 10] q rm); try assumption; [lia|repeat constructor; lia|cbn [fold_right]; lia]. }
  (* two digits *)
  set (j := (c + 100 / 2) / 100).
  assert (Hj : 100 * j <= c + 50 < 100 * j + 100).
  { pose proof (Z.div_mod (c + 100 / 2) 100 ltac:(lia)) as K1. pose proof (Z.mod_pos_bound (c + 100 / 2) 100 ltac:(lia)) as K2.
    fold j in K1. change (100 / 2) with 50 in K1, K2. lia. }
  destruct HG3 as [a Ha].
  assert (Hin : mn <= 100 * j <= mn + df) by lia.
  assert (E : stp mn df (c, c, 1) 100 = (100 * j, j, 100)).
  { cbn [stp]. cbv zeta. rewrite (u64_small (c + 100 / 2)) by (change (100 / 2) with 50; lia). fold j.
    change (to_u64 (1 * 100)) with 100. rewrite (u64_small (j * 100)) by lia. rewrite (Z.mul_comm j).
    rewrite (proj2 (accepted (100 * j) ltac:(lia)) Hin). reflexivity. }
  rewrite E. clear E.
  assert (D6 : (1000 | 100 * 100)) by (exists 10; reflexivity).
  destruct (stp_try (100 * j) j 100 100 ltac:(lia) ltac:(lia) ltac:(lia) ltac:(lia) ltac:(lia) ltac:(lia) D6) as [[-> _]|(q & rm & -> & H1 & H2 & H3 & H4)].
  2:{ apply (keeps [10] q rm); try assumption; [lia|repeat constructor; lia|cbn [fold_right]; lia]. }
  assert (D3 : (1000 | 100 * 10)) by (exists 1; reflexivity).
  destruct (stp_try (100 * j) j 100 10 ltac:(lia) ltac:(lia) ltac:(lia) ltac:(lia) ltac:(lia) ltac:(lia) D3) as [[-> C]|(q & rm & -> & _)]; [exfalso|reflexivity].
  apply C. replace ((j + 10 / 2) / 10) with a; [lia|]. change (10 / 2) with 5. apply Z.div_unique with (j + 5 - 10 * a); lia.
Qed.
End Find.

(* D * 10^E is well within half the distance to the next double. *)
Definition well_within (D E m : Z) : Prop :=
  32 * Z.abs (D * 10 ^ Z.max E 0 * 2 ^ 1074 - dbl m * 10 ^ Z.max (- E) 0)
    <= 15 * ((dbl (m + 1) - dbl m) * 10 ^ Z.max (- E) 0).

Lemma well_cross G i D E d g : same_value 10 D E G (i - 341) ->
  32 * Z.abs (D * 10 ^ Z.max E 0 * 2 ^ 1074 - d * 10 ^ Z.max (- E) 0) <= 15 * (g * 10 ^ Z.max (- E) 0) ->
  32 * Z.abs (G * ne i * 2 ^ 1074 - d * pe i) <= 15 * (g * pe i).
Proof.
  intros HS H. apply same_cross in HS. replace (- (i - 341)) with (341 - i) in HS by lia. fold (pe i) (ne i) in HS.
  assert (K1 : 0 < 10 ^ Z.max (- E) 0) by (apply Z.pow_pos_nonneg; lia). pose proof (pe_pos i) as P1. pose proof (ne_pos i) as N1.
  set (K := 10 ^ Z.max (- E) 0) in *. set (T := D * 10 ^ Z.max E 0) in *. set (a := pe i) in *. set (c := ne i) in *.
  set (S := 2 ^ 1074) in *. clearbody K T a c S.
  apply (Z.mul_le_mono_pos_r _ _ K); [exact K1|]. apply (Z.mul_le_mono_nonneg_r _ _ a) in H; [|lia].
  rewrite <- (Z.mul_assoc 32) in *. rewrite <- (Z.abs_eq K) at 1 by lia. rewrite <- (Z.abs_eq a) in H at 1 by lia.
  rewrite <- Z.abs_mul in *. replace ((G * c * S - d * a) * K) with ((T * S - d * K) * a).
  - replace (15 * (g * a) * K) with (15 * (g * K) * a) by ring. exact H.
  - rewrite !Z.mul_sub_distr_r. replace (T * S * a) with (T * a * S) by ring. rewrite HS. ring.
Qed.

Lemma few_digits i D E d g n : 0 < n -> d = n * g -> 2 ^ 52 <= n -> 0 <= g -> 0 < D < 10 ^ 15 ->
  10 ^ 17 * (ne i * 2 ^ 1074) <= d * pe i ->
  32 * Z.abs (D * 10 ^ Z.max E 0 * 2 ^ 1074 - d * 10 ^ Z.max (- E) 0) <= 15 * (g * 10 ^ Z.max (- E) 0) ->
  3 <= E - (i - 341).
Proof.
  intros Hn0 Hd Hn Hg HD HV HW. destruct (Z_lt_ge_dec (E - (i - 341)) 3) as [C|C]; [exfalso|lia].
  assert (K1 : 0 < 10 ^ Z.max (- E) 0) by (apply Z.pow_pos_nonneg; lia). pose proof (pe_pos i) as P1. pose proof (ne_pos i) as N1.
  assert (HP : 10 ^ Z.max E 0 * pe i <= 100 * (ne i * 10 ^ Z.max (- E) 0)).
  { change 100 with (10 ^ 2). unfold pe, ne. rewrite <- !Z.pow_add_r by lia. apply Z.pow_le_mono_r; lia. }
  assert (K2 : 0 < 10 ^ Z.max E 0) by (apply Z.pow_pos_nonneg; lia).
  assert (HS : 0 < 2 ^ 1074) by (apply Z.pow_pos_nonneg; lia).
  set (K := 10 ^ Z.max (- E) 0) in *. set (T := 10 ^ Z.max E 0) in *. set (a := pe i) in *. set (c := ne i) in *.
  set (S := 2 ^ 1074) in *. clearbody K T a c S. clear C.
  (* x = D T S a, y = d K a, z = c S K *)
  set (z := c * S * K). assert (Hz : 0 < z) by (unfold z; apply Z.mul_pos_pos; [apply Z.mul_pos_pos|]; lia).
  set (x := D * T * S * a). set (y := d * K * a).
  assert (H1 : x <= (10 ^ 15 - 1) * (100 * z)).
  { unfold x, z. replace (D * T * S * a) with (D * (T * a * S)) by ring.
    replace (100 * (c * S * K)) with (100 * (c * K) * S) by ring.
    apply Z.mul_le_mono_nonneg; [lia|lia|apply Z.mul_nonneg_nonneg; [apply Z.mul_nonneg_nonneg|]; lia|].
    apply Z.mul_le_mono_nonneg_r; lia. }
  assert (H2 : 10 ^ 17 * z <= y).
  { unfold z, y. replace (10 ^ 17 * (c * S * K)) with (10 ^ 17 * (c * S) * K) by ring.
    replace (d * K * a) with (d * a * K) by ring. apply Z.mul_le_mono_nonneg_r; lia. }
  assert (H3 : 32 * n * (y - x) <= 15 * y).
  { assert (HW' : 32 * (d * K - D * T * S) <= 15 * (g * K)) by lia.
    apply (Z.mul_le_mono_nonneg_r _ _ (n * a)) in HW'; [|apply Z.mul_nonneg_nonneg; lia].
    unfold x, y. replace (32 * n * (d * K * a - D * T * S * a)) with (32 * (d * K - D * T * S) * (n * a)) by ring.
    replace (15 * (d * K * a)) with (15 * (g * K) * (n * a)) by (rewrite Hd; ring). exact HW'. }
  clearbody x y z. clear - H1 H2 H3 Hn Hz.
  (* y (32 n - 15) <= 32 n x *)
  assert (Q1 : (32 * n - 15) * (10 ^ 17 * z) <= (32 * n - 15) * y) by (apply Z.mul_le_mono_nonneg_l; lia).
  assert (Q2 : 32 * n * x <= 32 * n * ((10 ^ 15 - 1) * (100 * z))) by (apply Z.mul_le_mono_nonneg_l; lia).
  assert (Q3 : 2 ^ 52 * z <= n * z) by (apply Z.mul_le_mono_nonneg_r; lia).
  replace ((32 * n - 15) * (10 ^ 17 * z)) with (32 * 10 ^ 17 * (n * z) - 15 * 10 ^ 17 * z) in Q1 by ring.
  replace (32 * n * ((10 ^ 15 - 1) * (100 * z))) with (32 * (10 ^ 17 - 100) * (n * z)) in Q2 by ring.
  replace ((32 * n - 15) * y) with (32 * n * y - 15 * y) in Q1 by ring.
  replace (32 * n * (y - x)) with (32 * n * y - 32 * n * x) in H3 by ring.
  set (u := 32 * n * y) in *. set (v := 32 * n * x) in *. set (w := n * z) in *. clearbody u v w. lia.
Qed.

Lemma frexp10_short bits D E : 0 <= bits < 2 ^ 64 -> 2 ^ 52 <= magnitude bits < infinity -> 0 < D < 10 ^ 15 ->
  well_within D E (magnitude bits) ->
  exists r E', frexp10_17 bits = Ok (Frexp (f_cls (split_double bits)) (minus_bit bits) E' r) /\ same_value 10 r E' D E.
Proof.
  intros Hb Hm HD HW. unfold well_within in HW.
  destruct (frexp10_raw bits Hb ltac:(lia)) as (i & mn & mx & Eq & _ & Hi & G1 & G2 & G3 & G4 & GV & _ & G8).
  set (g := magnitude bits) in *.
  destruct (gap_shape g ltac:(lia)) as (n & e & He & E1 & E2 & Hn & Hs & _).
  assert (Hn52 : 2 ^ 52 <= n).
  { destruct (Z_lt_ge_dec n (2 ^ 52)) as [C|C]; [exfalso|lia]. specialize (Hs C). subst e.
    assert (dbl (2 ^ 52) <= dbl g) by (apply dbl_mono; lia). change (dbl (2 ^ 52)) with (2 ^ 52) in *. rewrite E1 in *. lia. }
  assert (Hd : dbl g = n * (dbl (g + 1) - dbl g)) by (rewrite E2, E1; ring).
  assert (Hg0 : 0 <= dbl (g + 1) - dbl g) by (rewrite E2, E1; pose proof (pow2_pos e He); lia).
  pose proof (few_digits i D E (dbl g) (dbl (g + 1) - dbl g) n ltac:(lia) Hd Hn52 Hg0 HD GV HW) as Hk.
  set (k := E - (i - 341)) in *. set (G := D * 10 ^ k).
  assert (HSV : same_value 10 D E G (i - 341)).
  { exists k, 0. repeat split; unfold G; lia. }
  pose proof (G8 G ltac:(lia) (well_cross _ _ _ _ _ _ HSV HW)) as HGin.
  assert (HG3 : (1000 | G)).
  { exists (D * 10 ^ (k - 3)). unfold G. rewrite <- Z.mul_assoc. change 1000 with (10 ^ 3). rewrite <- Z.pow_add_r by lia. do 2 f_equal. lia. }
  destruct (centre_in mn mx ltac:(lia)) as [Hc1 Hc2].
  assert (HR : shorten tries mn (mx - mn) (mn + (mx - mn) / 2) = G) by (apply shorten_finds; try exact HG3; clear - G1 G2 G3 HGin Hc1 Hc2; lia).
  rewrite HR in Eq. cbv zeta in Eq. rewrite Eq. destruct (10 ^ 18 <=? G) eqn:EC.
  - assert (HGe : G = 10 ^ 18).
    { destruct HG3 as [a Ha]. clear - Ha EC HGin G2 G3. lia. }
    exists (G / 10), (i + 1 - 341). split; [reflexivity|]. rewrite HGe. change (10 ^ 18 / 10) with (10 ^ 17).
    exists 1, k. split; [lia|]. split; [lia|]. split; [unfold k; lia|]. fold G. rewrite HGe. reflexivity.
  - exists G, (i - 341). split; [reflexivity|]. exists 0, k. split; [lia|]. split; [lia|]. split; [unfold k; lia|]. unfold G. lia.
Qed.

(* ---- the text ---- *)

Lemma put_Dec_text plain bits r E : frexp10_17 bits = Ok (Frexp (f_cls (split_double bits)) (minus_bit bits) E r) ->
  finite_nonzero (split_double bits) = true -> 10 ^ 17 <= r < 10 ^ 18 -> -341 <= E <= 292 ->
  exists I F e, put_Dec plain bits = Ok (text_of (real_lit Decimal (minus_bit bits) I F e)) /\
    wf_literal (real_lit Decimal (minus_bit bits) I F e) /\ capitals (I ++ fr_of F) /\
    same_value 10 (significand (real_lit Decimal (minus_bit bits) I F e)) (scale (real_lit Decimal (minus_bit bits) I F e)) r E /\
    (plain = false -> e <> None /\ length I = 1%nat /\ match I with [] => False | d :: _ => fst d <> 0 end).
Proof.
  intros Ef HC Hr HE. unfold put_Dec. rewrite Ef. cbn [obind].
  assert (HSp : special_text (Frexp (f_cls (split_double bits)) (minus_bit bits) E r) = None).
  { unfold special_text. cbn [f_cls]. unfold finite_nonzero in HC. destruct (f_cls (split_double bits)); try discriminate; reflexivity. }
  rewrite HSp. cbn [f_exp f_mant]. unfold drop_sign. cbn [f_sign].
  destruct (layout_ok Decimal 18 r ltac:(lia) ltac:(cbn; lia) ltac:(cbn [radix]; lia)
    plain (str "..-") (if minus_bit bits then 3 - 1 else 3) (minus_bit bits) (E + 17) (E + 17) 101 15)
    as (I & F & e & Eq & W1 & W2 & W3 & W4);
    [reflexivity|lia|cbn [per_digit]; lia|reflexivity|lia|intros t; destruct (minus_bit bits); reflexivity|].
  exists I, F, e. split; [exact Eq|]. split; [exact W1|]. split; [exact W2|]. split.
  - cbn [per_digit power] in W3. replace (1 * (E + 17 - (18 - 1))) with E in W3 by lia. exact W3.
  - intros Hp. destruct (W4 Hp) as (W5 & W6 & W7). split; [exact W5|]. split; [exact W6|].
    destruct I as [|d t]; [exact W7|]. rewrite W7. cbn [radix].
    assert (1 <= r / 10 ^ (18 - 1)) by (apply Z.div_le_lower_bound; lia). lia.
Qed.
