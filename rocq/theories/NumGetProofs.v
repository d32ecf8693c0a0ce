(* Proofs about reading numeric literals. *)
From Verif Require Import Base Text Monad Lists NumTables NumGetModel NumSpec.

Local Open Scope Z_scope.

(* Digits *)

Definition digit_all : list digit :=
  flat_map (fun n => [(Z.of_nat n, true); (Z.of_nat n, false)]) (seq 0 16).
Lemma digit_in_all (d : digit) : 0 <= fst d < 16 -> In d digit_all.
Proof.
  destruct d as [v b]; cbn [fst]; intros H.
  apply in_flat_map; exists (Z.to_nat v); split; [apply in_seq; lia|].
  rewrite Z2Nat.id by lia; destruct b; cbn; auto.
Qed.
Lemma digit_sweep (p : digit -> bool) :
  forallb p digit_all = true -> forall d, 0 <= fst d < 16 -> p d = true.
Proof. intros H d Hd; rewrite forallb_forall in H; apply H, digit_in_all, Hd. Qed.

Lemma digit_value_text d : 0 <= fst d < 16 -> digit_value (digit_text d) = fst d.
Proof.
  intros H; apply Z.eqb_eq; revert d H; apply (digit_sweep (fun d => digit_value (digit_text d) =? fst d)).
  vm_compute; reflexivity.
Qed.
Lemma digit_text_range d : 0 <= fst d < 16 -> 48 <= digit_text d <= 102.
Proof.
  intros H. assert (Hb : ((48 <=? digit_text d) && (digit_text d <=? 102))%bool = true).
  { revert d H; apply (digit_sweep (fun d => (48 <=? digit_text d) && (digit_text d <=? 102)))%bool.
    vm_compute; reflexivity. }
  lia.
Qed.
Lemma digit_text_dec d : 0 <= fst d < 10 -> digit_text d = 48 + fst d.
Proof.
  intros H. assert (Hb : ((10 <=? fst d) || (digit_text d =? 48 + fst d))%bool = true).
  { assert (H' : 0 <= fst d < 16) by lia; revert d H' H.
    intros d H' _; revert d H'.
    apply (digit_sweep (fun d => (10 <=? fst d) || (digit_text d =? 48 + fst d)))%bool.
    vm_compute; reflexivity. }
  lia.
Qed.

Lemma positional_app base a b :
  0 < base ->
  positional base (a ++ b) = positional base a * base ^ Z.of_nat (length b) + positional base b.
Proof.
  intros Hb; induction a as [|d t IH]; cbn [app positional]; [lia|].
  rewrite IH, app_length, Nat2Z.inj_add, Z.pow_add_r by lia. ring.
Qed.
Lemma positional_snoc base a d : 0 < base -> positional base (a ++ [d]) = positional base a * base + fst d.
Proof.
  intros; rewrite positional_app by lia; cbn [positional length].
  change (Z.of_nat 1) with 1; change (Z.of_nat 0) with 0; rewrite Z.pow_1_r, Z.pow_0_r; ring.
Qed.
Lemma positional_nonneg base ds : 0 < base -> digits_ok base ds -> 0 <= positional base ds.
Proof.
  intros Hb H; induction H as [|d t H Ht IH]; cbn [positional]; [lia|].
  assert (0 <= base ^ Z.of_nat (length t)) by (apply Z.pow_nonneg; lia). nia.
Qed.

(* The state after reading digits with positional value D, of which fr are after the
   point. *)
Definition good_base (base : Z) : Prop := base = 2 \/ base = 10 \/ base = 16.

Definition Inv (base D fr : Z) (xu : xuint) (ov : bool) : Prop :=
  exists j, 0 <= j /\
    xu_mant xu = D / base ^ j /\
    xu_more xu = negb (D mod base ^ j =? 0) /\
    ov = (0 <? j) /\
    xu_exp xu = j - fr /\
    0 <= xu_mant xu < 2 ^ 64 /\
    (0 < j -> 2 ^ 64 < (xu_mant xu + 1) * base /\ 2 ^ 64 <= D).

Lemma step_inv base D fr xu ov d (pt : bool) :
  good_base base -> 0 <= D -> 0 <= d < base -> Inv base D fr xu ov ->
  xu_has_point xu = pt ->
  let '(m1, o1) := mulm_u (xu_mant xu) base in
  let '(m2, o2) := addm_u m1 d in
  let ovfl' := ov || o1 || o2 in
  let mant' := if ovfl' then xu_mant xu else m2 in
  let more' := if ovfl' then xu_more xu || negb (d =? 0) else xu_more xu in
  let exp1 := if ovfl' then xu_exp xu + 1 else xu_exp xu in
  let exp2 := if pt then exp1 - 1 else exp1 in
  Inv base (D * base + d) (if pt then fr + 1 else fr) (XU exp2 mant' pt true more') ovfl'.
Proof.
  intros Hb HD Hd (j & Hj & Hm & Hmore & Hov & He & Hr & Hbig) Hpt.
  unfold mulm_u, addm_u.
  assert (Hb1 : 2 <= base) by (unfold good_base in Hb; lia).
  set (m := xu_mant xu) in *.
  destruct (Z.eq_dec j 0) as [->|Hj0].
  - change (0 <? 0) with false in Hov. subst ov.
    rewrite Z.pow_0_r, Z.div_1_r in Hm. rewrite Z.pow_0_r, Z.mod_1_r in Hmore.
    change (negb (0 =? 0)) with false in Hmore.
    destruct (m * base <? 2 ^ 64) eqn:E1; cbn [negb orb].
    + replace (to_u64 (m * base)) with (m * base)
        by (unfold to_u64; symmetry; apply Z.mod_small; nia).
      destruct (m * base + d <? 2 ^ 64) eqn:E2; cbn [negb].
      * replace (to_u64 (m * base + d)) with (m * base + d)
          by (unfold to_u64; symmetry; apply Z.mod_small; nia).
        exists 0; cbn [xu_mant xu_more xu_exp].
        rewrite Z.pow_0_r, Z.div_1_r, Z.mod_1_r, Hmore.
        repeat split; try nia; destruct pt; lia.
      * exists 1; cbn [xu_mant xu_more xu_exp].
        rewrite Z.pow_1_r, Z.div_add_l, (Z.div_small d) by lia.
        rewrite (Z.add_comm (D * base) d), Z.mod_add, (Z.mod_small d) by lia.
        rewrite Hmore; cbn [orb].
        repeat split; try nia; destruct pt; lia.
    + exists 1; cbn [xu_mant xu_more xu_exp].
      rewrite Z.pow_1_r, Z.div_add_l, (Z.div_small d) by lia.
      rewrite (Z.add_comm (D * base) d), Z.mod_add, (Z.mod_small d) by lia.
      rewrite Hmore; cbn [orb].
      repeat split; try nia; destruct pt; lia.
  - replace (0 <? j) with true in Hov by lia. subst ov. cbn [orb].
    exists (j + 1); cbn [xu_mant xu_more xu_exp].
    assert (HB : 0 < base ^ j) by (apply Z.pow_pos_nonneg; lia).
    assert (HP : base ^ (j + 1) = base * base ^ j) by (rewrite Z.pow_add_r, Z.pow_1_r by lia; ring).
    assert (Hdiv : (D * base + d) / base ^ (j + 1) = D / base ^ j).
    { rewrite HP, <- Z.div_div by lia. f_equal.
      rewrite Z.div_add_l, Z.div_small by lia; lia. }
    assert (Hmod : (D * base + d) mod base ^ (j + 1) = D mod base ^ j * base + d).
    { pose proof (Z.div_mod (D * base + d) (base ^ (j + 1)) ltac:(lia)) as E.
      pose proof (Z.div_mod D (base ^ j) ltac:(lia)) as E'.
      rewrite Hdiv, HP in E. rewrite HP. nia. }
    rewrite Hdiv, Hmod.
    split; [lia|]. split; [exact Hm|].
    split.
    { rewrite Hmore. pose proof (Z.mod_pos_bound D (base ^ j) HB).
      destruct (D mod base ^ j =? 0) eqn:A; destruct (d =? 0) eqn:B; cbn [negb orb]; nia. }
    split; [lia|]. split; [destruct pt; lia|]. split; [exact Hr|].
    intros _; specialize (Hbig ltac:(lia)); split; [lia|nia].
Qed.

Lemma Inv_eq base D D' fr fr' xu ov :
  D = D' -> fr = fr' -> Inv base D fr xu ov -> Inv base D' fr' xu ov.
Proof. intros -> ->; auto. Qed.

Lemma step_eq base rdxp d r xu ov :
  good_base base -> 0 <= fst d < base -> rdxp <> digit_text d ->
  collect_mantissa base rdxp (digit_text d :: r) xu ov =
  let '(m1, o1) := mulm_u (xu_mant xu) base in
  let '(m2, o2) := addm_u m1 (fst d) in
  let ovfl' := ov || o1 || o2 in
  let mant' := if ovfl' then xu_mant xu else m2 in
  let more' := if ovfl' then xu_more xu || negb (fst d =? 0) else xu_more xu in
  let exp1 := if ovfl' then xu_exp xu + 1 else xu_exp xu in
  let exp2 := if xu_has_point xu then exp1 - 1 else exp1 in
  collect_mantissa base rdxp r (XU exp2 mant' (xu_has_point xu) true more') ovfl'.
Proof.
  intros Hb Hd Hr. cbn [collect_mantissa].
  replace (digit_text d =? rdxp) with false by lia.
  rewrite andb_false_r. rewrite digit_value_text by (unfold good_base in Hb; lia).
  replace (base <=? fst d) with false by lia. reflexivity.
Qed.

Lemma collect_run base rdxp ds r :
  good_base base -> digits_ok base ds -> rdxp < 48 ->
  forall D fr xu ov, 0 <= D -> Inv base D fr xu ov ->
  exists xu' ov',
    collect_mantissa base rdxp (digits_text ds ++ r) xu ov = collect_mantissa base rdxp r xu' ov' /\
    Inv base (D * base ^ Z.of_nat (length ds) + positional base ds)
        (if xu_has_point xu then fr + Z.of_nat (length ds) else fr) xu' ov' /\
    xu_has_point xu' = xu_has_point xu /\
    xu_valid xu' = (xu_valid xu || negb (Nat.eqb (length ds) 0)).
Proof.
  intros Hb Hds Hr. induction Hds as [|d t Hd Ht IH]; intros D fr xu ov HD HI.
  - exists xu, ov. cbn [digits_text map app positional length Nat.eqb negb].
    rewrite orb_false_r. change (Z.of_nat 0) with 0. rewrite Z.pow_0_r, Z.mul_1_r, !Z.add_0_r.
    destruct (xu_has_point xu); auto.
  - cbn [digits_text map app].
    assert (Hlt : 48 <= digit_text d <= 102) by (apply digit_text_range; unfold good_base in Hb; lia).
    rewrite step_eq by (auto; lia).
    pose proof (step_inv base D fr xu ov (fst d) (xu_has_point xu) Hb HD Hd HI eq_refl) as HS.
    destruct (mulm_u (xu_mant xu) base) as [m1 o1].
    destruct (addm_u m1 (fst d)) as [m2 o2].
    cbv zeta in HS |- *.
    edestruct IH as (xu' & ov' & E & HI' & HP & HV); [|exact HS|].
    { unfold good_base in Hb; nia. }
    exists xu', ov'. split; [exact E|].
    cbn [xu_has_point xu_valid] in HI', HP, HV.
    assert (Hb0 : 0 < base) by (unfold good_base in Hb; lia).
    cbn [length positional]. rewrite Nat2Z.inj_succ, Z.pow_succ_r by lia.
    split; [|split; [exact HP|]].
    + eapply Inv_eq; [| |exact HI']; [ring|destruct (xu_has_point xu); lia].
    + rewrite HV; cbn [Nat.eqb negb orb]. rewrite orb_true_r; reflexivity.
Qed.

(* What ends the significant figures. *)
Definition stops (base : Z) (s : bytes) : Prop :=
  match s with [] => True | c :: _ => base <= digit_value c /\ 48 <= c end.
Lemma collect_stop base rdxp s xu ov :
  stops base s -> rdxp < 48 -> collect_mantissa base rdxp s xu ov = (xu, s).
Proof.
  destruct s as [|c r]; [reflexivity|]. intros [H1 H2] Hr. cbn [collect_mantissa].
  replace (c =? rdxp) with false by lia. rewrite andb_false_r.
  replace (base <=? digit_value c) with true by lia. reflexivity.
Qed.

Definition start := XU 0 0 false false false.
Lemma inv_start base : 0 < base -> Inv base 0 0 start false.
Proof.
  intros H; exists 0. cbn. rewrite Z.mod_1_r. repeat split; lia.
Qed.

Definition fr_of (f : option (list digit)) : list digit := match f with None => [] | Some ds => ds end.

Lemma collect_figures base rdxp ip f r :
  good_base base -> digits_ok base (ip ++ fr_of f) -> ip ++ fr_of f <> [] ->
  rdxp < 48 -> (f <> None -> rdxp = 46) -> stops base r ->
  exists xu ov,
    collect_mantissa base rdxp (digits_text ip ++ frac_text f ++ r) start false = (xu, r) /\
    Inv base (positional base (ip ++ fr_of f)) (Z.of_nat (length (fr_of f))) xu ov /\
    xu_valid xu = true.
Proof.
  intros Hb Hds Hne Hr Hf Hstop.
  assert (Hb0 : 0 < base) by (unfold good_base in Hb; lia).
  apply Forall_app in Hds as [Hip Hfr].
  destruct (collect_run base rdxp ip (frac_text f ++ r) Hb Hip Hr 0 0 start false ltac:(lia)
              (inv_start base Hb0)) as (xu1 & ov1 & E1 & I1 & P1 & V1).
  rewrite E1. cbn [start xu_has_point xu_valid orb] in I1, P1, V1. rewrite Z.mul_0_l, Z.add_0_l in I1.
  destruct f as [fp|]; cbn [frac_text fr_of app] in *.
  - rewrite (Hf ltac:(discriminate)) in *.
    change ((str "." ++ digits_text fp) ++ r) with (46 :: digits_text fp ++ r).
    cbn [collect_mantissa]. rewrite P1, Z.eqb_refl. cbn [negb andb].
    set (xu2 := XU (xu_exp xu1) (xu_mant xu1) true (xu_valid xu1) (xu_more xu1)).
    assert (I2 : Inv base (positional base ip) 0 xu2 ov1) by (exact I1).
    destruct (collect_run base 46 fp r Hb Hfr ltac:(lia) (positional base ip) 0 xu2 ov1
                (positional_nonneg _ _ Hb0 Hip) I2) as (xu3 & ov3 & E3 & I3 & P3 & V3).
    rewrite E3, collect_stop by (auto; lia).
    exists xu3, ov3. split; [reflexivity|]. split.
    + rewrite positional_app by lia. cbn [xu2 xu_has_point] in I3. rewrite Z.add_0_l in I3. exact I3.
    + rewrite V3; cbn [xu2 xu_valid]. rewrite V1.
      destruct ip; destruct fp; cbn in *; congruence.
  - rewrite collect_stop by auto. exists xu1, ov1. rewrite app_nil_r in *.
    split; [reflexivity|]. split; [exact I1|]. rewrite V1. destruct ip; cbn in *; congruence.
Qed.

(* The exponent *)

Lemma lxor_m1 d : Z.lxor d (-1) - -1 = - d.
Proof. rewrite Z.lxor_m1_r. unfold Z.lnot. lia. Qed.

Lemma signed_digit (neg : bool) d :
  Z.lxor d (if neg then -1 else 0) - (if neg then -1 else 0) = (if neg then - d else d).
Proof. destruct neg; [apply lxor_m1|]. rewrite Z.lxor_0_r; lia. Qed.

Lemma collect_exponent_run (neg : bool) orig ds :
  digits_ok 10 ds -> Z.abs orig <= 2 ^ 62 ->
  forall X, 0 <= X ->
  X * 10 ^ Z.of_nat (length ds) + positional 10 ds < 10 ^ 18 ->
  collect_exponent (if neg then -1 else 0) orig (digits_text ds)
    (orig + (if neg then - X else X)) false =
  Ok (orig + (if neg then - (X * 10 ^ Z.of_nat (length ds) + positional 10 ds)
              else X * 10 ^ Z.of_nat (length ds) + positional 10 ds), false, []).
Proof.
  intros Hds Ho; induction Hds as [|d t Hd Ht IH]; intros X HX Hlt.
  - cbn [digits_text map collect_exponent positional length]. change (Z.of_nat 0) with 0.
    rewrite Z.pow_0_r, Z.mul_1_r, Z.add_0_r. reflexivity.
  - cbn [positional length] in Hlt |- *.
    rewrite Nat2Z.inj_succ, Z.pow_succ_r in Hlt |- * by lia.
    pose proof (positional_nonneg 10 t ltac:(lia) Ht) as Hp.
    assert (HP : 1 <= 10 ^ Z.of_nat (length t)) by (pose proof (Z.pow_pos_nonneg 10 (Z.of_nat (length t))); lia).
    assert (Hb : 10 * X + fst d < 10 ^ 18) by nia.
    change (10 ^ 18) with 1000000000000000000 in *.
    change (2 ^ 62) with 4611686018427387904 in *.
    cbn [digits_text map collect_exponent]. rewrite digit_value_text by lia.
    replace (10 <=? fst d) with false by lia.
    rewrite signed_digit.
    replace (orig + (if neg then - X else X) - orig) with (if neg then - X else X) by lia.
    assert (H1 : is_int64b (if neg then - X else X) = true)
      by (apply is_int64b_spec; unfold is_int64, int64_min, int64_max; destruct neg; lia).
    assert (H2 : is_int64b ((if neg then - fst d else fst d) + orig) = true)
      by (apply is_int64b_spec; unfold is_int64, int64_min, int64_max; destruct neg; lia).
    rewrite H1, H2. cbn [andb]. unfold mulm_i, addm_i.
    assert (H3 : is_int64b ((if neg then - X else X) * 10) = true)
      by (apply is_int64b_spec; unfold is_int64, int64_min, int64_max; destruct neg; lia).
    rewrite H3. rewrite (to_i64_id ((if neg then - X else X) * 10)) by (apply is_int64b_spec, H3).
    assert (H4 : is_int64b ((if neg then - X else X) * 10 + ((if neg then - fst d else fst d) + orig)) = true)
      by (apply is_int64b_spec; unfold is_int64, int64_min, int64_max; destruct neg; lia).
    rewrite H4, to_i64_id by (apply is_int64b_spec, H4). cbn [negb orb].
    etransitivity; [|etransitivity; [apply (IH (X * 10 + fst d)); nia|]].
    + unfold digits_text. f_equal. destruct neg; lia.
    + do 3 f_equal. destruct neg; ring.
Qed.

Definition base_of (n : notation) := radix n.
Lemma good_radix n : good_base (radix n).
Proof. destruct n; cbv; auto. Qed.

Definition neg_of (s : option bool) : bool := match s with Some true => true | _ => false end.

Lemma is_dec_digit d : 0 <= fst d < 10 -> is_dec (digit_text d) = true.
Proof. intros H; unfold is_dec; rewrite digit_text_dec by lia; lia. Qed.

Lemma exponent_start_text n e :
  digits_ok 10 (e_digits e) -> e_digits e <> [] ->
  exponent_start (radix n) (exp_text n (Some e)) =
  Some (digits_text (e_digits e), neg_of (e_sign e)).
Proof.
  destruct e as [cap sg ds]; cbn [e_digits e_sign]. intros Hds Hne.
  destruct ds as [|d t]; [congruence|].
  inversion_clear Hds as [|? ? Hd _].
  pose proof (is_dec_digit d Hd) as HD. pose proof (digit_text_dec d Hd) as HT.
  unfold exponent_start, exp_text; cbn [e_capital e_sign e_digits].
  destruct sg as [[|]|]; destruct n; destruct cap;
    cbn [mark_text str app sign_text digits_text map radix];
    cbv [Ascii.N_of_ascii Ascii.N_of_digits Z.of_N N.add N.mul Pos.add Pos.mul];
    rewrite ?HD; cbn - [digit_text is_dec]; rewrite ?HD; try reflexivity.
Qed.

Lemma exp_text_stops n e : stops (radix n) (exp_text n e).
Proof.
  destruct e as [[cap sg ds]|]; [|exact I]. destruct n; destruct cap; cbn; split; vm_compute; congruence.
Qed.

Lemma exponent_start_nil b : exponent_start b [] = None.
Proof. reflexivity. Qed.

(* The number stored for a literal *)
Definition Stored (n : notation) (D E : Z) (x : num) : Prop :=
  n_cls x = Cls_normal /\ n_base x = power n /\
  exists j, 0 <= j /\
    n_mant x = D / radix n ^ j /\
    n_more x = negb (D mod radix n ^ j =? 0) /\
    n_exp x = E + per_digit n * j /\
    0 <= n_mant x < 2 ^ 64 /\
    (0 < j -> 2 ^ 64 < (n_mant x + 1) * radix n /\ 2 ^ 64 <= D).

Definition wf_exp (e : option exponent) : Prop :=
  match e with
  | None => True
  | Some e => digits_ok 10 (e_digits e) /\ e_digits e <> [] /\ positional 10 (e_digits e) < 10 ^ 18
  end.
Definition exp_val (e : option exponent) : Z :=
  match e with None => 0 | Some e => signed (e_sign e) (positional 10 (e_digits e)) end.

Lemma inv_j_bound base D fr xu ov ds :
  good_base base -> digits_ok base ds -> D = positional base ds ->
  Inv base D fr xu ov -> xu_exp xu + fr <= Z.of_nat (length ds).
Proof.
  intros Hb Hds HD (j & Hj & Hm & _ & _ & He & Hr & Hbig).
  destruct (Z.eq_dec j 0); [lia|].
  assert (Hb1 : 2 <= base <= 16) by (unfold good_base in Hb; lia).
  assert (HM : 1 <= xu_mant xu) by (specialize (Hbig ltac:(lia)); nia).
  assert (Hlt : D < base ^ Z.of_nat (length ds)).
  { subst D. clear - Hds Hb1. induction Hds as [|d t Hd Ht IH]; cbn [positional length].
    - change (Z.of_nat 0) with 0; rewrite Z.pow_0_r; lia.
    - rewrite Nat2Z.inj_succ, Z.pow_succ_r by lia.
      assert (0 <= base ^ Z.of_nat (length t)) by (apply Z.pow_nonneg; lia). nia. }
  assert (HB : 0 < base ^ j) by (apply Z.pow_pos_nonneg; lia).
  assert (base ^ j <= D).
  { rewrite Hm in HM. pose proof (Z.mul_div_le D (base ^ j) HB). nia. }
  assert (j < Z.of_nat (length ds)); [|lia].
  apply (Z.pow_lt_mono_r_iff base); lia.
Qed.

Lemma collect_literal n rdxp ip f e :
  digits_ok (radix n) (ip ++ fr_of f) -> ip ++ fr_of f <> [] ->
  rdxp < 48 -> (f <> None -> rdxp = 46) -> wf_exp e ->
  Z.of_nat (length (ip ++ fr_of f)) < 2 ^ 60 ->
  exists xu, collect_digits (radix n) rdxp (digits_text ip ++ frac_text f ++ exp_text n e) = Ok (xu, []) /\
    xu_valid xu = true /\
    forall sg, Stored n (positional (radix n) (ip ++ fr_of f))
      (exp_val e - per_digit n * Z.of_nat (length (fr_of f)))
      (Num sg Cls_normal (power n) (xu_exp xu) (xu_mant xu) (xu_more xu)).
Proof.
  intros Hds Hne Hr Hf He Hlen.
  destruct (collect_figures (radix n) rdxp ip f (exp_text n e) (good_radix n) Hds Hne Hr Hf
              (exp_text_stops n e)) as (xu & ov & E & HI & HV).
  pose proof (inv_j_bound (radix n) _ _ _ _ (ip ++ fr_of f) (good_radix n) Hds eq_refl HI) as HJ.
  pose proof HI as (j & Hj & Hm & Hmore & Hov & Hexp & Hrg & Hbig).
  unfold collect_digits. fold start. rewrite E.
  assert (Hx : (if radix n =? 16 then xu_exp xu * 4 else xu_exp xu) = per_digit n * xu_exp xu)
    by (destruct n; cbn [radix per_digit]; cbn; lia).
  rewrite Hx.
  rewrite app_length in Hlen, HJ.
  assert (Ho : Z.abs (per_digit n * xu_exp xu) <= 2 ^ 62).
  { change (2 ^ 62) with (4 * 2 ^ 60). destruct n; cbn [per_digit]; lia. }
  destruct e as [ex|].
  - destruct He as (Hed & Hen & Hlt).
    rewrite exponent_start_text by auto.
    pose proof (collect_exponent_run (neg_of (e_sign ex)) (per_digit n * xu_exp xu) (e_digits ex)
                  Hed Ho 0 ltac:(lia) ltac:(lia)) as HE.
    replace (if neg_of (e_sign ex) then - 0 else 0) with 0 in HE by (destruct (neg_of _); lia).
    rewrite Z.add_0_r, Z.mul_0_l, Z.add_0_l in HE. rewrite HE. cbn [obind].
    eexists; split; [reflexivity|]. cbn [xu_valid]. split; [exact HV|].
    intros sg. split; [reflexivity|]. split; [reflexivity|].
    exists j. cbn [n_mant n_more n_exp xu_mant xu_more xu_exp].
    repeat split; try assumption; try lia.
    cbn [exp_val]. rewrite Hexp.
    destruct (e_sign ex) as [[|]|]; cbn [neg_of signed]; lia.
  - cbn [exp_text]. rewrite exponent_start_nil.
    eexists; split; [reflexivity|]. cbn [xu_valid]. split; [exact HV|].
    intros sg. split; [reflexivity|]. split; [reflexivity|].
    exists j. cbn [n_mant n_more n_exp xu_mant xu_more xu_exp].
    repeat split; try assumption; try lia.
    cbn [exp_val]. rewrite Hexp. lia.
Qed.

(* The parsers on the text of a literal *)

Definition body (l : literal) : bytes :=
  digits_text (l_int l) ++ frac_text (l_frac l) ++ exp_text (l_notation l) (l_exp l).
Lemma text_of_eq l :
  text_of l = sign_text (l_sign l) ++ prefix_text (l_notation l) (l_capital l) ++ body l.
Proof. reflexivity. Qed.

Lemma body_head l : wf_literal l ->
  exists c r, body l = c :: r /\ 46 <= c <= 102 /\ c <> 47 /\
    (l_notation l = Decimal -> c <= 57).
Proof.
  intros (Hds & Hne & _ & _). unfold body, frac_digits in *.
  destruct (l_int l) as [|d t]; cbn [digits_text map app] in *.
  - destruct (l_frac l) as [fp|]; [|congruence].
    exists 46. eexists. split; [reflexivity|]. lia.
  - inversion_clear Hds as [|? ? Hd _].
    exists (digit_text d). eexists. split; [reflexivity|].
    assert (H : 48 <= digit_text d <= 102)
      by (apply digit_text_range; destruct (l_notation l); cbn [radix] in Hd; lia).
    repeat split; try lia.
    intros E; rewrite E in Hd; cbn [radix] in Hd. rewrite digit_text_dec; lia.
Qed.

(* The second byte of a decimal literal is not the letter of a prefix. *)
Lemma lor32_low c : 0 <= c -> Z.lor c 32 = c \/ Z.lor c 32 = c + 32.
Proof.
  intros H. destruct (Z.testbit c 5) eqn:E.
  - left. apply Z.bits_inj'; intros i Hi. rewrite Z.lor_spec.
    change 32 with (2 ^ 5). rewrite Z.pow2_bits_eqb by lia.
    destruct (Z.eqb_spec 5 i); [subst; rewrite E; reflexivity|apply orb_false_r].
  - right. rewrite <- Z.lxor_lor, <- Z.add_nocarry_lxor; [reflexivity| |].
    all: apply Z.bits_inj'; intros i Hi; rewrite Z.land_spec, Z.bits_0;
      change 32 with (2 ^ 5); rewrite Z.pow2_bits_eqb by lia;
      destruct (Z.eqb_spec 5 i); [subst; rewrite E; reflexivity|apply andb_false_r].
Qed.

Definition no_letter (c : Z) : Prop := Z.lor c 32 <> 98 /\ Z.lor c 32 <> 120.
Lemma no_letter_low c : 0 <= c <= 57 -> no_letter c.
Proof. intros H. destruct (lor32_low c); unfold no_letter; lia. Qed.

Definition head_ok (s : bytes) : Prop := match s with [] => True | c :: _ => no_letter c end.
Lemma digits_head ds r : digits_ok 10 ds -> head_ok r -> head_ok (digits_text ds ++ r).
Proof.
  intros H Hr; destruct H as [|d t Hd _]; [exact Hr|]. cbn [digits_text map app head_ok].
  apply no_letter_low. rewrite digit_text_dec; lia.
Qed.
Lemma exp_head e : head_ok (exp_text Decimal e).
Proof. destruct e as [[cap sg ds]|]; [|exact I]. destruct cap; split; vm_compute; congruence. Qed.
Lemma frac_head f r :
  digits_ok 10 (fr_of f) -> head_ok r -> head_ok (frac_text f ++ r).
Proof.
  intros H Hr; destruct f as [ds|]; [|exact Hr]. split; vm_compute; congruence.
Qed.

Lemma body_decimal l : wf_literal l -> l_notation l = Decimal ->
  exists c r, body l = c :: r /\ 46 <= c <= 57 /\ c <> 47 /\ head_ok r.
Proof.
  intros W En. destruct (body_head l W) as (c & r & E & Hc & H47 & H57).
  specialize (H57 En). exists c, r. split; [exact E|]. split; [lia|]. split; [lia|].
  destruct W as (Hds & Hne & _ & _). rewrite En in *. cbn [radix] in Hds.
  unfold body, frac_digits in *. rewrite En in E. destruct (l_int l) as [|d t].
  - destruct (l_frac l) as [fp|]; [|cbn in Hne; congruence].
    injection E as <- <-. cbn [app] in Hds. apply digits_head; [exact Hds|apply exp_head].
  - inversion_clear Hds as [|? ? Hd Ht]. injection E as <- <-.
    apply Forall_app in Ht as [Ht Hf].
    apply digits_head; [exact Ht|]. apply frac_head; [exact Hf|apply exp_head].
Qed.

Lemma choose_base_text l : wf_literal l -> choose_base (text_of l) = radix (l_notation l).
Proof.
  intros W. rewrite text_of_eq.
  destruct (l_notation l) eqn:En.
  - destruct (l_sign l) as [[|]|]; destruct (l_capital l); reflexivity.
  - destruct (body_decimal l W En) as (c & r & E & Hc & H47 & Hr). rewrite E.
    cbn [prefix_text app radix].
    assert (Hn := no_letter_low c ltac:(lia)). unfold no_letter in Hn.
    assert (HR : match r with [] => True | d :: _ => (Z.lor d 32 =? 98) = false /\ (Z.lor d 32 =? 120) = false end).
    { destruct r; [exact I|]. cbn [head_ok] in Hr. unfold no_letter in Hr. lia. }
    destruct (l_sign l) as [[|]|]; cbn [sign_text app]; unfold choose_base.
    1, 2: change (str "-") with [45]; change (str "+") with [43]; cbn [app]; destruct r as [|d r];
      [cbn; reflexivity|]; destruct HR as [HR1 HR2]; rewrite HR1, HR2;
      cbn - [Z.eqb Z.lor]; destruct (c =? 48); reflexivity.
    destruct r as [|d r]; [reflexivity|]. destruct HR as [HR1 HR2]. rewrite HR1, HR2.
    change (10 =? 10) with true.
    replace ((c =? 43) || (c =? 45))%bool with false by lia. cbn [andb].
    destruct (c =? 48); destruct r; reflexivity.
  - destruct (l_sign l) as [[|]|]; destruct (l_capital l); reflexivity.
Qed.

Lemma get_sign_text l : wf_literal l ->
  get_sign (text_of l) =
  (negative l, prefix_text (l_notation l) (l_capital l) ++ body l).
Proof.
  intros W. rewrite text_of_eq. unfold get_sign, negative.
  destruct (l_sign l) as [[|]|]; cbn [sign_text].
  - change (str "-") with [45]. change (str "+") with [43]. cbn. reflexivity.
  - change (str "+") with [43]. cbn. reflexivity.
  - cbn [app].
    assert (H : exists c r, prefix_text (l_notation l) (l_capital l) ++ body l = c :: r /\ 46 <= c).
    { destruct (body_head l W) as (c & r & E & Hc & _). rewrite E.
      destruct (l_notation l); destruct (l_capital l); cbn [prefix_text]; (eexists; eexists; split; [reflexivity|first [lia|vm_compute; congruence]]). }
    destruct H as (c & r & -> & Hc). change (str "-") with [45]. change (str "+") with [43].
    cbn [subseq]. replace (43 =? c) with false by lia. replace (45 =? c) with false by lia. reflexivity.
Qed.

Lemma special_none s c r : s = c :: r -> 46 <= c <= 57 -> get_special_value s = (Cls_normal, s).
Proof.
  intros -> Hc. unfold get_special_value.
  change (str "nan") with [110; 97; 110]. change (str "NaN") with [78; 97; 78].
  change (str "infinity") with [105; 110; 102; 105; 110; 105; 116; 121].
  change (str "Infinity") with [73; 110; 102; 105; 110; 105; 116; 121].
  change (str "inf") with [105; 110; 102]. change (str "Inf") with [73; 110; 102].
  cbn [subseq]. replace (110 =? c) with false by lia. replace (78 =? c) with false by lia.
  replace (105 =? c) with false by lia. replace (73 =? c) with false by lia. reflexivity.
Qed.

Lemma special_text_none l : wf_literal l ->
  get_special_value (prefix_text (l_notation l) (l_capital l) ++ body l) =
  (Cls_normal, prefix_text (l_notation l) (l_capital l) ++ body l).
Proof.
  intros W. destruct (body_head l W) as (c & r & E & Hc & _ & Hd). rewrite E.
  destruct (l_notation l); [| |].
  - destruct (l_capital l); (eapply special_none; [reflexivity|vm_compute; split; congruence]).
  - specialize (Hd eq_refl). eapply special_none; [reflexivity|lia].
  - destruct (l_capital l); (eapply special_none; [reflexivity|vm_compute; split; congruence]).
Qed.

Definition skip_prefix (n : notation) (s : bytes) : bytes :=
  match n with Binary => skip_base_prefix 98 s | Decimal => s | Hexadecimal => skip_base_prefix 120 s end.
Lemma skip_prefix_text n cap r : skip_prefix n (prefix_text n cap ++ r) = r.
Proof. destruct n; destruct cap; reflexivity. Qed.

Lemma text_length l : (length (l_int l ++ frac_digits l) <= length (text_of l))%nat.
Proof.
  rewrite text_of_eq. unfold body, frac_digits. rewrite !app_length.
  unfold digits_text. rewrite map_length.
  destruct (l_frac l); cbn [frac_text]; rewrite ?app_length; unfold digits_text; rewrite ?map_length; cbn; lia.
Qed.

Lemma wf_exp_of l : wf_literal l -> wf_exp (l_exp l).
Proof. intros (_ & _ & _ & H); exact H. Qed.

(* parse_BD, parse_XD or parse_DD, and parse_BI, parse_XI or parse_DI *)
Definition parse_real (n : notation) : bytes -> outcome (option (num * bytes)) :=
  match n with Binary => parse_BD | Decimal => parse_DD | Hexadecimal => parse_XD end.
Definition parse_integer (n : notation) : bytes -> outcome (option (num * bytes)) :=
  match n with Binary => parse_BI | Decimal => parse_DI | Hexadecimal => parse_XI end.

Lemma parse_real_eq n s :
  parse_real n s =
  (let '(sign, s1) := get_sign s in
   special_or sign s1 (fun s2 => finish sign (power n) (collect_digits (radix n) 46 (skip_prefix n s2)))).
Proof. destruct n; reflexivity. Qed.
Lemma parse_integer_eq n s :
  parse_integer n s =
  (let '(sign, s1) := get_sign s in
   finish sign (power n) (collect_digits (radix n) (-1) (skip_prefix n s1))).
Proof. destruct n; reflexivity. Qed.

Lemma parse_real_ok l : wf_literal l ->
  exists x, parse_real (l_notation l) (text_of l) = Ok (Some (x, [])) /\
    n_sign x = negative l /\ Stored (l_notation l) (significand l) (scale l) x.
Proof.
  intros W. rewrite parse_real_eq, get_sign_text by assumption.
  unfold special_or. rewrite special_text_none by assumption.
  rewrite skip_prefix_text. unfold body.
  pose proof W as (Hds & Hne & Hlen & _). pose proof (text_length l) as HL.
  destruct (collect_literal (l_notation l) 46 (l_int l) (l_frac l) (l_exp l) Hds Hne ltac:(lia)
              ltac:(reflexivity) (wf_exp_of l W)) as (xu & E & HV & HS).
  { unfold frac_digits in HL. unfold fr_of. lia. }
  rewrite E. unfold finish. cbn [obind]. rewrite HV.
  eexists; split; [reflexivity|]. split; [reflexivity|]. exact (HS _).
Qed.

Lemma parse_D_ok l : wf_literal l ->
  exists x, parse_D (text_of l) = Ok (Some (x, [])) /\
    n_sign x = negative l /\ Stored (l_notation l) (significand l) (scale l) x.
Proof.
  intros W. unfold parse_D. rewrite choose_base_text by assumption.
  pose proof (parse_real_ok l W) as H. destruct (l_notation l); exact H.
Qed.

Lemma parse_integer_ok l : wf_literal l -> l_frac l = None ->
  exists x, parse_integer (l_notation l) (text_of l) = Ok (Some (x, [])) /\
    n_sign x = negative l /\ Stored (l_notation l) (significand l) (scale l) x.
Proof.
  intros W Hf. rewrite parse_integer_eq, get_sign_text by assumption.
  rewrite skip_prefix_text. unfold body.
  pose proof W as (Hds & Hne & Hlen & _). pose proof (text_length l) as HL.
  destruct (collect_literal (l_notation l) (-1) (l_int l) (l_frac l) (l_exp l) Hds Hne ltac:(lia)
              ltac:(congruence) (wf_exp_of l W)) as (xu & E & HV & HS).
  { unfold frac_digits in HL. unfold fr_of. lia. }
  rewrite E. unfold finish. cbn [obind]. rewrite HV.
  eexists; split; [reflexivity|]. split; [reflexivity|]. exact (HS _).
Qed.

Lemma parse_I_ok l : wf_literal l -> l_frac l = None ->
  exists x, parse_I (text_of l) = Ok (Some (x, [])) /\
    n_sign x = negative l /\ Stored (l_notation l) (significand l) (scale l) x.
Proof.
  intros W Hf. unfold parse_I. rewrite choose_base_text by assumption.
  pose proof (parse_integer_ok l W Hf) as H. destruct (l_notation l); exact H.
Qed.
