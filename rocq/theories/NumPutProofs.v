(* Proofs about writing numbers as text. *)
From Verif Require Import Base Text Monad Lists Bits NumTables NumGetModel NumPutModel NumSpec
  NumGetProofs NumCastProofs NumRoundProofs NumRealProofs.

Local Open Scope Z_scope.


Lemma digit_char_text d : 0 <= d < 16 -> digit_char d = digit_text (d, true).
Proof.
  intros Hd.
  assert (HX : forallb (fun d => digit_char d =? digit_text (d, true)) (map Z.of_nat (seq 0 16)) = true)
    by (vm_compute; reflexivity).
  rewrite forallb_forall in HX. apply Z.eqb_eq, HX, in_map_iff.
  exists (Z.to_nat d). split; [lia|apply in_seq; lia].
Qed.

Lemma digits_text_app a b : digits_text (a ++ b) = digits_text a ++ digits_text b.
Proof. apply map_app. Qed.
Lemma digits_text_length a : length (digits_text a) = length a.
Proof. apply map_length. Qed.
Lemma digits_ok_app b x y : digits_ok b x -> digits_ok b y -> digits_ok b (x ++ y).
Proof. intros; apply Forall_app; split; assumption. Qed.

(* Zeroes. *)
Definition zeros (n : nat) : list digit := repeat (0, true) n.
Lemma zeros_text n : digits_text (zeros n) = repeat 48 n.
Proof. unfold zeros, digits_text. induction n as [|n IH]; cbn [repeat map]; [reflexivity|rewrite IH; reflexivity]. Qed.
Lemma zeros_ok b n : 0 < b -> digits_ok b (zeros n).
Proof. intros; apply Forall_forall; intros d Hd; apply repeat_spec in Hd; subst d; cbn; lia. Qed.
Lemma zeros_capitals n : capitals (zeros n).
Proof. apply Forall_forall; intros d Hd; apply repeat_spec in Hd; subst d; reflexivity. Qed.
Lemma zeros_value b n : positional b (zeros n) = 0.
Proof. unfold zeros. induction n as [|n IH]; cbn [repeat positional]; [reflexivity|rewrite IH; cbn [fst]; lia]. Qed.
Lemma zeros_length n : length (zeros n) = n.
Proof. apply repeat_length. Qed.

(* do_write_digits_backwards *)
Lemma pop_ok base : 2 <= base <= 16 -> forall fuel v acc,
  0 <= v < base ^ Z.of_nat fuel ->
  exists ds, pop_digits fuel base v acc = Ok (digits_text ds ++ acc) /\
    digits_ok base ds /\ capitals ds /\ positional base ds = v /\
    (length ds <= fuel)%nat /\
    match ds with [] => v = 0 | d :: _ => fst d <> 0 end.
Proof.
  intros Hb. induction fuel as [|f IH]; intros v acc Hv.
  - change (base ^ Z.of_nat 0) with 1 in Hv. assert (v = 0) by lia. subst v.
    exists []. repeat split; try constructor.
  - cbn [pop_digits]. destruct (v =? 0) eqn:V0.
    + exists []. cbn. repeat split; try constructor; lia.
    + rewrite Nat2Z.inj_succ, Z.pow_succ_r in Hv by lia.
      pose proof (Z.mod_pos_bound v base ltac:(lia)) as Hm.
      pose proof (Z.div_mod v base ltac:(lia)) as Hd.
      destruct (IH (v / base) (digit_char (v mod base) :: acc)) as (ds & E & Hok & Hcap & Hval & Hlen & Hhd).
      { split; [apply Z.div_pos; lia|apply Z.div_lt_upper_bound; lia]. }
      exists (ds ++ [(v mod base, true)]).
      split; [rewrite E, digits_text_app, <- app_assoc, (digit_char_text (v mod base)) by lia; reflexivity|].
      split; [apply digits_ok_app; [exact Hok|constructor; [cbn; lia|constructor]]|].
      split; [apply Forall_app; split; [exact Hcap|repeat constructor]|].
      split; [rewrite positional_snoc by lia; cbn [fst]; lia|].
      split; [rewrite app_length; cbn; lia|].
      destruct ds as [|d t]; [cbn; lia|exact Hhd].
Qed.


Lemma backwards_ok base v p : 2 <= base <= 16 -> 0 <= v < 2 ^ 64 -> 0 <= p <= 64 ->
  (p < 64 \/ v = 0 \/ 10 <= base /\ p <= 20) ->
  exists ds, write_digits_backwards p base v = Ok (digits_text ds) /\
    digits_ok base ds /\ capitals ds /\ positional base ds = v /\
    least_digits p ds /\ (length ds <= 64)%nat.
Proof.
  intros Hb Hv Hp Hq. unfold write_digits_backwards.
  assert (HP : v < base ^ 64).
  { apply Z.lt_le_trans with (2 ^ 64); [lia|]. apply Z.pow_le_mono_l; lia. }
  destruct (pop_ok base Hb 64 v [] ltac:(exact (conj (proj1 Hv) HP)))
    as (ds & E & Hok & Hcap & Hval & Hlen & Hhd).
  rewrite E, app_nil_r. cbn [obind]. rewrite digits_text_length. unfold stor_size.
  set (nd := Z.of_nat (length ds)) in *. replace (71 - 1 - nd <? 0) with false by lia.
  destruct (71 - 1 - p <? 71 - 1 - nd) eqn:S.
  - replace (71 - 1 - nd - 8 * ((71 - 1 - nd - (71 - 1 - p) + 7) / 8) <? 0) with false.
    2:{ symmetry; apply Z.ltb_ge.
        assert (H8 : 8 * ((71 - 1 - nd - (71 - 1 - p) + 7) / 8) <= p - nd + 7).
        { pose proof (Z.mul_div_le (71 - 1 - nd - (71 - 1 - p) + 7) 8 ltac:(lia)). lia. }
        destruct Hq as [Hq|[Hq|Hq]]; [lia| |lia].
        destruct ds as [|d t]; [change nd with 0 in *|].
        - assert (p - 0 + 7 <= 71 /\ (p < 64 \/ p = 64)) as [_ [Hp64|Hp64]] by lia; [lia|rewrite Hp64; vm_compute; congruence].
        - exfalso. cbn [positional] in Hval. inversion Hok; subst.
          assert (0 < base ^ Z.of_nat (length t)) by (apply Z.pow_pos_nonneg; lia).
          pose proof (positional_nonneg base t ltac:(lia) ltac:(assumption)). nia. }
    exists (zeros (Z.to_nat (71 - 1 - nd - (71 - 1 - p))) ++ ds).
    split; [rewrite digits_text_app, zeros_text; reflexivity|].
    split; [apply digits_ok_app; [apply zeros_ok; lia|exact Hok]|].
    split; [apply Forall_app; split; [apply zeros_capitals|exact Hcap]|].
    split; [rewrite positional_app, zeros_value; lia|].
    rewrite app_length, zeros_length. split; [left; rewrite app_length, zeros_length; lia|lia].
  - exists ds. split; [reflexivity|]. split; [exact Hok|]. split; [exact Hcap|]. split; [exact Hval|].
    split; [|exact Hlen]. unfold least_digits. fold nd.
    destruct (Z.eq_dec nd p); [left; assumption|right]. split; [lia|].
    destruct ds; [exfalso; change nd with 0 in *; lia|exact Hhd].
Qed.

Lemma abs_value_ok v : is_int64 v -> abs_value v = Z.abs v.
Proof.
  unfold is_int64, abs_value, to_u64, int64_min, int64_max. intros Hv.
  destruct (Z.eq_dec v 0) as [->|]; [reflexivity|].
  destruct (Z_lt_ge_dec v 0).
  - replace (v mod 2 ^ 64) with (v + 2 ^ 64).
    2:{ rewrite <- (Z.mod_add v 1) by lia. rewrite Z.mod_small; lia. }
    replace ((- (v + 2 ^ 64)) mod 2 ^ 64) with (- v).
    2:{ rewrite <- (Z.mod_add _ 1) by lia. rewrite Z.mod_small; lia. }
    lia.
  - rewrite (Z.mod_small v) by lia.
    replace ((- v) mod 2 ^ 64) with (2 ^ 64 - v).
    2:{ rewrite <- (Z.mod_add _ 1) by lia. rewrite Z.mod_small; lia. }
    lia.
Qed.

Definition put_I (n : notation) : Z -> Z -> outcome bytes :=
  match n with Binary => put_BI | Decimal => put_DI | Hexadecimal => put_XI end.
Definition most_digits (n : notation) : Z :=
  match n with Binary => 64 | Decimal => 20 | Hexadecimal => 16 end.
Definition minus (v : Z) : option bool := if v <? 0 then Some true else None.
Definition int_lit (n : notation) (v : Z) (ds : list digit) (e : option exponent) : literal :=
  Lit (minus v) n false ds None e.

Lemma text_int n v ds e : text_of (int_lit n v ds e) =
  (if v <? 0 then [45] else []) ++ prefix_text n false ++ digits_text ds ++ exp_text n e.
Proof. unfold text_of, int_lit, minus. cbn [l_sign l_notation l_capital l_int l_frac l_exp frac_text].
  destruct (v <? 0); reflexivity. Qed.

Lemma small_decimal_sweep : forallb (fun v =>
    match small_decimal v with
    | Ok t => let ds := map (fun c => (c - 48, true)) t in
        forallb (fun d : digit => (0 <=? fst d) && (fst d <? 10)) ds
        && (positional 10 ds =? v)
        && match ds with [] => false | d :: r => negb (fst d =? 0) || (length r =? 0)%nat end
        && (length ds <=? 4)%nat
    | _ => false
    end) (map Z.of_nat (seq 0 2048)) = true.
Proof. vm_compute. reflexivity. Qed.

Lemma small_decimal_ok v : 0 <= v < 2048 ->
  exists ds, small_decimal v = Ok (digits_text ds) /\ digits_ok 10 ds /\ capitals ds /\
    positional 10 ds = v /\ least_digits 1 ds /\ (length ds <= 4)%nat.
Proof.
  intros Hv. pose proof small_decimal_sweep as H. rewrite forallb_forall in H.
  specialize (H v). assert (Hin : In v (map Z.of_nat (seq 0 2048))).
  { apply in_map_iff. exists (Z.to_nat v). split; [lia|apply in_seq; lia]. }
  specialize (H Hin). destruct (small_decimal v) as [t| |]; [|discriminate..]. cbv zeta in H.
  apply andb_prop in H as [H H4]. apply andb_prop in H as [H H3]. apply andb_prop in H as [H1 H2].
  exists (map (fun c => (c - 48, true)) t).
  assert (Hok : digits_ok 10 (map (fun c => (c - 48, true)) t)).
  { apply Forall_forall. intros d Hd. rewrite forallb_forall in H1. specialize (H1 d Hd). lia. }
  split; [|split; [exact Hok|split; [|split; [lia|split]]]].
  - f_equal. clear -Hok. induction t as [|c t IH]; [reflexivity|]. cbn [map] in Hok. inversion Hok; subst.
    unfold digits_text in *. cbn [map]. rewrite <- IH by assumption.
    rewrite digit_text_dec by (cbn [fst] in *; assumption). cbn [fst]. f_equal. lia.
  - clear. induction t; constructor; [reflexivity|assumption].
  - destruct (map _ t) as [|d r]; [discriminate|]. apply orb_prop in H3 as [H3|H3].
    + unfold least_digits. cbn [length]. destruct r; [left; reflexivity|right]. cbn [length].
      split; [lia|]. apply negb_true_iff in H3. lia.
    + left. destruct r; [reflexivity|discriminate].
  - apply Nat.leb_le in H4. exact H4.
Qed.

Lemma put_I_ok n v p : is_int64 v -> 1 <= p -> (n = Binary -> p < 64) ->
  exists ds, put_I n v p = Ok (text_of (int_lit n v ds None)) /\
    digits_ok (radix n) ds /\ capitals ds /\ positional (radix n) ds = Z.abs v /\
    least_digits (Z.min p (most_digits n)) ds /\ (length ds <= 64)%nat.
Proof.
  intros Hv Hp Hn.
  assert (Ha : 0 <= Z.abs v < 2 ^ 64) by (unfold is_int64, int64_min, int64_max in Hv; lia).
  assert (HG : exists ds, write_digits_backwards (Z.min p (most_digits n)) (radix n) (abs_value v) = Ok (digits_text ds) /\
    digits_ok (radix n) ds /\ capitals ds /\ positional (radix n) ds = Z.abs v /\
    least_digits (Z.min p (most_digits n)) ds /\ (length ds <= 64)%nat).
  { rewrite abs_value_ok by exact Hv.
    destruct n; cbn [most_digits radix] in *; apply backwards_ok; try lia. }
  destruct HG as (ds & E & Hok & Hcap & Hval & Hleast & Hlen).
  assert (Hpre : forall mark, prefix_text n false = [48; mark] -> forall ds', (length ds' <= 64)%nat ->
            (if stor_size - 1 - Z.of_nat (length (digits_text ds')) - 4 <? 0 then UB
             else Ok ((if v <? 0 then [45] else []) ++ [48; mark] ++ digits_text ds'))
            = Ok (text_of (int_lit n v ds' None))).
  { intros mark Hm ds' Hl. rewrite digits_text_length. unfold stor_size.
    replace (71 - 1 - Z.of_nat (length ds') - 4 <? 0) with false by lia.
    rewrite text_int, Hm. cbn [exp_text]. rewrite app_nil_r. reflexivity. }
  destruct n; cbn [put_I most_digits radix] in *.
  - exists ds. split; [|tauto]. unfold put_BI, put_prefixed. rewrite E. cbn [obind]. apply Hpre; [reflexivity|exact Hlen].
  - unfold put_DI. destruct ((p =? 1) && (abs_value v <? 2048)) eqn:SM.
    + rewrite abs_value_ok in * by exact Hv. apply andb_prop in SM as [Hp1 Hlt].
      destruct (small_decimal_ok (Z.abs v) ltac:(lia)) as (ds' & E' & Hok' & Hcap' & Hval' & Hleast' & Hlen').
      exists ds'. rewrite E'. cbn [obind].
      split; [rewrite text_int; cbn [prefix_text exp_text app]; rewrite app_nil_r; reflexivity|].
      replace (Z.min p 20) with 1 by lia. repeat split; try assumption. lia.
    + exists ds. split; [|tauto]. rewrite E. cbn [obind]. rewrite digits_text_length. unfold stor_size.
      replace (71 - 1 - Z.of_nat (length ds) - 1 <? 0) with false by lia.
      rewrite text_int. cbn [prefix_text exp_text app]. rewrite app_nil_r. reflexivity.
  - exists ds. split; [|tauto]. unfold put_XI, put_prefixed. rewrite E. cbn [obind]. apply Hpre; [reflexivity|exact Hlen].
Qed.

(* std.numeric.format *)
Lemma decompose_ok b : 2 <= b -> forall fuel v e, Z.abs v < b ^ Z.of_nat fuel -> 0 <= e ->
  exists m k, decompose_integer fuel b v e = Ok (m, e + k) /\ 0 <= k <= Z.of_nat fuel /\
    v = m * b ^ k /\ (v <> 0 -> m mod b <> 0) /\ (v = 0 -> k = 0).
Proof.
  intros Hb. induction fuel as [|f IH]; intros v e Hv He.
  - change (b ^ Z.of_nat 0) with 1 in Hv. assert (v = 0) by lia. subst v.
    exists 0, 0. cbn. rewrite Z.add_0_r. repeat split; try lia.
  - cbn [decompose_integer]. destruct (v =? 0) eqn:V0.
    + exists v, 0. rewrite Z.add_0_r. repeat split; try lia.
    + rewrite Nat2Z.inj_succ, Z.pow_succ_r in Hv by lia.
      destruct (Z.rem v b =? 0) eqn:R0.
      * assert (HQ : v = b * (v ÷ b)) by (apply Z.quot_exact; lia).
        destruct (IH (v ÷ b) (e + 1)) as (m & k & E & Hk & HE & HM & _).
        { rewrite HQ in Hv at 1. rewrite Z.abs_mul in Hv. nia. }
        { lia. }
        exists m, (k + 1). rewrite E. split; [f_equal; f_equal; lia|]. split; [lia|].
        split; [rewrite Z.pow_add_r, Z.pow_1_r by lia; rewrite Z.mul_assoc, <- HE; lia|].
        split; [intros _; apply HM; intros HZ; rewrite HZ in HQ; lia|lia].
      * exists v, 0. rewrite Z.add_0_r. split; [reflexivity|]. split; [lia|]. split; [lia|].
        split; [|lia]. intros _ HM. apply Z.eqb_neq in R0. apply R0, Z.rem_divide; [lia|]. apply Z.mod_divide; [lia|exact HM].
Qed.

Lemma append_exponent_ok t n k : 0 <= k <= 64 ->
  exists es, append_exponent t (match n with Decimal => 101 | _ => 112 end) k
             = Ok (t ++ exp_text n (Some (Expo false (Some false) es))) /\
    digits_ok 10 es /\ es <> [] /\ positional 10 es = k /\ (length es <= 64)%nat.
Proof.
  intros Hk. destruct (put_I_ok Decimal k 2) as (es & E & Hok & Hcap & Hval & Hleast & Hlen).
  - unfold is_int64, int64_min, int64_max. lia.
  - lia.
  - discriminate.
  - cbn [put_I radix most_digits] in *. exists es. unfold append_exponent. rewrite E. cbn [obind].
    replace (0 <=? k) with true by lia. split; [|split; [exact Hok|split; [|split; [lia|exact Hlen]]]].
    + f_equal. f_equal. rewrite text_int. replace (k <? 0) with false by lia.
      cbn [prefix_text exp_text mark_text e_capital e_sign e_digits sign_text app]. rewrite app_nil_r.
      destruct n; reflexivity.
    + intros ->. unfold least_digits in Hleast. cbn in Hleast. lia.
Qed.


Lemma wf_int_lit n v ds e :
  digits_ok (radix n) ds -> ds <> [] -> (length ds <= 64)%nat ->
  match e with
  | None => True
  | Some e => digits_ok 10 (e_digits e) /\ e_digits e <> [] /\ positional 10 (e_digits e) < 10 ^ 18 /\
              (length (e_digits e) <= 64)%nat
  end -> wf_literal (int_lit n v ds e).
Proof.
  intros Hok Hne Hlen He. unfold wf_literal, int_lit, frac_digits. cbn [l_notation l_int l_frac l_exp].
  rewrite app_nil_r. split; [exact Hok|]. split; [exact Hne|]. split.
  - fold (int_lit n v ds e). rewrite text_int, !app_length, digits_text_length.
    assert ((length (prefix_text n false) <= 2)%nat) by (destruct n; vm_compute; lia).
    assert ((length (if (v <? 0)%Z then [45%Z] else []) <= 1)%nat) by (destruct (v <? 0); vm_compute; lia).
    assert ((length (exp_text n e) <= 66)%nat).
    { destruct e as [e|]; [|cbn; lia]. destruct He as (_ & _ & _ & He).
      unfold exp_text. rewrite !app_length, digits_text_length.
      assert ((length (mark_text n (e_capital e)) <= 1)%nat) by (destruct n, (e_capital e); vm_compute; lia).
      assert ((length (sign_text (e_sign e)) <= 1)%nat) by (destruct (e_sign e) as [[]|]; vm_compute; lia).
      lia. }
    lia.
  - destruct e as [e|]; [|exact I]. tauto.
Qed.

Lemma format_int_ok v base ebase n :
  is_int64 v -> base_notation base n -> ebase_fits n ebase ->
  exists ds e, format_int v base ebase = Ok (text_of (int_lit n v ds e)) /\
    wf_literal (int_lit n v ds e) /\ capitals ds /\ least_digits 1 ds /\
    denotes_integer (int_lit n v ds e) v /\ significand (int_lit n v ds e) < 2 ^ 64 /\
    match e with
    | None => ebase = None
    | Some e => ebase <> None /\ (v <> 0 -> positional (radix n) ds mod power n <> 0)
    end.
Proof.
  intros Hv Hb He.
  set (with_exp := fun (eb delim : Z) (put : Z -> Z -> outcome bytes) =>
    match ebase with
    | None => put v 1
    | Some e =>
        if e =? eb then
          do p <- decompose_integer 64 eb v 0 ;
          do t <- put (fst p) 1 ;
          append_exponent t delim (snd p)
        else Throw
    end).
  assert (HF : format_int v base ebase = with_exp (power n) (match n with Decimal => 101 | _ => 112 end) (put_I n)).
  { unfold format_int. unfold base_notation in Hb. destruct base as [b|]; [subst b|subst n; reflexivity].
    destruct n; reflexivity. }
  rewrite HF. unfold with_exp.
  assert (HA : Z.abs v < 2 ^ 64) by (unfold is_int64, int64_min, int64_max in Hv; lia).
  assert (Hsg : forall a, Z.abs v = a -> signed (minus v) a = v).
  { intros a Ha. unfold minus. destruct (v <? 0) eqn:V; cbn [signed]; lia. }
  assert (HU : forall p, 1 <= p -> Z.min 1 (most_digits n) = 1) by (intros; destruct n; reflexivity).
  unfold ebase_fits in He. destruct ebase as [eb|].
  - subst eb. rewrite Z.eqb_refl.
    assert (Hp : 2 <= power n) by apply power_pos.
    destruct (decompose_ok (power n) Hp 64 v 0) as (m & k & E & Hk & HE & HM & HZ).
    { apply Z.lt_le_trans with (2 ^ 64); [exact HA|]. apply Z.pow_le_mono_l. lia. }
    { lia. }
    rewrite E. cbn [obind fst snd]. rewrite Z.add_0_l.
    pose proof (Z.pow_pos_nonneg (power n) k ltac:(lia) ltac:(lia)) as HPK.
    assert (Hm : is_int64 m).
    { unfold is_int64, int64_min, int64_max in *. rewrite HE in Hv. nia. }
    destruct (put_I_ok n m 1 Hm ltac:(lia) ltac:(lia)) as (ds & Ed & Hok & Hcap & Hval & Hleast & Hlen).
    rewrite Ed. cbn [obind].
    destruct (append_exponent_ok (text_of (int_lit n m ds None)) n k ltac:(lia)) as (es & Ea & Heok & Hene & Heval & Helen).
    exists ds, (Some (Expo false (Some false) es)).
    rewrite (HU 1 ltac:(lia)) in Hleast.
    assert (Hne : ds <> []) by (intros ->; unfold least_digits in Hleast; cbn in Hleast; lia).
    assert (Hneg : (m <? 0) = (v <? 0)).
    { destruct (m <? 0) eqn:M, (v <? 0) eqn:V; try reflexivity; nia. }
    split.
    { rewrite Ea. f_equal. rewrite !text_int, <- !app_assoc, Hneg. cbn [exp_text app]. reflexivity. }
    split; [apply wf_int_lit; try assumption; cbn [e_digits]; repeat split; try assumption; lia|].
    split; [exact Hcap|]. split; [exact Hleast|].
    assert (HS : significand (int_lit n v ds (Some (Expo false (Some false) es))) = Z.abs m).
    { unfold significand, int_lit, frac_digits. cbn [l_notation l_int l_frac]. rewrite app_nil_r. exact Hval. }
    split.
    { unfold denotes_integer. rewrite HS.
      unfold int_lit, scale, exp_value, frac_digits. cbn [l_notation l_int l_frac l_sign l_exp length e_sign e_digits signed].
      rewrite Heval. rewrite Z.mul_0_r, Z.sub_0_r. unfold is_integer.
      replace (Z.max k 0) with k by lia. replace (Z.max (- k) 0) with 0 by lia. rewrite Z.pow_0_r, Z.mul_1_r.
      assert (signed (minus v) (Z.abs m) = m).
      { unfold minus. rewrite <- Hneg. destruct (m <? 0) eqn:M; cbn [signed]; lia. }
      rewrite H. symmetry. exact HE. }
    split; [rewrite HS; unfold is_int64, int64_min, int64_max in Hm; lia|].
    split; [discriminate|]. intros Hv0. rewrite Hval. intros HX. apply (HM Hv0).
    apply Z.mod_divide in HX; [|lia]. apply Z.mod_divide; [lia|]. apply Z.divide_abs_r. exact HX.
  - destruct (put_I_ok n v 1 Hv ltac:(lia) ltac:(lia)) as (ds & Ed & Hok & Hcap & Hval & Hleast & Hlen).
    rewrite (HU 1 ltac:(lia)) in Hleast.
    assert (Hne : ds <> []) by (intros ->; unfold least_digits in Hleast; cbn in Hleast; lia).
    exists ds, None. split; [exact Ed|]. split; [apply wf_int_lit; auto|]. split; [exact Hcap|]. split; [exact Hleast|].
    assert (HS : significand (int_lit n v ds None) = Z.abs v).
    { unfold significand, int_lit, frac_digits. cbn [l_notation l_int l_frac]. rewrite app_nil_r. exact Hval. }
    split; [|split; [rewrite HS; exact HA|reflexivity]].
    unfold denotes_integer. rewrite HS. unfold int_lit, scale, exp_value, frac_digits.
    cbn [l_notation l_int l_frac l_sign l_exp length]. rewrite Hsg by reflexivity.
    rewrite Z.mul_0_r. unfold is_integer. change (0 - 0) with 0. change (Z.max 0 0) with 0. change (Z.max (- 0) 0) with 0. lia.
Qed.

Lemma format_int_rejects v base ebase :
  ~ (exists n, base_notation base n /\ ebase_fits n ebase) -> format_int v base ebase = Throw.
Proof.
  intros H. unfold format_int.
  set (b := match base with Some b => b | None => 10 end).
  assert (HB : forall n, b = radix n -> base_notation base n).
  { intros n Hn. unfold b in Hn. destruct base; [exact Hn|]. destruct n; try discriminate. reflexivity. }
  assert (HE : forall n, b = radix n -> exists e, ebase = Some e /\ (e =? power n) = false).
  { intros n Hn. destruct ebase as [e|].
    - exists e. split; [reflexivity|]. apply Z.eqb_neq. intros ->. apply H. exists n. split; [auto|reflexivity].
    - exfalso. apply H. exists n. split; [auto|exact I]. }
  destruct (b =? 2) eqn:B2.
  { destruct (HE Binary ltac:(cbn; lia)) as (e & -> & HX). cbn [power] in HX. rewrite HX. reflexivity. }
  destruct (b =? 16) eqn:B16.
  { destruct (HE Hexadecimal ltac:(cbn; lia)) as (e & -> & HX). cbn [power] in HX. rewrite HX. reflexivity. }
  destruct (b =? 10) eqn:B10; [|reflexivity].
  destruct (HE Decimal ltac:(cbn; lia)) as (e & -> & HX). cbn [power] in HX. rewrite HX. reflexivity.
Qed.

(* std.numeric.parse *)
Lemma digits_low ds : digits_ok 16 ds -> Forall (fun c => 48 <= c) (digits_text ds).
Proof.
  intros H. apply Forall_map. eapply Forall_impl; [|exact H]. intros d Hd.
  pose proof (digit_text_range d Hd). lia.
Qed.
Lemma digits_ok_16 n ds : digits_ok (radix n) ds -> digits_ok 16 ds.
Proof. intros H. eapply Forall_impl; [|exact H]. intros d Hd. destruct n; cbn in Hd; cbn; lia. Qed.

Lemma Forall_weak (P Q : Z -> Prop) l : (forall c, P c -> Q c) -> Forall P l -> Forall Q l.
Proof. intros H. apply Forall_impl. exact H. Qed.

Definition dark (c : Z) : Prop := 43 <= c /\ c <> 46.
Lemma text_chars l : wf_literal l ->
  exists a f b, text_of l = a ++ f ++ b /\ Forall dark a /\ Forall dark b /\
    (l_frac l = None /\ f = [] \/ l_frac l <> None /\ exists g, f = 46 :: g /\ Forall dark g).
Proof.
  intros (Hds & _ & _ & He). apply Forall_app in Hds as [Hi Hf].
  exists (sign_text (l_sign l) ++ prefix_text (l_notation l) (l_capital l) ++ digits_text (l_int l)),
    (frac_text (l_frac l)), (exp_text (l_notation l) (l_exp l)).
  assert (HD : forall ds, digits_ok 16 ds -> Forall dark (digits_text ds)).
  { intros ds H. apply Forall_weak with (P := fun c => 48 <= c); [intros; unfold dark; lia|apply digits_low, H]. }
  assert (HS : forall s, Forall dark (sign_text s)).
  { intros [[]|]; repeat constructor; cbn; unfold dark; try lia; vm_compute; congruence. }
  split; [unfold text_of; rewrite <- !app_assoc; reflexivity|].
  split.
  { apply Forall_app; split; [apply HS|]. apply Forall_app; split; [|apply HD, digits_ok_16 with (l_notation l), Hi].
    destruct (l_notation l), (l_capital l); repeat constructor; vm_compute; congruence. }
  split.
  { destruct (l_exp l) as [e|]; [|constructor]. destruct He as [He _]. unfold exp_text.
    apply Forall_app; split; [destruct (l_notation l), (e_capital e); repeat constructor; vm_compute; congruence|].
    apply Forall_app; split; [apply HS|]. apply HD, (digits_ok_16 Decimal), He. }
  unfold frac_digits in Hf. destruct (l_frac l) as [fd|]; [right|left; split; reflexivity].
  split; [discriminate|]. exists (digits_text fd). split; [reflexivity|]. apply HD, digits_ok_16 with (l_notation l), Hf.
Qed.

Lemma space_white c : is_white c -> is_space c = true.
Proof. unfold is_white. cbn [In]. intros H. repeat (destruct H as [<-|H]; [reflexivity|]). destruct H. Qed.
Lemma space_dark c : 43 <= c -> is_space c = false.
Proof. intros H. unfold is_space. cbn [existsb]. repeat (apply orb_false_iff; split; [lia|]). reflexivity. Qed.
Lemma skip_white ws t : Forall is_white ws ->
  skip_spaces (ws ++ t) = skip_spaces t.
Proof.
  induction 1 as [|c ws Hc _ IH]; [reflexivity|]. cbn [app skip_spaces]. rewrite space_white by exact Hc. exact IH.
Qed.
Lemma skip_dark c t : 43 <= c -> skip_spaces (c :: t) = c :: t.
Proof. intros H. cbn [skip_spaces]. rewrite space_dark by exact H. reflexivity. Qed.
Lemma skip_dark_list t r : t <> [] -> Forall (fun c => 43 <= c) t -> skip_spaces (t ++ r) = t ++ r.
Proof. intros Hne H. destruct H as [|c t Hc H]; [congruence|]. apply skip_dark, Hc. Qed.

Lemma std_parse_ok a l b : wf_literal l -> Forall is_white a -> Forall is_white b ->
  exists x, n_sign x = negative l /\ Stored (l_notation l) (significand l) (scale l) x /\
    std_numeric_parse (a ++ text_of l ++ b) =
      (if (match l_frac l with None => true | _ => false end) && snd (cast_I x)
       then Ok (Integer (fst (cast_I x))) else Ok (Real (cast_D x))).
Proof.
  intros W Ha Hb. destruct (parse_D_ok l W) as (x & HP & Hs & HS).
  exists x. split; [exact Hs|]. split; [exact HS|].
  destruct (text_chars l W) as (u & f & v & HT & Hu & Hv & Hf).
  assert (HL : Forall (fun c => 43 <= c) (text_of l)).
  { rewrite HT. apply Forall_app; split; [apply Forall_weak with dark; [intros c [? _]; lia|exact Hu]|].
    apply Forall_app; split; [|apply Forall_weak with dark; [intros c [? _]; lia|exact Hv]].
    destruct Hf as [[_ ->]|[_ (g & -> & Hg)]]; constructor; [lia|].
    apply Forall_weak with dark; [intros c [? _]; lia|exact Hg]. }
  assert (HNE : text_of l <> []).
  { destruct W as (_ & HN & _). unfold text_of. intros HE. apply HN.
    apply app_eq_nil in HE as [_ HE]. apply app_eq_nil in HE as [_ HE]. apply app_eq_nil in HE as [H1 HE].
    apply app_eq_nil in HE as [H2 _]. unfold frac_digits, digits_text in *.
    apply map_eq_nil in H1. rewrite H1. destruct (l_frac l) as [fd|]; [discriminate|reflexivity]. }
  unfold std_numeric_parse. rewrite skip_white by exact Ha. rewrite skip_dark_list by assumption.
  destruct (text_of l ++ b) as [|c0 r0] eqn:EC; [destruct (text_of l); [congruence|discriminate]|].
  rewrite <- EC, rev_app_distr, skip_white by (apply Forall_rev; exact Hb).
  rewrite <- (app_nil_r (rev (text_of l))), skip_dark_list.
  2:{ intros HX. apply HNE. rewrite <- (rev_involutive (text_of l)), HX. reflexivity. }
  2:{ apply Forall_rev, HL. }
  rewrite app_nil_r, rev_involutive, HP. cbn [obind].
  destruct (cast_I x) as [i ex]. cbn [fst snd].
  assert (HPT : existsb (Z.eqb 46) (a ++ text_of l ++ b) = match l_frac l with None => false | _ => true end).
  { assert (HW : forall ws, Forall is_white ws -> existsb (Z.eqb 46) ws = false).
    { induction 1 as [|c ws Hc _ IH]; [reflexivity|]. cbn [existsb]. rewrite IH, orb_false_r.
      unfold is_white in Hc. cbn [In] in Hc. lia. }
    assert (HK : forall ws, Forall dark ws -> existsb (Z.eqb 46) ws = false).
    { induction 1 as [|c ws [_ Hc] _ IH]; [reflexivity|]. cbn [existsb]. rewrite IH, orb_false_r. lia. }
    rewrite HT, !existsb_app, (HW a Ha), (HW b Hb), (HK u Hu), (HK v Hv), orb_false_r. cbn [orb].
    destruct Hf as [[-> ->]|[Hf (g & -> & Hg)]]; [reflexivity|].
    destruct (l_frac l); [reflexivity|congruence]. }
  rewrite HPT. destruct (l_frac l), ex; reflexivity.
Qed.
