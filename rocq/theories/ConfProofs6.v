(* The whole of load_conf, and the values of numbers. *)
From Verif Require Import Base Text Monad UtfSpec NumGetModel NumSpec NumGetProofs NumCastProofs NumPutProofs NumTripProofs.
From Verif Require Import ConfModel ConfSpec ConfProofs1 ConfProofs2 ConfProofs3 ConfProofs4 ConfProofs5.

Local Open Scope Z_scope.

Lemma of_list_length cs : stream_length (of_list cs) = length cs.
Proof. induction cs as [|c cs IH]; cbn; [reflexivity|rewrite IH; reflexivity]. Qed.
Lemma bom_scalars s : scalars s -> scalars (skip_bom s).
Proof. destruct s as [| | |c s]; cbn; auto. destruct (c =? 65279); cbn; tauto. Qed.

Lemma file_text file cs : all_bytes file -> skip_bom (decode file) = of_list cs <-> text_of_file file cs.
Proof.
  intros HB. split.
  - intros H.
    assert (HD : exists cps, decode file = of_list cps).
    { destruct (decode file) as [| | |c r] eqn:E; cbn [skip_bom] in H.
      - exists []. reflexivity.
      - destruct cs; discriminate.
      - destruct cs; discriminate.
      - destruct (c =? 65279); [exists (c :: cs); cbn; rewrite H; reflexivity|exists cs; exact H]. }
    destruct HD as (cps & HD). destruct (decode_inv _ file cps (le_n _) HB HD) as [HS HF].
    exists cps. split; [exact HS|]. split; [exact HF|]. rewrite HD in H.
    destruct cps as [|c r]; cbn [of_list skip_bom] in H.
    + right. split; [apply of_list_inj; exact H|discriminate].
    + destruct (c =? 65279) eqn:E.
      * left. apply of_list_inj in H. subst. f_equal. lia.
      * right. split; [apply of_list_inj; exact H|]. intros r' [= -> _]. discriminate.
  - intros (cps & HS & -> & H). rewrite decode_text by exact HS.
    destruct H as [->|[-> H]]; [reflexivity|].
    destruct cs as [|c r]; [reflexivity|]. cbn [of_list skip_bom].
    destruct (c =? 65279) eqn:E; [|reflexivity]. exfalso. apply (H r). f_equal. lia.
Qed.

Lemma load_exact file o : all_bytes file ->
  load_conf file = Ok o <-> configuration stored file o.
Proof.
  intros HB. unfold load_conf.
  pose proof (bom_scalars _ (decode_scalars _ file (le_n _) HB)) as HS.
  set (s := skip_bom (decode file)) in *. split.
  - intros H. destruct (pack_whole _ _ (le_n _) _ _ _ H) as (l & E). rewrite E in H.
    destruct (tokens_sound _ _ _ HS E) as (cs & ts & Es & HX & ->).
    destruct (pack_sound _ ts (le_n _) (lexed_good _ _ HX)) as (_ & _ & HO).
    destruct (HO _ _ _ H ltac:(constructor)) as (ts1 & l1 & HM & HD & [(_ & -> & ->)|(f & stk' & r & E' & _)]);
      [|discriminate].
    exists cs, ts1. split; [apply file_text; assumption|]. auto.
  - intros (cs & ts & HT & HX & HM & HD). apply file_text in HT; [|exact HB]. fold s in HT.
    rewrite HT in *. apply scalars_list in HS.
    rewrite (tokens_complete cs ts HX HS) by (rewrite of_list_length; lia).
    destruct (pack_complete 0) as (_ & _ & HC). destruct (HC ts o HM [] HD) as [HC1 _].
    exact (HC1 eq_refl (lexed_good _ _ HX)).
Qed.

Lemma load_fuel file : all_bytes file ->
  let s := skip_bom (decode file) in no_fuel (tokens (S (stream_length s)) s).
Proof.
  intros HB s. apply tokens_fuel; [apply bom_scalars, (decode_scalars _ file (le_n _) HB)|lia].
Qed.

(* Numbers *)
Lemma text_point l : wf_literal l ->
  existsb (Z.eqb 46) (text_of l) = match l_frac l with None => false | _ => true end.
Proof.
  intros W. destruct (text_chars l W) as (u & f & v & HT & Hu & Hv & Hf).
  assert (HK : forall ws, Forall dark ws -> existsb (Z.eqb 46) ws = false).
  { induction 1 as [|c ws [_ Hc] _ IH]; [reflexivity|]. cbn [existsb]. rewrite IH, orb_false_r. lia. }
  rewrite HT, !existsb_app, (HK u Hu), (HK v Hv), orb_false_r. cbn [orb].
  destruct Hf as [[-> ->]|[Hf (g & -> & Hg)]]; [reflexivity|].
  destruct (l_frac l); [reflexivity|congruence].
Qed.

Lemma integer_part_at p D E a s : 2 <= p -> 0 <= s -> 0 <= E + s ->
  integer_part p D E a <-> a * p ^ s <= D * p ^ (E + s) < (a + 1) * p ^ s.
Proof.
  intros Hp Hs HE. unfold integer_part.
  replace (E + s) with (Z.max E 0 + (s - Z.max (- E) 0)) by lia.
  replace (p ^ s) with (p ^ (Z.max (- E) 0 + (s - Z.max (- E) 0))) by (f_equal; lia).
  rewrite !Z.pow_add_r by lia.
  assert (0 < p ^ (s - Z.max (- E) 0)) by (apply Z.pow_pos_nonneg; lia).
  rewrite !Z.mul_assoc. split; intros [H1 H2]; split; nia.
Qed.

Section CAST.
Context (n : notation) (D E : Z) (x : num).
Context (HD : 0 <= D) (HS : Stored n D E x).
Let umax := if n_sign x then 2 ^ 63 else int64_max.

Lemma cast_I_trunc a : (n <> Hexadecimal \/ D < 2 ^ 64) -> integer_part (power n) D E a ->
  (a <= umax -> cast_I_over x = false /\ fst (cast_I x) = if n_sign x then - a else a) /\
  (umax < a -> cast_I_over x = true).
Proof.
  intros Hhex HI. pose proof HS as (Hc & Hb & _). unfold cast_I_over, cast_I. rewrite Hc, Hb. fold umax.
  destruct (stored_split n D E x HD HS) as (w & r & Hw & HDe & Hr & Hmore & He & Hmr & Hbig).
  pose proof (power_pos n) as Hp. set (p := power n) in *. set (m := n_mant x) in *. set (e := n_exp x) in *.
  assert (HU : 2 ^ 62 < umax < 2 ^ 64) by (unfold umax, int64_max; destruct (n_sign x); lia).
  assert (HP : 1 <= p ^ w) by (pose proof (Z.pow_pos_nonneg p w); lia).
  set (t := Z.max 0 (- e)).
  apply (integer_part_at p D E a (w + t)) in HI; [|lia|lia|unfold t; lia].
  replace (E + (w + t)) with (e + t) in HI by lia. rewrite Z.pow_add_r in HI by (unfold t; lia).
  rewrite HDe in HI.
  assert (HT : 1 <= p ^ t) by (pose proof (Z.pow_pos_nonneg p t); unfold t in *; lia).
  assert (Big : forall k, 100 <= k -> 2 ^ 100 <= p ^ k) by (intros; apply (pw_big n); assumption).
  assert (Last : forall bits, a = bits -> 0 < bits -> (a <= umax -> (umax <? bits) = false /\
            to_i64 (Z.lxor (Z.lxor (to_u64 (bits - umax + int64_max)) int64_max) umax) =
              if n_sign x then - a else a) /\ (umax < a -> (umax <? bits) = true)).
  { intros bits -> Hpos. split; [|lia]. intros Hle. split; [lia|].
    unfold umax in *. apply (last_value (n_sign x) bits). lia. }
  destruct (m =? 0) eqn:M0.
  { assert (Em : m = 0) by lia. assert (Hw0 : w = 0).
    { destruct (Z_lt_ge_dec 0 w) as [Hlt|]; [|lia]. destruct (Hbig Hlt) as [H _]. rewrite Em in H.
      clear - H. destruct n; cbn in H; lia. }
    rewrite Hw0, Z.pow_0_r in *. replace r with 0 in HI by lia. rewrite Em in HI.
    assert (Ea : a = 0) by nia. rewrite Ea. cbn [fst].
    split; [intros _; split; [reflexivity|destruct (n_sign x); reflexivity]|lia]. }
  assert (Hm : 0 < m) by lia.
  destruct (Z_lt_ge_dec e 0) as [Neg|NNeg].
  - assert (Et : t = - e) by (unfold t; lia). rewrite Et in HI. rewrite Et in HT. replace (e + - e) with 0 in HI by lia.
    rewrite Z.pow_0_r, Z.mul_1_r in HI.
    assert (Ea : a = m / p ^ (- e)).
    { apply Z.div_unique_pos with (m - a * p ^ (- e)); [|lia]. split; nia. }
    destruct (e <? -10000) eqn:E1.
    { assert (Ez : a = 0).
      { rewrite Ea. apply Z.div_small. pose proof (Big (- e) ltac:(lia)).
        clear - H Hmr. split; [lia|]. apply Z.lt_le_trans with (2 ^ 64); [lia|].
        apply Z.le_trans with (2 ^ 100); [|exact H]. discriminate. }
      rewrite Ez. cbn [fst]. split; [intros _; split; [reflexivity|destruct (n_sign x); reflexivity]|lia]. }
    replace (10000 <? e) with false by lia. replace (0 <? e) with false by lia. replace (e <? 0) with true by lia.
    destruct (lower_ok p (Z.to_nat (- e)) ltac:(lia) m (n_more x) Hm) as [HL _].
    rewrite Z2Nat.id in HL by lia.
    destruct (lower_mant p (Z.to_nat (- e)) m (n_more x)) as [bits ix]. cbn [fst] in HL.
    rewrite <- HL in Ea.
    destruct (bits =? 0) eqn:B0.
    { assert (Ez : a = 0) by lia. rewrite Ez. cbn [fst].
      split; [intros _; split; [lia|destruct (n_sign x); reflexivity]|lia]. }
    assert (Hbits : 0 < bits) by (rewrite HL; rewrite HL in B0; pose proof (Z.div_pos m (p ^ (- e))); lia).
    destruct (Last bits Ea Hbits) as [L1 L2]. split.
    + intros Hle. destruct (L1 Hle) as [L3 L4]. rewrite L3. cbn [fst]. auto.
    + exact L2.
  - assert (Et : t = 0) by (unfold t; lia). rewrite Et, Z.pow_0_r, Z.mul_1_r, Z.add_0_r in HI.
    replace (e <? -10000) with false by lia.
    assert (HQ : 1 <= p ^ e) by (pose proof (Z.pow_pos_nonneg p e); lia).
    assert (Hge : m * p ^ e <= a).
    { assert (m * p ^ e < a + 1); [|lia]. apply (Z.mul_lt_mono_pos_r (p ^ w)); [lia|].
      apply Z.le_lt_trans with ((m * p ^ w + r) * p ^ e); [nia|lia]. }
    destruct (10000 <? e) eqn:E2.
    { split; [|reflexivity]. intros Hle. exfalso. pose proof (Big e ltac:(lia)) as H.
      assert (2 ^ 100 <= a) by nia. clear - H0 Hle HU.
      assert (2 ^ 64 < 2 ^ 100) by reflexivity. lia. }
    destruct (0 <? e) eqn:E3.
    + destruct (raise_ok p (Z.to_nat e) ltac:(lia) m ltac:(lia)) as [[HR1 HR2]|[HR1 HR2]]; rewrite Z2Nat.id in HR1 by lia.
      * rewrite HR2, Z2Nat.id by lia.
        destruct (Z.eq_dec w 0) as [W0|W0].
        -- rewrite W0, Z.pow_0_r in *. assert (Er : r = 0) by lia. rewrite Er in HI.
           assert (Ea : a = m * p ^ e) by nia.
           destruct (Last (m * p ^ e) Ea ltac:(nia)) as [L1 L2]. split.
           ++ intros Hle. destruct (L1 Hle) as [L3 L4]. rewrite L3. cbn [fst]. auto.
           ++ exact L2.
        -- assert (Ov : umax < m * p ^ e).
           { destruct (Hbig ltac:(lia)) as [H1 H2].
             assert (Hpe : p <= p ^ e) by (rewrite <- (Z.pow_1_r p) at 1; apply Z.pow_le_mono_r; lia).
             assert (Hmp : m * p <= m * p ^ e) by nia.
             destruct Hhex as [Hx|Hx]; [|lia].
             assert (umax <= 2 ^ 63) by (unfold umax, int64_max; destruct (n_sign x); lia).
             clear - H1 Hmp Hx H. destruct n; [| |congruence]; cbn [radix] in H1; subst p; cbn [power] in *; lia. }
           split; [lia|]. intros _. lia.
      * destruct (raise_mant p (Z.to_nat e) m) as [bits o]. cbn [snd] in HR2. rewrite HR2.
        split; [lia|reflexivity].
    + assert (Ee : e = 0) by lia. rewrite Ee in *. replace (0 <? 0) with false by reflexivity.
      rewrite Z.pow_0_r, Z.mul_1_r in *.
      assert (Ea : a = m) by nia.
      destruct (Last m Ea Hm) as [L1 L2]. split.
      * intros Hle. destruct (L1 Hle) as [L3 L4]. rewrite L3. cbn [fst]. auto.
      * exact L2.
Qed.
End CAST.

Lemma number_integer l a : wf_literal l -> l_frac l = None ->
  l_notation l <> Hexadecimal \/ significand l < 2 ^ 64 ->
  integer_part (power (l_notation l)) (significand l) (scale l) a ->
  let i := if negative l then - a else a in
  (is_int64 i -> number_value (text_of l) = Ok (VInt i)) /\
  (~ is_int64 i -> number_value (text_of l) = Throw).
Proof.
  intros W Hf Hx HI i. unfold number_value. rewrite (text_point l W), Hf.
  destruct (parse_I_ok l W Hf) as (x & HP & Hs & HS). rewrite HP. cbn [obind].
  destruct (cast_I_trunc _ _ _ x (significand_nonneg l W) HS a Hx HI) as [H1 H2]. cbv zeta in H1, H2. rewrite Hs in *.
  assert (Ha : 0 <= a).
  { unfold integer_part in HI. pose proof (significand_nonneg l W).
    pose proof (Z.pow_nonneg (power (l_notation l)) (Z.max (scale l) 0) ltac:(pose proof (power_pos (l_notation l)); lia)).
    pose proof (Z.pow_pos_nonneg (power (l_notation l)) (Z.max (- scale l) 0) ltac:(pose proof (power_pos (l_notation l)); lia) ltac:(lia)).
    nia. }
  assert (HR : is_int64 i <-> a <= (if negative l then 2 ^ 63 else int64_max)).
  { unfold is_int64, int64_min, int64_max, i. destruct (negative l); lia. }
  split; intros Hi.
  - destruct (H1 (proj1 HR Hi)) as [-> ->]. reflexivity.
  - rewrite H2; [reflexivity|]. apply Z.nle_gt. tauto.
Qed.

Lemma std_parse_text l x : wf_literal l -> parse_D (text_of l) = Ok (Some (x, [])) ->
  l_frac l <> None -> std_numeric_parse (text_of l) = Ok (Real (cast_D x)).
Proof.
  intros W HP Hf. pose proof (text_point l W) as HT.
  destruct (text_chars l W) as (u & f & v & HX & Hu & Hv & Hg).
  assert (HL : Forall (fun c => 43 <= c) (text_of l)).
  { assert (HK : forall ws, Forall dark ws -> Forall (fun c => 43 <= c) ws).
    { intros ws. apply Forall_impl. intros c [? _]; lia. }
    rewrite HX. apply Forall_app; split; [apply HK, Hu|].
    apply Forall_app; split; [|apply HK, Hv].
    destruct Hg as [[_ ->]|[_ (g & -> & Hg)]]; constructor; [lia|apply HK, Hg]. }
  assert (HNE : text_of l <> []).
  { rewrite HX. destruct Hg as [[? _]|[_ (g & -> & _)]]; [congruence|]. destruct u; discriminate. }
  unfold std_numeric_parse.
  assert (H1 : forall t, t <> [] -> Forall (fun c => 43 <= c) t -> skip_spaces t = t).
  { intros t Ht Ha. rewrite <- (app_nil_r t). apply skip_dark_list; assumption. }
  rewrite (H1 _ HNE HL). set (T := text_of l) in *. clearbody T.
  assert (H2 : skip_spaces (rev T) = rev T).
  { apply H1; [|apply Forall_rev, HL]. intros E. apply HNE. rewrite <- (rev_involutive T), E. reflexivity. }
  destruct T as [|c0 t0]; [congruence|]. cbv zeta. rewrite H2, rev_involutive, HP. cbn [obind]. rewrite HT.
  destruct (l_frac l); [|congruence]. destruct (cast_I x). reflexivity.
Qed.

Lemma number_real l : wf_literal l -> l_frac l <> None ->
  exists b, std_numeric_parse (text_of l) = Ok (Real b) /\
    number_value (text_of l) = if magnitude b <? infinity then Ok (VReal b) else Throw.
Proof.
  intros W Hf. destruct (parse_D_ok l W) as (x & HP & _ & _). exists (cast_D x).
  split; [apply std_parse_text; assumption|].
  unfold number_value. rewrite (text_point l W), HP. destruct (l_frac l); [|congruence]. cbn [obind].
  unfold cast_D_over, magnitude, infinity. destruct (_ <=? _) eqn:E; [replace (_ <? _) with false|replace (_ <? _) with true];
    try reflexivity; symmetry; apply Z.ltb_ge || apply Z.ltb_lt; apply Z.leb_le in E || apply Z.leb_gt in E; exact E.
Qed.
