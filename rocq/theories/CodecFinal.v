(* Codec results: decoders against their languages, round trips. *)
From Verif Require Import Base Text Bits CodecModel CodecSpec CodecProofs CodecDecProofs.

Definition val32 (c : Z) : option Z := option_map (fun p => p / 2) (xstrchr base32_table c).
Definition val64 (c : Z) : option Z := xstrchr base64_table c.

Lemma base32_gdec text : forall reg npad,
  base32_decode_loop reg npad text = gdec 5 64 8 val32 reg npad text.
Proof.
  induction text as [|c t IH]; intros reg npad; cbn [base32_decode_loop gdec]; [reflexivity|].
  destruct (xstrchr spaces c).
  - rewrite IH. reflexivity.
  - assert (E : base32_digit c reg npad = gdigit 5 64 val32 c reg npad). {
      unfold base32_digit, gdigit, val32. change (table_at base32_table 64) with 61.
      destruct (c =? 61); [reflexivity|]. destruct (xstrchr base32_table c); reflexivity. }
    rewrite E. destruct (gdigit 5 64 val32 c reg npad) as [[r q]|]; [|reflexivity].
    rewrite !IH. reflexivity.
Qed.
Lemma base64_gdec text : forall reg npad,
  base64_decode_loop reg npad text = gdec 6 32 4 val64 reg npad text.
Proof.
  induction text as [|c t IH]; intros reg npad; cbn [base64_decode_loop gdec]; [reflexivity|].
  destruct (xstrchr spaces c).
  - rewrite IH. reflexivity.
  - assert (E : base64_digit c reg npad = gdigit 6 32 val64 c reg npad). {
      unfold base64_digit, gdigit, val64. change (table_at base64_table 64) with 61.
      destruct (c =? 61); [reflexivity|]. destruct (xstrchr base64_table c); reflexivity. }
    rewrite E. destruct (gdigit 6 32 val64 c reg npad) as [[r q]|]; [|reflexivity].
    rewrite !IH. reflexivity.
Qed.

Definition oeqb (a b : option Z) : bool :=
  match a, b with Some x, Some y => x =? y | None, None => true | _, _ => false end.
Lemma oeqb_eq a b : oeqb a b = true -> a = b.
Proof. destruct a, b; cbn; intros H; try discriminate; auto. apply Z.eqb_eq in H; congruence. Qed.

Definition b32v (c : Z) : option Z :=
  if (65 <=? c) && (c <=? 90) then Some (c - 65) else
  if (97 <=? c) && (c <=? 122) then Some (c - 97) else
  if (50 <=? c) && (c <=? 55) then Some (c - 24) else None.
Definition b64v (c : Z) : option Z :=
  if (65 <=? c) && (c <=? 90) then Some (c - 65) else
  if (97 <=? c) && (c <=? 122) then Some (c - 71) else
  if (48 <=? c) && (c <=? 57) then Some (c + 4) else
  if c =? 43 then Some 62 else if c =? 47 then Some 63 else None.
Definition hexv (c : Z) : option Z :=
  if (48 <=? c) && (c <=? 57) then Some (c - 48) else
  if (65 <=? c) && (c <=? 70) then Some (c - 55) else
  if (97 <=? c) && (c <=? 102) then Some (c - 87) else None.

Lemma val32_spec : option_digit base32_digit_value val32.
Proof.
  intros c Hb N.
  assert (E : val32 c = b32v c). {
    apply oeqb_eq.
    pose proof (byte_forall (fun c => (c =? 61) || oeqb (val32 c) (b32v c))
                  ltac:(vm_compute; reflexivity) c Hb) as E. cbv beta in E.
    destruct (Z.eqb_spec c 61); [contradiction|exact E]. }
  rewrite E. unfold b32v, base32_digit_value.
  destruct ((65 <=? c) && (c <=? 90)) eqn:E1; [lia|].
  destruct ((97 <=? c) && (c <=? 122)) eqn:E2; [lia|].
  destruct ((50 <=? c) && (c <=? 55)) eqn:E3; [lia|]. intros v; lia.
Qed.
Lemma val64_spec : option_digit base64_digit_value val64.
Proof.
  intros c Hb N.
  assert (E : val64 c = b64v c). {
    apply oeqb_eq.
    pose proof (byte_forall (fun c => (c =? 61) || oeqb (val64 c) (b64v c))
                  ltac:(vm_compute; reflexivity) c Hb) as E. cbv beta in E.
    destruct (Z.eqb_spec c 61); [contradiction|exact E]. }
  rewrite E. unfold b64v, base64_digit_value.
  destruct ((65 <=? c) && (c <=? 90)) eqn:E1; [lia|].
  destruct ((97 <=? c) && (c <=? 122)) eqn:E2; [lia|].
  destruct ((48 <=? c) && (c <=? 57)) eqn:E3; [lia|].
  destruct (Z.eqb_spec c 43); [lia|]. destruct (Z.eqb_spec c 47); [lia|]. intros v; lia.
Qed.
Lemma space_vals c : is_space c -> c = 32 \/ 9 <= c <= 13.
Proof.
  unfold is_space. cbn [str app In].
  change (Z.of_N (Ascii.N_of_ascii (Ascii.Ascii false false false false false true false false))) with 32.
  lia.
Qed.
Lemma dig32 c v : base32_digit_value c v -> 0 <= v < 2 ^ 5 /\ is_byte c /\ c <> 61 /\ ~ is_space c.
Proof.
  unfold base32_digit_value, is_byte. change (2 ^ 5) with 32. intros H.
  repeat split; try lia. intros S. apply space_vals in S. lia.
Qed.
Lemma dig64 c v : base64_digit_value c v -> 0 <= v < 2 ^ 6 /\ is_byte c /\ c <> 61 /\ ~ is_space c.
Proof.
  unfold base64_digit_value, is_byte. change (2 ^ 6) with 64. intros H.
  repeat split; try lia. intros S. apply space_vals in S. lia.
Qed.
Lemma det32 c v v' : base32_digit_value c v -> base32_digit_value c v' -> v = v'.
Proof. unfold base32_digit_value; lia. Qed.
Lemma det64 c v v' : base64_digit_value c v -> base64_digit_value c v' -> v = v'.
Proof. unfold base64_digit_value; lia. Qed.

Lemma base32_decode_iff text d : all_bytes text ->
  (base32_decode text = Ok d <-> rfc_decoding 5 5 8 base32_digit_value text d).
Proof.
  intros H. unfold base32_decode. rewrite base32_gdec.
  apply (gdec_iff 5 64 5 8 base32_digit_value val32); auto.
  - apply val32_spec.
  - apply dig32.
  - apply det32.
Qed.
Lemma base64_decode_iff text d : all_bytes text ->
  (base64_decode text = Ok d <-> rfc_decoding 3 6 4 base64_digit_value text d).
Proof.
  intros H. unfold base64_decode. rewrite base64_gdec.
  apply (gdec_iff 6 32 3 4 base64_digit_value val64); auto.
  - apply val64_spec.
  - apply dig64.
  - apply det64.
Qed.
Lemma gdec_total k w cnt val text : forall reg npad,
  gdec k w cnt val reg npad text = Throw \/ exists d, gdec k w cnt val reg npad text = Ok d.
Proof.
  induction text as [|c t IH]; intros reg npad; cbn [gdec].
  - destruct (negb _); eauto.
  - destruct (xstrchr spaces c). { destruct (negb _); auto. }
    destruct (gdigit k w val c reg npad) as [[r q]|]; auto.
    destruct (_ =? 0); auto. cbv zeta. destruct (negb _); auto.
    destruct (IH 1 0) as [->|[d ->]]; eauto.
Qed.
Lemma base32_decode_total text :
  base32_decode text = Throw \/ exists d, base32_decode text = Ok d.
Proof. unfold base32_decode. rewrite base32_gdec. apply gdec_total. Qed.
Lemma base64_decode_total text :
  base64_decode text = Throw \/ exists d, base64_decode text = Ok d.
Proof. unfold base64_decode. rewrite base64_gdec. apply gdec_total. Qed.

(* ---- round trips ---- *)
Lemma alph32 d : 0 <= d < 2 ^ 5 -> base32_digit_value (nth (Z.to_nat d) rfc_base32_alphabet (-1)) d.
Proof.
  change (2 ^ 5) with 32. intros H.
  assert (E : b32v (nth (Z.to_nat d) rfc_base32_alphabet (-1)) = Some d). {
    apply oeqb_eq.
    pose proof (byte_forall (fun d => negb (d <? 32) || oeqb (b32v (nth (Z.to_nat d) rfc_base32_alphabet (-1))) (Some d))
                  ltac:(vm_compute; reflexivity) d ltac:(unfold is_byte; lia)) as E. cbv beta in E.
    destruct (Z.ltb_spec d 32); [exact E|lia]. }
  revert E. generalize (nth (Z.to_nat d) rfc_base32_alphabet (-1)). intros c E.
  unfold b32v in E. unfold base32_digit_value.
  destruct ((65 <=? c) && (c <=? 90)) eqn:E1; [assert (c - 65 = d) by congruence; lia|].
  destruct ((97 <=? c) && (c <=? 122)) eqn:E2; [assert (c - 97 = d) by congruence; lia|].
  destruct ((50 <=? c) && (c <=? 55)) eqn:E3; [assert (c - 24 = d) by congruence; lia|]. discriminate.
Qed.
Lemma alph64 d : 0 <= d < 2 ^ 6 -> base64_digit_value (nth (Z.to_nat d) rfc_base64_alphabet (-1)) d.
Proof.
  change (2 ^ 6) with 64. intros H.
  assert (E : b64v (nth (Z.to_nat d) rfc_base64_alphabet (-1)) = Some d). {
    apply oeqb_eq.
    pose proof (byte_forall (fun d => negb (d <? 64) || oeqb (b64v (nth (Z.to_nat d) rfc_base64_alphabet (-1))) (Some d))
                  ltac:(vm_compute; reflexivity) d ltac:(unfold is_byte; lia)) as E. cbv beta in E.
    destruct (Z.ltb_spec d 64); [exact E|lia]. }
  revert E. generalize (nth (Z.to_nat d) rfc_base64_alphabet (-1)). intros c E.
  unfold b64v in E. unfold base64_digit_value.
  destruct ((65 <=? c) && (c <=? 90)) eqn:E1; [assert (c - 65 = d) by congruence; lia|].
  destruct ((97 <=? c) && (c <=? 122)) eqn:E2; [assert (c - 71 = d) by congruence; lia|].
  destruct ((48 <=? c) && (c <=? 57)) eqn:E3; [assert (c + 4 = d) by congruence; lia|].
  destruct (Z.eqb_spec c 43); [assert (62 = d) by congruence; lia|].
  destruct (Z.eqb_spec c 47); [assert (63 = d) by congruence; lia|]. discriminate.
Qed.

Section Round.
Variables (n k g : Z) (alph : list Z) (digit : Z -> Z -> Prop).
Hypothesis Hk : 0 < k. Hypothesis Hn : 0 < n. Hypothesis Hg : 0 <= g.
Hypothesis Hgn : forall m, 0 < m <= n -> 8 * m <= k * ndigits k m /\ ndigits k m <= g.
Hypothesis Halph : forall d, 0 <= d < 2 ^ k -> digit (nth (Z.to_nat d) alph (-1)) d.

Lemma group_decodes chunk out t d : all_bytes chunk -> 0 < Z.of_nat (length chunk) <= n ->
  rfc_group k g alph chunk out -> rfc_decoding n k g digit t d ->
  rfc_decoding n k g digit (out ++ t) (chunk ++ d).
Proof.
  intros Hc Hl (ds & L & B & V & ->) Ht. rewrite <- app_assoc.
  apply dec_group; auto.
  - clear L V. induction B as [|v ds Hv _ IH]; cbn [map]; constructor; auto.
  - rewrite V. symmetry. apply Z.div_mul. apply Z.pow_nonzero; [lia|].
    destruct (Hgn _ Hl). rewrite L. lia.
Qed.
Lemma encoding_decodes data text : rfc_encoding n k g alph data text -> all_bytes data ->
  rfc_decoding n k g digit text data.
Proof.
  induction 1 as [|chunk out Hl Hg'|chunk out rest t Hl Hg' _ IH]; intros Hd.
  - constructor.
  - rewrite <- (app_nil_r chunk), <- (app_nil_r out). apply group_decodes; auto; [lia|constructor].
  - apply Forall_app in Hd as [H1 H2]. apply group_decodes; auto. lia.
Qed.
Lemma group_length chunk out : 0 < Z.of_nat (length chunk) <= n -> rfc_group k g alph chunk out ->
  Z.of_nat (length out) = g.
Proof.
  clear Halph digit. intros Hl (ds & L & B & V & ->). rewrite app_length, map_length, repeat_length.
  destruct (Hgn _ Hl). lia.
Qed.
Lemma encoding_length data text : rfc_encoding n k g alph data text ->
  Z.of_nat (length text) = g * ((Z.of_nat (length data) + (n - 1)) / n).
Proof.
  clear Halph digit.
  induction 1 as [|chunk out Hl Hg'|chunk out rest t Hl Hg' _ IH].
  - cbn [length]. change (Z.of_nat 0) with 0. rewrite Z.div_small by lia. lia.
  - rewrite (group_length chunk out) by (auto; lia).
    replace (Z.of_nat (length chunk) + (n - 1)) with (1 * n + (Z.of_nat (length chunk) - 1)) by lia.
    rewrite Z.div_add_l, Z.div_small by lia. lia.
  - rewrite !app_length, !Nat2Z.inj_add, IH, (group_length chunk out) by (auto; lia).
    rewrite Hl. replace (n + Z.of_nat (length rest) + (n - 1)) with (1 * n + (Z.of_nat (length rest) + (n - 1))) by lia.
    rewrite Z.div_add_l by lia. lia.
Qed.
End Round.

Lemma base32_roundtrip data : all_bytes data -> base32_decode (base32_encode data) = Ok data.
Proof.
  intros H. unfold base32_decode. rewrite base32_gdec.
  apply (gdec_complete 5 64 5 8 base32_digit_value val32); auto.
  - apply val32_spec.
  - apply dig32.
  - apply det32.
  - apply (encoding_decodes 5 5 8 rfc_base32_alphabet); try lia.
    + intros m Hm. destruct (nd32 m ltac:(lia)) as (_ & ? & ?). lia.
    + apply alph32.
    + apply base32_encode_rfc; auto.
    + exact H.
Qed.
Lemma base64_roundtrip data : all_bytes data -> base64_decode (base64_encode data) = Ok data.
Proof.
  intros H. unfold base64_decode. rewrite base64_gdec.
  apply (gdec_complete 6 32 3 4 base64_digit_value val64); auto.
  - apply val64_spec.
  - apply dig64.
  - apply det64.
  - apply (encoding_decodes 3 6 4 rfc_base64_alphabet); try lia.
    + intros m Hm. destruct (nd64 m ltac:(lia)) as (_ & ? & ?). lia.
    + apply alph64.
    + apply base64_encode_rfc; auto.
    + exact H.
Qed.
Lemma base32_length data : all_bytes data ->
  Z.of_nat (length (base32_encode data)) = 8 * ((Z.of_nat (length data) + 4) / 5).
Proof.
  intros H. apply (encoding_length 5 5 8 rfc_base32_alphabet); try lia.
  - intros m Hm. destruct (nd32 m ltac:(lia)) as (_ & ? & ?). lia.
  - apply base32_encode_rfc; auto.
Qed.
Lemma base64_length data : all_bytes data ->
  Z.of_nat (length (base64_encode data)) = 4 * ((Z.of_nat (length data) + 2) / 3).
Proof.
  intros H. apply (encoding_length 3 6 4 rfc_base64_alphabet); try lia.
  - intros m Hm. destruct (nd64 m ltac:(lia)) as (_ & ? & ?). lia.
  - apply base64_encode_rfc; auto.
Qed.

(* ---- hexadecimal ---- *)
Definition val16 (c : Z) : option Z := option_map (fun p => p / 2) (xstrchr base16_table c).
Lemma val16_hexv c : is_byte c -> val16 c = hexv c.
Proof.
  intros Hb. apply oeqb_eq.
  apply (byte_forall (fun c => oeqb (val16 c) (hexv c))); [vm_compute; reflexivity|exact Hb].
Qed.
Lemma hexv_spec c v : hexv c = Some v <-> hex_digit c v.
Proof.
  unfold hexv, hex_digit.
  destruct ((48 <=? c) && (c <=? 57)) eqn:E1; [split; [intros E; assert (c - 48 = v) by congruence; lia|intros; f_equal; lia]|].
  destruct ((65 <=? c) && (c <=? 70)) eqn:E2; [split; [intros E; assert (c - 55 = v) by congruence; lia|intros; f_equal; lia]|].
  destruct ((97 <=? c) && (c <=? 102)) eqn:E3; [split; [intros E; assert (c - 87 = v) by congruence; lia|intros; f_equal; lia]|].
  split; [discriminate|lia].
Qed.
Lemma hexv_range c v : hexv c = Some v -> 0 <= v < 16.
Proof. intros H. apply hexv_spec in H. unfold hex_digit in H. lia. Qed.
Lemma upper_hex v : 0 <= v < 16 -> hex_digit (upper_hex_digit v) v /\ upper_hex_digit v = table_at base16_table (2 * v).
Proof.
  intros H. split.
  - unfold upper_hex_digit, hex_digit. destruct (Z.ltb_spec v 10); lia.
  - apply Z.eqb_eq.
    pose proof (byte_forall (fun v => negb (v <? 16) || (upper_hex_digit v =? table_at base16_table (2 * v)))
       ltac:(vm_compute; reflexivity) v ltac:(unfold is_byte; lia)) as E. cbv beta in E.
    destruct (Z.ltb_spec v 16); [exact E|lia].
Qed.
Lemma hex_digit_range c v : hex_digit c v -> 0 <= v < 16 /\ is_byte c /\ ~ is_space c.
Proof.
  unfold hex_digit, is_byte. intros H. repeat split; try lia. intros S; apply space_vals in S; lia.
Qed.

Lemma hex_byte c : is_byte c ->
  fst (emit 32 27 0xFE 4 base16_table 2 (Z.shiftl (Z.land c 0xFF) 24 mod 2 ^ 32))
  = [upper_hex_digit (c / 16); upper_hex_digit (c mod 16)].
Proof.
  intros Hb. rewrite land_ff by exact Hb. unfold is_byte in Hb.
  rewrite Z.shiftl_mul_pow2 by lia. rewrite Z.mod_small by (pows; lia).
  rewrite (emit_frac _ _ _ _ _ _ _ (fun d => 2 * d)); [|lia|pows; lia|intros; apply idx16; auto].
  cbn [fst frac map]. pows.
  replace (c * 16777216 * 16 / 4294967296) with (c / 16) by zd.
  replace ((c * 16777216 * 16) mod 4294967296 * 16 / 4294967296) with (c mod 16) by zd.
  rewrite <- (proj2 (upper_hex (c / 16) ltac:(zd))).
  rewrite <- (proj2 (upper_hex (c mod 16) ltac:(zd))). reflexivity.
Qed.

Lemma hex_encode_text delim data : all_bytes data -> hex_encode delim data = hex_text delim data.
Proof.
  unfold hex_encode. intros H.
  assert (G : forall c t, is_byte c -> all_bytes t ->
     hex_encode_loop delim true (c :: t) = hex_text delim (c :: t)).
  2:{ destruct data as [|c t]; [reflexivity|]. inversion H; subst. apply G; auto. }
  intros c t Hc Ht. revert c Hc. induction t as [|b t IH]; intros c Hc.
  - cbn [hex_encode_loop]. rewrite hex_byte by auto. reflexivity.
  - inversion Ht as [|? ? Hb Ht']; subst. specialize (IH Ht' b Hb).
    cbn [hex_encode_loop] in *. rewrite (hex_byte c Hc). cbn [app] in *.
    rewrite IH. reflexivity.
Qed.

Definition reg1 (v : Z) : Z := 16 + v.
Lemma hex_step0 c t : hex_decode_loop 1 (c :: t) =
  match xstrchr spaces c with
  | Some _ => hex_decode_loop 1 t
  | None => match val16 c with None => Throw | Some v => if (0 <=? v) && (v <? 16) then hex_decode_loop (reg1 v) t else hex_decode_loop 1 (c :: t) end
  end.
Proof.
  cbn [hex_decode_loop]. destruct (xstrchr spaces c); [reflexivity|].
  unfold val16. destruct (xstrchr base16_table c) as [pos|]; [|reflexivity]. cbn [option_map].
  destruct ((0 <=? pos / 2) && (pos / 2 <? 16)) eqn:E; [|reflexivity].
  change (Z.shiftl 1 4 mod 2 ^ 32) with (1 * 2 ^ 4). rewrite lor_mul_add by (pows; lia).
  change (1 * 2 ^ 4) with 16. fold (reg1 (pos / 2)).
  change 0x100 with (2 ^ 8). rewrite land_pow2_test by (unfold reg1; pows; lia).
  destruct (Z.ltb_spec (reg1 (pos / 2)) (2 ^ 8)) as [|G]; [reflexivity|].
  unfold reg1 in G. pows; lia.
Qed.
Lemma hex_step1 u c t : 0 <= u < 16 -> hex_decode_loop (reg1 u) (c :: t) =
  match xstrchr spaces c with
  | Some _ => Throw
  | None => match val16 c with None => Throw | Some v => if (0 <=? v) && (v <? 16) then
       match hex_decode_loop 1 t with Ok r => Ok (16 * u + v :: r) | e => e end
       else hex_decode_loop (reg1 u) (c :: t) end
  end.
Proof.
  intros Hu. cbn [hex_decode_loop].
  assert (N1 : (reg1 u =? 1) = false) by (unfold reg1; lia). rewrite N1. cbn [negb].
  destruct (xstrchr spaces c); [reflexivity|].
  unfold val16. destruct (xstrchr base16_table c) as [pos|]; [|reflexivity]. cbn [option_map].
  destruct ((0 <=? pos / 2) && (pos / 2 <? 16)) eqn:E; [|reflexivity].
  rewrite Z.shiftl_mul_pow2 by lia. rewrite Z.mod_small by (unfold reg1; pows; lia).
  rewrite lor_mul_add by (pows; lia).
  change 0x100 with (2 ^ 8). rewrite land_pow2_test by (unfold reg1; pows; lia).
  destruct (Z.ltb_spec (reg1 u * 2 ^ 4 + pos / 2) (2 ^ 8)) as [L|G]; [unfold reg1 in L; pows; lia|].
  destruct (hex_decode_loop 1 t); try reflexivity. f_equal. f_equal.
  unfold reg1. pows. zd.
Qed.
Lemma hex_end u : 0 <= u < 16 -> hex_decode_loop (reg1 u) [] = Throw.
Proof. intros. cbn. replace (reg1 u =? 1) with false by (unfold reg1; lia). reflexivity. Qed.

Lemma val16_digit c v : hex_digit c v -> val16 c = Some v.
Proof. intros H. destruct (hex_digit_range c v H) as (_ & Hb & _). rewrite val16_hexv by auto. apply hexv_spec; auto. Qed.

Lemma hex_decode_complete text d : hex_denotes text d -> hex_decode text = Ok d.
Proof.
  unfold hex_decode. induction 1 as [|c t d Hs _ IH|h l vh vl t d Hh Hl _ IH].
  - reflexivity.
  - rewrite hex_step0. apply spaces_spec in Hs. destruct Hs as [x ->]. exact IH.
  - destruct (hex_digit_range h vh Hh) as (R1 & _ & S1).
    destruct (hex_digit_range l vl Hl) as (R2 & _ & S2).
    rewrite hex_step0, (not_space h S1), (val16_digit h vh Hh).
    destruct ((0 <=? vh) && (vh <? 16)) eqn:E1; [|lia].
    rewrite hex_step1, (not_space l S2), (val16_digit l vl Hl) by lia.
    destruct ((0 <=? vl) && (vl <? 16)) eqn:E2; [|lia]. rewrite IH. reflexivity.
Qed.
Lemma hex_decode_sound text : all_bytes text -> forall d, hex_decode text = Ok d -> hex_denotes text d.
Proof.
  unfold hex_decode. remember (length text) as n eqn:Hn. revert text Hn.
  induction n as [n IH] using lt_wf_ind. intros text Hn HT d E.
  destruct text as [|c t]. { injection E as <-. constructor. }
  inversion HT as [|? ? Hc Ht]; subst. rewrite hex_step0 in E.
  destruct (xstrchr spaces c) eqn:ES.
  - apply hex_space. { apply spaces_spec; eauto. } apply (IH (length t)); auto.
  - rewrite val16_hexv in E by auto. destruct (hexv c) as [v|] eqn:EV; [|discriminate].
    pose proof (hexv_range _ _ EV). apply hexv_spec in EV.
    destruct ((0 <=? v) && (v <? 16)) eqn:E1; [|lia].
    destruct t as [|c' t]. { rewrite hex_end in E by lia. discriminate. }
    inversion Ht as [|? ? Hc' Ht']; subst. rewrite hex_step1 in E by lia.
    destruct (xstrchr spaces c') eqn:ES'; [discriminate|].
    rewrite val16_hexv in E by auto. destruct (hexv c') as [v'|] eqn:EV'; [|discriminate].
    pose proof (hexv_range _ _ EV'). apply hexv_spec in EV'.
    destruct ((0 <=? v') && (v' <? 16)) eqn:E2; [|lia].
    destruct (hex_decode_loop 1 t) as [r| |] eqn:EL; try discriminate.
    assert (Hd : d = 16 * v + v' :: r) by congruence. subst d.
    apply hex_pair; auto. apply (IH (length t)); auto. cbn; lia.
Qed.
Lemma hex_decode_total_loop text : forall reg,
  hex_decode_loop reg text = Throw \/ exists d, hex_decode_loop reg text = Ok d.
Proof.
  induction text as [|c t IH]; intros reg; cbn [hex_decode_loop].
  - destruct (negb _); eauto.
  - destruct (xstrchr spaces c). { destruct (negb _); auto. }
    destruct (xstrchr base16_table c); auto. cbv zeta.
    destruct (_ =? 0); auto. destruct (IH 1) as [->|[d ->]]; eauto.
Qed.
Lemma hex_denotes_app a b d e : hex_denotes a d -> hex_denotes b e -> hex_denotes (a ++ b) (d ++ e).
Proof. induction 1; cbn [app]; intros; auto; [apply hex_space | apply hex_pair]; auto. Qed.
Lemma hex_denotes_spaces s : Forall is_space s -> hex_denotes s [].
Proof. induction 1; constructor; auto. Qed.
Lemma hex_denotes_byte b : is_byte b ->
  hex_denotes [upper_hex_digit (b / 16); upper_hex_digit (b mod 16)] [b].
Proof.
  unfold is_byte. intros H. replace b with (16 * (b / 16) + b mod 16) at 3 by zd.
  apply hex_pair; [apply upper_hex; zd|apply upper_hex; zd|constructor].
Qed.
Lemma hex_text_denotes delim data : Forall is_space delim -> all_bytes data ->
  hex_denotes (hex_text delim data) data.
Proof.
  intros HD. induction 1 as [|b t Hb Ht IH]; [constructor|].
  destruct t as [|b' t].
  - apply hex_denotes_byte; auto.
  - change (hex_denotes ([upper_hex_digit (b / 16); upper_hex_digit (b mod 16)] ++ delim ++ hex_text delim (b' :: t)) ([b] ++ [] ++ b' :: t)).
    apply hex_denotes_app; [apply hex_denotes_byte; auto|].
    apply hex_denotes_app; [apply hex_denotes_spaces; auto|exact IH].
Qed.
Lemma hex_roundtrip delim data : Forall is_space delim -> all_bytes data ->
  hex_decode (hex_encode delim data) = Ok data.
Proof. intros. rewrite hex_encode_text by auto. apply hex_decode_complete, hex_text_denotes; auto. Qed.

(* ---- URL ---- *)
Definition unreservedb (c : Z) : bool := alnum c || (c =? 45) || (c =? 95) || (c =? 46) || (c =? 126).
Definition query_plainb (c : Z) : bool := alnum c || (c =? 45) || (c =? 95) || (c =? 46).
Lemma unreservedb_spec c : unreservedb c = true <-> unreserved c.
Proof. unfold unreservedb, unreserved, alnum. lia. Qed.
Lemma query_plainb_spec c : query_plainb c = true <-> query_plain c.
Proof. unfold query_plainb, query_plain, alnum. lia. Qed.

Lemma pct_byte c : is_byte c -> pct c = [37; upper_hex_digit (c / 16); upper_hex_digit (c mod 16)].
Proof.
  intros H. unfold pct.
  pose proof (byte_forall (fun c =>
     (table_at base16_table (Z.shiftr (Z.land c 0xF0) 3) =? upper_hex_digit (c / 16)) &&
     (table_at base16_table (Z.shiftl (Z.land c 0x0F) 1) =? upper_hex_digit (c mod 16)))
     ltac:(vm_compute; reflexivity) c H) as E. cbv beta in E.
  apply andb_prop in E as [E1 E2]. apply Z.eqb_eq in E1, E2. rewrite E1, E2. reflexivity.
Qed.
Lemma url_encode_text data : all_bytes data -> url_encode data = url_text unreservedb false data.
Proof.
  induction 1 as [|c t Hc _ IH]; [reflexivity|]. cbn [url_encode url_text]. rewrite IH, pct_byte by auto.
  f_equal. unfold unreservedb. destruct (alnum c); cbn [orb]; [reflexivity|].
  destruct (c =? 45), (c =? 95), (c =? 126), (c =? 46); reflexivity.
Qed.
Lemma url_query_encode_text data : all_bytes data -> url_query_encode data = url_text query_plainb true data.
Proof.
  induction 1 as [|c t Hc _ IH]; [reflexivity|]. cbn [url_query_encode url_text]. rewrite IH, pct_byte by auto.
  f_equal. unfold query_plainb. destruct (alnum c); cbn [orb]; [reflexivity|].
  destruct (c =? 45), (c =? 95), (c =? 46), (c =? 32); reflexivity.
Qed.

Lemma xval16 c : val16 c = match xstrchr base16_table c with Some p => Some (p / 2) | None => None end.
Proof. reflexivity. Qed.

Lemma digit_not_37 h v : hex_digit h v -> h <> 37. Proof. unfold hex_digit; lia. Qed.
Lemma url_badb c : ((0 <=? c) && (c <=? 32)) || (c =? 0x7F) || (c =? 0xFF) = true <-> url_bad c.
Proof. unfold url_bad. lia. Qed.

Lemma hex_val c v : hex_digit c v -> exists p, xstrchr base16_table c = Some p /\ p / 2 = v.
Proof.
  intros H. apply val16_digit in H. unfold val16 in H.
  destruct (xstrchr base16_table c) as [p|]; [|discriminate]. cbn in H. injection H as H. eauto.
Qed.
Lemma hex_val_inv c p : is_byte c -> xstrchr base16_table c = Some p -> hex_digit c (p / 2).
Proof.
  intros Hb H. apply hexv_spec. rewrite <- val16_hexv by auto. unfold val16. rewrite H. reflexivity.
Qed.

Lemma url_decode_iff text : all_bytes text -> forall d,
  url_decode text = Ok d <-> url_denotes false text d.
Proof.
  intros HT d. split.
  - revert HT d. remember (length text) as n eqn:Hn. revert text Hn.
    induction n as [n IH] using lt_wf_ind. intros text Hn HT d E.
    destruct text as [|c t]. { injection E as <-. constructor. }
    inversion HT as [|? ? Hc Ht]; subst. cbn [url_decode] in E.
    destruct (((0 <=? c) && (c <=? 32)) || (c =? 127) || (c =? 255)) eqn:EB; [discriminate|].
    destruct (Z.eqb_spec c 37) as [->|N]; cbn [negb] in E.
    + destruct t as [|h [|l t]]; try discriminate.
      destruct (xstrchr base16_table h) as [ph|] eqn:Eh; [|discriminate].
      destruct (xstrchr base16_table l) as [pl|] eqn:El; [|discriminate].
      inversion Ht as [|? ? Hh Ht1]; subst. inversion Ht1 as [|? ? Hl Ht2]; subst.
      apply (hex_val_inv h) in Eh; auto. apply (hex_val_inv l) in El; auto.
      destruct (url_decode t) as [r| |] eqn:EU; try discriminate.
      replace ((ph / 2 * 16 + pl / 2) mod 256) with (16 * (ph / 2) + pl / 2) in E.
      2:{ apply hex_digit_range in Eh as [? _]. apply hex_digit_range in El as [? _].
          rewrite Z.mod_small; lia. }
      assert (Hd : d = 16 * (ph / 2) + pl / 2 :: r) by congruence. subst d.
      apply url_escape; auto. apply (IH (length t)); auto. cbn; lia.
    + destruct (url_decode t) as [r| |] eqn:EU; try discriminate.
      assert (Hd : d = c :: r) by congruence. subst d.
      apply url_other; auto.
      * rewrite <- url_badb. rewrite EB. discriminate.
      * discriminate.
      * apply (IH (length t)); auto.
  - induction 1 as [|h l vh vl t d Hh Hl _ IH|t d E _ IH|c t d Hb N _ _ IH].
    + reflexivity.
    + inversion HT as [|? ? _ Ht]; subst. inversion Ht as [|? ? _ Ht1]; subst. inversion Ht1 as [|? ? _ Ht2]; subst.
      cbn [url_decode]. change (((0 <=? 37) && (37 <=? 32)) || (37 =? 127) || (37 =? 255)) with false.
      change (37 =? 37) with true. cbn [negb].
      destruct (hex_val _ _ Hh) as (ph & -> & E1). destruct (hex_val _ _ Hl) as (pl & -> & E2).
      rewrite E1, E2, IH by auto. f_equal. f_equal.
      apply hex_digit_range in Hh as [? _]. apply hex_digit_range in Hl as [? _].
      rewrite Z.mod_small; lia.
    + discriminate.
    + inversion HT as [|? ? _ Ht]; subst. cbn [url_decode].
      destruct (((0 <=? c) && (c <=? 32)) || (c =? 127) || (c =? 255)) eqn:EB.
      { exfalso. apply Hb, url_badb. exact EB. }
      destruct (Z.eqb_spec c 37); [contradiction|]. cbn [negb]. rewrite IH by auto. reflexivity.
Qed.
Lemma url_query_decode_iff text : all_bytes text -> forall d,
  url_query_decode text = Ok d <-> url_denotes true text d.
Proof.
  intros HT d. split.
  - revert HT d. remember (length text) as n eqn:Hn. revert text Hn.
    induction n as [n IH] using lt_wf_ind. intros text Hn HT d E.
    destruct text as [|c t]. { injection E as <-. constructor. }
    inversion HT as [|? ? Hc Ht]; subst. cbn [url_query_decode] in E.
    destruct (((0 <=? c) && (c <=? 32)) || (c =? 127) || (c =? 255)) eqn:EB; [discriminate|].
    destruct (Z.eqb_spec c 43) as [->|N43].
    { destruct (url_query_decode t) as [r| |] eqn:EU; try discriminate.
      assert (Hd : d = 32 :: r) by congruence. subst d.
      apply url_plus; auto. apply (IH (length t)); auto. }
    destruct (Z.eqb_spec c 37) as [->|N]; cbn [negb] in E.
    + destruct t as [|h [|l t]]; try discriminate.
      destruct (xstrchr base16_table h) as [ph|] eqn:Eh; [|discriminate].
      destruct (xstrchr base16_table l) as [pl|] eqn:El; [|discriminate].
      inversion Ht as [|? ? Hh Ht1]; subst. inversion Ht1 as [|? ? Hl Ht2]; subst.
      apply (hex_val_inv h) in Eh; auto. apply (hex_val_inv l) in El; auto.
      destruct (url_query_decode t) as [r| |] eqn:EU; try discriminate.
      replace ((ph / 2 * 16 + pl / 2) mod 256) with (16 * (ph / 2) + pl / 2) in E.
      2:{ apply hex_digit_range in Eh as [? _]. apply hex_digit_range in El as [? _].
          rewrite Z.mod_small; lia. }
      assert (Hd : d = 16 * (ph / 2) + pl / 2 :: r) by congruence. subst d.
      apply url_escape; auto. apply (IH (length t)); auto. cbn; lia.
    + destruct (url_query_decode t) as [r| |] eqn:EU; try discriminate.
      assert (Hd : d = c :: r) by congruence. subst d.
      apply url_other; auto.
      * rewrite <- url_badb. rewrite EB. discriminate.
      * apply (IH (length t)); auto.
  - induction 1 as [|h l vh vl t d Hh Hl _ IH|t d E _ IH|c t d Hb N N43 _ IH].
    + reflexivity.
    + inversion HT as [|? ? _ Ht]; subst. inversion Ht as [|? ? _ Ht1]; subst. inversion Ht1 as [|? ? _ Ht2]; subst.
      cbn [url_query_decode]. change (((0 <=? 37) && (37 <=? 32)) || (37 =? 127) || (37 =? 255)) with false.
      change (37 =? 37) with true. change (37 =? 43) with false. cbn [negb].
      destruct (hex_val _ _ Hh) as (ph & -> & E1). destruct (hex_val _ _ Hl) as (pl & -> & E2).
      rewrite E1, E2, IH by auto. f_equal. f_equal.
      apply hex_digit_range in Hh as [? _]. apply hex_digit_range in Hl as [? _].
      rewrite Z.mod_small; lia.
    + inversion HT as [|? ? _ Ht]; subst. cbn [url_query_decode].
      change (((0 <=? 43) && (43 <=? 32)) || (43 =? 127) || (43 =? 255)) with false.
      change (43 =? 43) with true. cbv iota. rewrite IH by auto. reflexivity.
    + inversion HT as [|? ? _ Ht]; subst. cbn [url_query_decode].
      destruct (((0 <=? c) && (c <=? 32)) || (c =? 127) || (c =? 255)) eqn:EB.
      { exfalso. apply Hb, url_badb. exact EB. }
      destruct (Z.eqb_spec c 43); [exfalso; apply N43; auto|].
      destruct (Z.eqb_spec c 37); [contradiction|]. cbn [negb]. rewrite IH by auto. reflexivity.
Qed.

Lemma url_text_denotes plain plus data :
  (forall c, plain c = true -> ~ url_bad c /\ c <> 37 /\ c <> 43) ->
  all_bytes data -> url_denotes plus (url_text plain plus data) data /\ all_bytes (url_text plain plus data).
Proof.
  intros HP. induction 1 as [|c t Hc _ [IH IHb]]; [split; constructor|]. cbn [url_text].
  destruct (plain c) eqn:EP.
  - destruct (HP c EP) as (P1 & P2 & P3). split; [apply url_other; auto|constructor; auto].
  - destruct (plus && (c =? 32)) eqn:E32.
    + apply andb_prop in E32 as [E1 E2]. apply Z.eqb_eq in E2. subst.
      split; [apply url_plus; auto|constructor; auto; unfold is_byte; lia].
    + unfold is_byte in Hc. split.
      * cbn [app]. replace c with (16 * (c / 16) + c mod 16) at 3 by zd.
        apply url_escape; auto; apply upper_hex; zd.
      * cbn [app]. pose proof (proj1 (upper_hex (c / 16) ltac:(zd))) as U1.
        pose proof (proj1 (upper_hex (c mod 16) ltac:(zd))) as U2.
        apply hex_digit_range in U1 as (_ & U1 & _). apply hex_digit_range in U2 as (_ & U2 & _).
        repeat constructor; auto; unfold is_byte in *; lia.
Qed.
Lemma url_roundtrip data : all_bytes data -> url_decode (url_encode data) = Ok data.
Proof.
  intros H. rewrite url_encode_text by auto.
  destruct (url_text_denotes unreservedb false data) as [D B]; auto.
  - intros c Hc. apply unreservedb_spec in Hc. unfold unreserved, url_bad in *. lia.
  - apply url_decode_iff; auto.
Qed.
Lemma url_query_roundtrip data : all_bytes data -> url_query_decode (url_query_encode data) = Ok data.
Proof.
  intros H. rewrite url_query_encode_text by auto.
  destruct (url_text_denotes query_plainb true data) as [D B]; auto.
  - intros c Hc. apply query_plainb_spec in Hc. unfold query_plain, url_bad in *. lia.
  - apply url_query_decode_iff; auto.
Qed.
Lemma url_text_ext p q b data : (forall c, p c = q c) -> url_text p b data = url_text q b data.
Proof. intros H. induction data as [|c t IH]; cbn [url_text]; [reflexivity|]. rewrite H, IH. reflexivity. Qed.
Lemma url_encode_spec plain data : (forall c, plain c = true <-> unreserved c) -> all_bytes data ->
  url_encode data = url_text plain false data.
Proof.
  intros HP H. rewrite url_encode_text by auto. apply url_text_ext.
  intros c. apply eq_true_iff_eq. rewrite HP. apply unreservedb_spec.
Qed.
Lemma url_query_encode_spec plain data : (forall c, plain c = true <-> query_plain c) -> all_bytes data ->
  url_query_encode data = url_text plain true data.
Proof.
  intros HP H. rewrite url_query_encode_text by auto. apply url_text_ext.
  intros c. apply eq_true_iff_eq. rewrite HP. apply query_plainb_spec.
Qed.
Lemma url_total_ind (f : bytes -> outcome bytes) :
  (forall n t, (length t < n)%nat -> f t = Throw \/ exists d, f t = Ok d) ->
  forall t, f t = Throw \/ exists d, f t = Ok d.
Proof. intros H t. apply (H (S (length t))). lia. Qed.
Lemma url_decode_total text : url_decode text = Throw \/ exists d, url_decode text = Ok d.
Proof.
  revert text. apply url_total_ind. induction n as [|n IH]; intros t Hl; [lia|].
  destruct t as [|c t]; cbn [url_decode]; [eauto|]. cbn [length] in Hl.
  destruct (_ || _); auto. destruct (negb _).
  - destruct (IH t ltac:(lia)) as [->|[d ->]]; eauto.
  - destruct t as [|h [|l t]]; auto. cbn [length] in Hl.
    destruct (xstrchr base16_table h); auto. destruct (xstrchr base16_table l); auto.
    destruct (IH t ltac:(lia)) as [->|[d ->]]; eauto.
Qed.
Lemma url_query_decode_total text : url_query_decode text = Throw \/ exists d, url_query_decode text = Ok d.
Proof.
  revert text. apply url_total_ind. induction n as [|n IH]; intros t Hl; [lia|].
  destruct t as [|c t]; cbn [url_query_decode]; [eauto|]. cbn [length] in Hl.
  destruct (_ || _); auto. destruct (c =? 43).
  { destruct (IH t ltac:(lia)) as [->|[d ->]]; eauto. }
  destruct (negb _).
  - destruct (IH t ltac:(lia)) as [->|[d ->]]; eauto.
  - destruct t as [|h [|l t]]; auto. cbn [length] in Hl.
    destruct (xstrchr base16_table h); auto. destruct (xstrchr base16_table l); auto.
    destruct (IH t ltac:(lia)) as [->|[d ->]]; eauto.
Qed.
Lemma hex_decode_iff text d : all_bytes text -> (hex_decode text = Ok d <-> hex_denotes text d).
Proof. split; [apply hex_decode_sound; auto|apply hex_decode_complete]. Qed.
Lemma hex_decode_total text : hex_decode text = Throw \/ exists d, hex_decode text = Ok d.
Proof. apply hex_decode_total_loop. Qed.
