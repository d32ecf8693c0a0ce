From Verif Require Import Base Bits UtfModel UtfSpec.

Ltac Zify.zify_post_hook ::= Z.div_mod_to_equations.

Lemma scalar_large cp : 0 <= cp -> (surrogate_or_large cp = false <-> scalar cp).
Proof. unfold surrogate_or_large, scalar; lia. Qed.

Lemma encode_one_gen cp sh m k :
  0 <= cp -> 0 <= sh -> 0 <= k < 7 -> m = 2 ^ k - 1 ->
  utf8_encode_one cp sh m = (256 - 2 ^ (k + 1)) + (cp / 2 ^ sh) mod 2 ^ k.
Proof.
  intros Hcp Hsh Hk ->. unfold utf8_encode_one.
  rewrite land_mask by lia. rewrite Z.shiftr_div_pow2 by lia.
  assert (0 < 2 ^ k) as PK by (apply Z.pow_pos_nonneg; lia).
  pose proof (Z.mod_pos_bound (cp / 2 ^ sh) (2 ^ k) PK) as B.
  set (x := (cp / 2 ^ sh) mod 2 ^ k) in *. clearbody x.
  rewrite Z.shiftl_mul_pow2 by lia.
  assert (K : k = 0 \/ k = 1 \/ k = 2 \/ k = 3 \/ k = 4 \/ k = 5 \/ k = 6) by lia.
  destruct K as [->|[->|[->|[->|[->|[->| ->]]]]]].
  all: match type of B with _ <= _ < 2 ^ ?n =>
       match goal with |- (Z.lor ?v ?y) mod 256 = _ =>
         let q := eval vm_compute in (v / 2 ^ n) in
         replace v with (q * 2 ^ n) by (vm_compute; reflexivity); rewrite lor_mul_add by lia end end.
  all: lits; lia.
Qed.

Lemma encode_rfc cp : 0 <= cp ->
  utf8_encode cp = if surrogate_or_large cp then None else Some (rfc3629 cp).
Proof.
  intros H. unfold utf8_encode, rfc3629.
  destruct (cp <? 128) eqn:E1.
  { replace (surrogate_or_large cp) with false by (unfold surrogate_or_large; lia).
    do 2 f_equal. apply Z.mod_small; lia. }
  destruct (surrogate_or_large cp) eqn:E2; [reflexivity|].
  assert (cp < 0x110000) by (unfold surrogate_or_large in E2; lia).
  unfold cont.
  destruct (cp <? 2048) eqn:E3; [|destruct (cp <? 65536) eqn:E4].
  - rewrite (encode_one_gen cp 6 _ 5), (encode_one_gen cp 0 _ 6) by (reflexivity || lia).
    lits; leq.
  - rewrite (encode_one_gen cp 12 _ 4), (encode_one_gen cp 6 _ 6), (encode_one_gen cp 0 _ 6) by (reflexivity || lia).
    lits; leq.
  - rewrite (encode_one_gen cp 18 _ 3), (encode_one_gen cp 12 _ 6), (encode_one_gen cp 6 _ 6), (encode_one_gen cp 0 _ 6) by (reflexivity || lia).
    lits; leq.
Qed.

Lemma trail_step cp b s k : 0 <= cp ->
  utf8_trail cp (b :: s) (S k) = utf8_trail (cp * 64 + b mod 64) s k.
Proof.
  intros H. cbn [utf8_trail].
  replace ((0x80 <=? b) || (b <? 0xC0)) with true by lia.
  change 63 with (2 ^ 6 - 1). rewrite land_mask by lia.
  rewrite shl_lor; [reflexivity|lia|]. apply Z.mod_pos_bound; lia.
Qed.

Lemma trail0 cp s : utf8_trail cp s 0 = Some (cp, s).
Proof. reflexivity. Qed.

(* What decoding does on a lead byte of each class. *)
Lemma decode1 c s : c < 128 -> utf8_decode (c :: s) = Some (c, s).
Proof. intros; cbn [utf8_decode]. replace (c <? 128) with true by lia. reflexivity. Qed.

Definition accept (cp : Z) (lo : Z) (hi : Z) (rest : bytes) : option (Z * bytes) :=
  if (lo <=? cp) && (cp <? hi) && negb (surrogate_or_large cp) then Some (cp, rest) else None.

Lemma decode2 c b1 s : 192 <= c < 224 ->
  utf8_decode (c :: b1 :: s) = accept ((c - 192) * 64 + b1 mod 64) 128 2048 s.
Proof.
  intros H. cbn [utf8_decode].
  replace (c <? 128) with false by lia.
  replace ((c <? 192) || (248 <=? c)) with false by lia.
  replace (224 <=? c) with false by lia. replace (240 <=? c) with false by lia.
  cbn [b2z]. change (2 + 0 + 0) with 2.
  replace (Z.of_nat (length (c :: b1 :: s)) <? 2) with false by (cbn [length]; lia).
  change (Z.to_nat (2 - 1)) with 1%nat. change (Z.shiftr 255 2) with (2 ^ 6 - 1).
  rewrite land_mask by lia. rewrite trail_step by (apply Z.mod_pos_bound; lia). rewrite trail0.
  replace (c mod 2 ^ 6) with (c - 192) by (pows; lia).
  set (cp := (c - 192) * 64 + b1 mod 64).
  assert (0 <= cp < 2048) by (subst cp; lia).
  unfold accept. destruct (surrogate_or_large cp); [rewrite andb_false_r; reflexivity|].
  cbn [negb]. rewrite andb_true_r.
  destruct (128 <=? cp) eqn:A; cbn [b2z].
  - replace (2048 <=? cp) with false by lia. replace (65536 <=? cp) with false by lia.
    replace (cp <? 2048) with true by lia. reflexivity.
  - replace (2048 <=? cp) with false by lia. replace (65536 <=? cp) with false by lia. reflexivity.
Qed.

Lemma decode3 c b1 b2 s : 224 <= c < 240 ->
  utf8_decode (c :: b1 :: b2 :: s) =
  accept (((c - 224) * 64 + b1 mod 64) * 64 + b2 mod 64) 2048 65536 s.
Proof.
  intros H. cbn [utf8_decode].
  replace (c <? 128) with false by lia.
  replace ((c <? 192) || (248 <=? c)) with false by lia.
  replace (224 <=? c) with true by lia. replace (240 <=? c) with false by lia.
  cbn [b2z]. change (2 + 1 + 0) with 3.
  replace (Z.of_nat (length (c :: b1 :: b2 :: s)) <? 3) with false by (cbn [length]; lia).
  change (Z.to_nat (3 - 1)) with 2%nat. change (Z.shiftr 255 3) with (2 ^ 5 - 1).
  rewrite land_mask by lia.
  replace (c mod 2 ^ 5) with (c - 224) by (pows; lia).
  rewrite trail_step by lia. rewrite trail_step by lia. rewrite trail0.
  set (cp := ((c - 224) * 64 + b1 mod 64) * 64 + b2 mod 64).
  assert (0 <= cp < 65536) by (subst cp; lia).
  unfold accept. destruct (surrogate_or_large cp); [rewrite andb_false_r; reflexivity|].
  cbn [negb]. rewrite andb_true_r.
  replace (65536 <=? cp) with false by lia. replace (cp <? 65536) with true by lia.
  destruct (2048 <=? cp) eqn:A, (128 <=? cp) eqn:B; cbn [b2z]; try lia; reflexivity.
Qed.

Lemma decode4 c b1 b2 b3 s : 240 <= c < 248 ->
  utf8_decode (c :: b1 :: b2 :: b3 :: s) =
  accept ((((c - 240) * 64 + b1 mod 64) * 64 + b2 mod 64) * 64 + b3 mod 64) 65536 0x110000 s.
Proof.
  intros H. cbn [utf8_decode].
  replace (c <? 128) with false by lia.
  replace ((c <? 192) || (248 <=? c)) with false by lia.
  replace (224 <=? c) with true by lia. replace (240 <=? c) with true by lia.
  cbn [b2z]. change (2 + 1 + 1) with 4.
  replace (Z.of_nat (length (c :: b1 :: b2 :: b3 :: s)) <? 4) with false by (cbn [length]; lia).
  change (Z.to_nat (4 - 1)) with 3%nat. change (Z.shiftr 255 4) with (2 ^ 4 - 1).
  rewrite land_mask by lia.
  replace (c mod 2 ^ 4) with (c - 240) by (pows; lia).
  rewrite trail_step by lia. rewrite trail_step by lia. rewrite trail_step by lia. rewrite trail0.
  set (cp := (((c - 240) * 64 + b1 mod 64) * 64 + b2 mod 64) * 64 + b3 mod 64).
  assert (0 <= cp) by (subst cp; lia).
  unfold accept. destruct (surrogate_or_large cp) eqn:L; [rewrite andb_false_r; reflexivity|].
  cbn [negb]. rewrite andb_true_r.
  replace (cp <? 0x110000) with true by (unfold surrogate_or_large in L; lia).
  destruct (2048 <=? cp) eqn:A, (128 <=? cp) eqn:B, (65536 <=? cp) eqn:C; cbn [b2z]; try lia; reflexivity.
Qed.

Lemma accept_intro cp lo hi s : lo <= cp < hi -> surrogate_or_large cp = false ->
  accept cp lo hi s = Some (cp, s).
Proof.
  intros H L. unfold accept. rewrite L.
  replace (lo <=? cp) with true by lia. replace (cp <? hi) with true by lia. reflexivity.
Qed.

Lemma decode_rfc cp rest : scalar cp -> utf8_decode (rfc3629 cp ++ rest) = Some (cp, rest).
Proof.
  intros H. unfold rfc3629, cont. assert (0 <= cp) as P by (unfold scalar in H; lia).
  pose proof (proj2 (scalar_large cp P) H) as L.
  destruct (cp <? 128) eqn:E1; [|destruct (cp <? 2048) eqn:E2; [|destruct (cp <? 65536) eqn:E3]];
  cbn [app].
  - apply decode1; lia.
  - rewrite decode2 by lia.
    replace ((192 + cp / 64 - 192) * 64 + (128 + cp mod 64) mod 64) with cp by lia.
    apply accept_intro; [lia|exact L].
  - rewrite decode3 by lia.
    replace (((224 + cp / 4096 - 224) * 64 + (128 + (cp / 64) mod 64) mod 64) * 64 + (128 + cp mod 64) mod 64) with cp by lia.
    apply accept_intro; [lia|exact L].
  - assert (cp < 0x110000) by (unfold scalar in H; lia).
    rewrite decode4 by lia.
    replace ((((240 + cp / 262144 - 240) * 64 + (128 + (cp / 4096) mod 64) mod 64) * 64 + (128 + (cp / 64) mod 64) mod 64) * 64 + (128 + cp mod 64) mod 64) with cp by lia.
    apply accept_intro; [lia|exact L].
Qed.

Lemma utf8_roundtrip cp rest : scalar cp ->
  exists s, utf8_encode cp = Some s /\ utf8_decode (s ++ rest) = Some (cp, rest).
Proof.
  intros H. assert (0 <= cp) as P by (unfold scalar in H; lia).
  exists (rfc3629 cp). split; [|apply decode_rfc, H].
  rewrite encode_rfc by exact P. apply (scalar_large cp P) in H. rewrite H. reflexivity.
Qed.

Lemma utf8_encode_spec cp : 0 <= cp < 2 ^ 32 ->
  (scalar cp /\ utf8_encode cp = Some (rfc3629 cp)) \/ (~ scalar cp /\ utf8_encode cp = None).
Proof.
  intros H. rewrite encode_rfc by lia. pose proof (scalar_large cp ltac:(lia)) as S.
  destruct (surrogate_or_large cp); [right|left]; (split; [|reflexivity]).
  - intros C. apply S in C. discriminate.
  - apply S; reflexivity.
Qed.

(* Decoding accepts exactly the loose encodings. *)
Lemma rfc3629_byte cp : scalar cp -> all_bytes (rfc3629 cp).
Proof.
  unfold scalar, rfc3629, all_bytes, is_byte, cont; intros H.
  destruct (cp <? 128) eqn:E1; [|destruct (cp <? 2048) eqn:E2; [|destruct (cp <? 65536) eqn:E3]];
  repeat constructor; lia.
Qed.

Lemma accept_some cp lo hi s x y : accept cp lo hi s = Some (x, y) ->
  x = cp /\ y = s /\ lo <= cp < hi /\ surrogate_or_large cp = false.
Proof.
  unfold accept. destruct ((lo <=? cp) && (cp <? hi) && negb (surrogate_or_large cp)) eqn:E; [|discriminate].
  intros [= <- <-]. apply andb_prop in E. destruct E as [E1 E2]. 
  repeat split; try lia. destruct (surrogate_or_large cp); [discriminate|reflexivity].
Qed.

Lemma decode_sound s cp rest : all_bytes s -> utf8_decode s = Some (cp, rest) ->
  scalar cp /\ exists pre, s = pre ++ rest /\ loose_encoding pre cp.
Proof.
  intros HB H. destruct s as [|c s]; [discriminate|].
  inversion HB as [|? ? Hc HB']; subst. unfold is_byte in Hc.
  destruct (Z_lt_ge_dec c 128) as [C|C].
  { rewrite decode1 in H by lia. injection H as <- <-. split; [unfold scalar; lia|].
    exists [c]; split; [reflexivity|]. unfold loose_encoding, rfc3629.
    replace (c <? 128) with true by lia. split; [reflexivity|constructor]. }
  assert (192 <= c < 248) as R.
  { destruct ((c <? 192) || (248 <=? c)) eqn:E; [|lia].
    cbn [utf8_decode] in H. replace (c <? 128) with false in H by lia. rewrite E in H. discriminate. }
  destruct (Z_lt_ge_dec c 224) as [C2|C2]; [|destruct (Z_lt_ge_dec c 240) as [C3|C3]].
  - destruct s as [|b1 s].
    { cbn [utf8_decode] in H. replace (c <? 128) with false in H by lia.
      replace ((c <? 192) || (248 <=? c)) with false in H by lia.
      replace (224 <=? c) with false in H by lia. replace (240 <=? c) with false in H by lia. discriminate. }
    rewrite decode2 in H by lia. apply accept_some in H. destruct H as (-> & -> & B & L).
    split; [apply scalar_large; [lia|exact L]|].
    exists [c; b1]; split; [reflexivity|]. unfold loose_encoding, rfc3629, same_low6, cont.
    set (cp := (c - 192) * 64 + b1 mod 64) in *.
    replace (cp <? 128) with false by lia. replace (cp <? 2048) with true by lia.
    split; [lia|]. repeat constructor; lia.
  - destruct s as [|b1 [|b2 s]].
    1, 2: cbn [utf8_decode] in H; replace (c <? 128) with false in H by lia;
      replace ((c <? 192) || (248 <=? c)) with false in H by lia;
      replace (224 <=? c) with true in H by lia; replace (240 <=? c) with false in H by lia; discriminate.
    rewrite decode3 in H by lia. apply accept_some in H. destruct H as (-> & -> & B & L).
    split; [apply scalar_large; [lia|exact L]|].
    exists [c; b1; b2]; split; [reflexivity|]. unfold loose_encoding, rfc3629, same_low6, cont.
    set (cp := ((c - 224) * 64 + b1 mod 64) * 64 + b2 mod 64) in *.
    replace (cp <? 128) with false by lia. replace (cp <? 2048) with false by lia.
    replace (cp <? 65536) with true by lia.
    split; [lia|]. repeat constructor; lia.
  - destruct s as [|b1 [|b2 [|b3 s]]].
    1, 2, 3: cbn [utf8_decode] in H; replace (c <? 128) with false in H by lia;
      replace ((c <? 192) || (248 <=? c)) with false in H by lia;
      replace (224 <=? c) with true in H by lia; replace (240 <=? c) with true in H by lia; discriminate.
    rewrite decode4 in H by lia. apply accept_some in H. destruct H as (-> & -> & B & L).
    split; [apply scalar_large; [lia|exact L]|].
    exists [c; b1; b2; b3]; split; [reflexivity|]. unfold loose_encoding, rfc3629, same_low6, cont.
    set (cp := (((c - 240) * 64 + b1 mod 64) * 64 + b2 mod 64) * 64 + b3 mod 64) in *.
    replace (cp <? 128) with false by lia. replace (cp <? 2048) with false by lia.
    replace (cp <? 65536) with false by lia.
    split; [lia|]. repeat constructor; lia.
Qed.

Lemma loose_nonempty pre cp : loose_encoding pre cp -> pre <> [].
Proof. destruct pre; [intros []|discriminate]. Qed.

Lemma rfc3629_nonempty cp : rfc3629 cp <> [].
Proof.
  unfold rfc3629. destruct (cp <? 128), (cp <? 2048), (cp <? 65536); discriminate.
Qed.

(* fuel *)
Lemma validate_loop_complete : forall cps fuel, Forall scalar cps ->
  (length (concat (map rfc3629 cps)) <= fuel)%nat ->
  utf8_validate_loop fuel (concat (map rfc3629 cps)) = Some true.
Proof.
  induction cps as [|cp cps IH]; intros fuel HF HL.
  - destruct fuel; reflexivity.
  - inversion HF; subst. cbn [map concat] in *. rewrite app_length in HL.
    pose proof (rfc3629_nonempty cp) as NE.
    pose proof (decode_rfc cp (concat (map rfc3629 cps)) ltac:(assumption)) as D.
    destruct (rfc3629 cp) as [|c t] eqn:E; [congruence|].
    cbn [app length] in *. destruct fuel as [|fuel]; [lia|].
    cbn [utf8_validate_loop]. rewrite D. apply IH; [assumption|lia].
Qed.

Lemma utf8_validate_complete s : utf8_wf s -> utf8_validate s = Some true.
Proof.
  intros (cps & HF & ->). apply validate_loop_complete; [exact HF|lia].
Qed.

Lemma decode_shorter s cp rest : all_bytes s -> utf8_decode s = Some (cp, rest) ->
  (length rest < length s)%nat /\ all_bytes rest.
Proof.
  intros HB H. destruct (decode_sound _ _ _ HB H) as (_ & pre & -> & L).
  apply loose_nonempty in L. rewrite app_length. apply Forall_app in HB.
  destruct pre; [congruence|]. cbn [length]. split; [lia|apply HB].
Qed.

Lemma validate_terminates : forall fuel s, all_bytes s -> (length s <= fuel)%nat ->
  utf8_validate_loop fuel s <> None.
Proof.
  induction fuel as [|fuel IH]; intros s HB HL; destruct s as [|c s]; cbn [utf8_validate_loop length] in *; try congruence; try lia.
  destruct (utf8_decode (c :: s)) as [[cp rest]|] eqn:D; [|congruence].
  destruct (decode_shorter _ _ _ HB D). cbn [length] in *. apply IH; [assumption|lia].
Qed.

Lemma validate_loose_fwd : forall fuel s, all_bytes s -> utf8_validate_loop fuel s = Some true ->
  exists cps parts, Forall scalar cps /\ s = concat parts /\ Forall2 loose_encoding parts cps.
Proof.
  induction fuel as [|fuel IH]; intros s HB H; destruct s as [|c s]; cbn [utf8_validate_loop] in H; try discriminate.
  1, 2: exists [], []; repeat split; constructor.
  destruct (utf8_decode (c :: s)) as [[cp rest]|] eqn:D; [|discriminate].
  destruct (decode_shorter _ _ _ HB D) as [_ HB'].
  destruct (decode_sound _ _ _ HB D) as (S & pre & E & L).
  destruct (IH _ HB' H) as (cps & parts & F & -> & F2).
  exists (cp :: cps), (pre :: parts). repeat split; [constructor; assumption|exact E|constructor; assumption].
Qed.

Lemma loose_decode pre cp rest : scalar cp -> loose_encoding pre cp ->
  utf8_decode (pre ++ rest) = Some (cp, rest).
Proof.
  intros S L. assert (0 <= cp) as P by (unfold scalar in S; lia).
  pose proof (proj2 (scalar_large cp P) S) as LG.
  unfold loose_encoding, rfc3629, cont, same_low6 in L.
  destruct pre as [|c s]; [contradiction|].
  destruct (cp <? 128) eqn:E1; [|destruct (cp <? 2048) eqn:E2; [|destruct (cp <? 65536) eqn:E3]].
  - destruct L as [-> F]. apply Forall2_nil_inv_r in F; subst. cbn [app]. apply decode1; lia.
  - destruct L as [-> F]. apply Forall2_cons_inv_r in F as (b1 & s1 & -> & L1 & F1). apply Forall2_nil_inv_r in F1; subst. cbn [app].
    rewrite decode2 by lia. replace ((192 + cp / 64 - 192) * 64 + b1 mod 64) with cp by lia.
    apply accept_intro; [lia|exact LG].
  - destruct L as [-> F]. apply Forall2_cons_inv_r in F as (b1 & s1 & -> & L1 & F1). apply Forall2_cons_inv_r in F1 as (b2 & s2 & -> & L2 & F2).
    apply Forall2_nil_inv_r in F2; subst. cbn [app].
    rewrite decode3 by lia.
    replace (((224 + cp / 4096 - 224) * 64 + b1 mod 64) * 64 + b2 mod 64) with cp by lia.
    apply accept_intro; [lia|exact LG].
  - destruct L as [-> F]. apply Forall2_cons_inv_r in F as (b1 & s1 & -> & L1 & F1). apply Forall2_cons_inv_r in F1 as (b2 & s2 & -> & L2 & F2).
    apply Forall2_cons_inv_r in F2 as (b3 & s3 & -> & L3 & F3). apply Forall2_nil_inv_r in F3; subst. cbn [app].
    assert (cp < 0x110000) by (unfold scalar in S; lia).
    rewrite decode4 by lia.
    replace ((((240 + cp / 262144 - 240) * 64 + b1 mod 64) * 64 + b2 mod 64) * 64 + b3 mod 64) with cp by lia.
    apply accept_intro; [lia|exact LG].
Qed.

Lemma validate_loose_bwd : forall cps parts fuel, Forall scalar cps -> Forall2 loose_encoding parts cps ->
  (length (concat parts) <= fuel)%nat -> utf8_validate_loop fuel (concat parts) = Some true.
Proof.
  induction cps as [|cp cps IH]; intros parts fuel HF H2 HL.
  - inversion H2; subst. destruct fuel; reflexivity.
  - inversion H2 as [|pre cp' parts' cps' L F2]; subst.
    inversion HF; subst. cbn [concat] in *. rewrite app_length in HL.
    pose proof (loose_nonempty _ _ L) as NE.
    pose proof (loose_decode _ _ (concat parts') ltac:(eassumption) L) as D.
    destruct pre as [|c t]; [congruence|].
    cbn [app length] in *. destruct fuel as [|fuel]; [lia|].
    cbn [utf8_validate_loop]. rewrite D. apply IH; [assumption|assumption|lia].
Qed.

Lemma utf8_validate_iff s : all_bytes s ->
  (utf8_validate s = Some true <->
   exists cps parts, Forall scalar cps /\ s = concat parts /\ Forall2 loose_encoding parts cps).
Proof.
  intros HB; split.
  - apply validate_loose_fwd, HB.
  - intros (cps & parts & F & -> & F2). apply (validate_loose_bwd cps); [assumption|assumption|lia].
Qed.

Lemma utf8_validate_total s : all_bytes s -> utf8_validate s <> None.
Proof. intros HB. apply validate_terminates; [exact HB|lia]. Qed.

(* "\xC3\x28" is accepted although 0x28 is not a continuation byte. *)
Lemma wf_head c s : utf8_wf (c :: s) -> 192 <= c < 224 -> exists b t, s = b :: t /\ 128 <= b < 192.
Proof.
  intros (cps & F & E) R. destruct cps as [|cp cps]; [discriminate|].
  cbn [map concat] in E. inversion F as [|? ? S _]; subst. unfold rfc3629, cont in E.
  destruct (cp <? 128) eqn:E1; [|destruct (cp <? 2048) eqn:E2; [|destruct (cp <? 65536) eqn:E3]];
  cbn [app] in E; injection E as -> ->.
  - lia.
  - eexists _, _; split; [reflexivity|lia].
  - lia.
  - unfold scalar in S; lia.
Qed.

Lemma utf8_validate_refuted :
  exists s, all_bytes s /\ utf8_validate s = Some true /\ ~ utf8_wf s.
Proof.
  exists [0xC3; 0x28]. split; [repeat constructor; unfold is_byte; lia|].
  split; [reflexivity|]. intros H. apply wf_head in H; [|lia].
  destruct H as (b & t & [= <- <-] & ?). lia.
Qed.

(* UTF-16 *)
Lemma utf16_encode_spec cp : 0 <= cp < 2 ^ 32 ->
  (scalar cp /\ utf16_encode cp = Some (rfc2781 cp)) \/ (~ scalar cp /\ utf16_encode cp = None).
Proof.
  intros H. pose proof (scalar_large cp ltac:(lia)) as S. unfold utf16_encode, rfc2781.
  destruct (surrogate_or_large cp) eqn:L.
  - right; split; [|reflexivity]. intros C; apply S in C; discriminate.
  - left. assert (scalar cp) as SC by (apply S; reflexivity). split; [exact SC|].
    unfold scalar in SC. destruct (cp <? 65536) eqn:E.
    + rewrite Z.mod_small by (pows; lia). reflexivity.
    + rewrite Z.shiftr_div_pow2 by lia. change 1023 with (2 ^ 10 - 1). rewrite land_mask by lia.
      lits; leq.
Qed.

Lemma utf16_decode_rfc cp rest : scalar cp -> utf16_decode (rfc2781 cp ++ rest) = Some (cp, rest).
Proof.
  intros H. unfold scalar in H. unfold rfc2781. destruct (cp <? 65536) eqn:E; cbn [app utf16_decode].
  - replace ((cp <? 55296) || (57344 <=? cp)) with true by lia. reflexivity.
  - set (u := 55296 + (cp - 65536) / 1024). set (v := 56320 + (cp - 65536) mod 1024).
    assert (55296 <= u < 56320) by (subst u; lia). assert (56320 <= v < 57344) by (subst v; lia).
    replace ((u <? 55296) || (57344 <=? u)) with false by lia.
    replace (56320 <=? u) with false by lia.
    replace ((v <? 56320) || (57344 <=? v)) with false by lia.
    change 1023 with (2 ^ 10 - 1). rewrite !land_mask by lia. rewrite Z.shiftl_mul_pow2 by lia.
    do 2 f_equal. subst u v. pows. lia.
Qed.

Lemma utf16_roundtrip cp rest : scalar cp ->
  exists s, utf16_encode cp = Some s /\ utf16_decode (s ++ rest) = Some (cp, rest).
Proof.
  intros H. exists (rfc2781 cp). split; [|apply utf16_decode_rfc, H].
  destruct (utf16_encode_spec cp) as [[_ E]|[N _]]; [unfold scalar in H; lia|exact E|contradiction].
Qed.

Definition is_u16 (u : Z) : Prop := 0 <= u < 65536.

Lemma utf16_decode_sound s cp rest : Forall is_u16 s -> utf16_decode s = Some (cp, rest) ->
  scalar cp /\ s = rfc2781 cp ++ rest.
Proof.
  intros F H. destruct s as [|u s]; [discriminate|]. cbn [utf16_decode] in H.
  inversion F as [|? ? Hu F']; subst. unfold is_u16 in Hu.
  destruct ((u <? 55296) || (57344 <=? u)) eqn:E1.
  { injection H as <- <-. split; [unfold scalar; lia|]. unfold rfc2781.
    replace (u <? 65536) with true by lia. reflexivity. }
  destruct (56320 <=? u) eqn:E2; [discriminate|].
  destruct s as [|v s]; [discriminate|]. inversion F' as [|? ? Hv _]; subst. unfold is_u16 in Hv.
  destruct ((v <? 56320) || (57344 <=? v)) eqn:E3; [discriminate|].
  change 1023 with (2 ^ 10 - 1) in H. rewrite !land_mask in H by lia. rewrite Z.shiftl_mul_pow2 in H by lia.
  pows. injection H as <- <-.
  split; [unfold scalar; lia|]. unfold rfc2781.
  match goal with |- context [?a <? 65536] => replace (a <? 65536) with false by lia end.
  cbn [app]; leq.
Qed.

Lemma rfc2781_nonempty cp : rfc2781 cp <> [].
Proof. unfold rfc2781. destruct (cp <? 65536); discriminate. Qed.

Lemma utf16_validate_fwd : forall fuel s, Forall is_u16 s -> utf16_validate_loop fuel s = Some true -> utf16_wf s.
Proof.
  induction fuel as [|fuel IH]; intros s HB H; destruct s as [|c s]; cbn [utf16_validate_loop] in H; try discriminate.
  1, 2: exists []; split; [constructor|reflexivity].
  destruct (utf16_decode (c :: s)) as [[cp rest]|] eqn:D; [|discriminate].
  destruct (utf16_decode_sound _ _ _ HB D) as (S & E). rewrite E in HB |- *.
  apply Forall_app in HB. destruct (IH _ (proj2 HB) H) as (cps & F & ->).
  exists (cp :: cps). split; [constructor; assumption|reflexivity].
Qed.

Lemma utf16_validate_bwd : forall cps fuel, Forall scalar cps ->
  (length (concat (map rfc2781 cps)) <= fuel)%nat ->
  utf16_validate_loop fuel (concat (map rfc2781 cps)) = Some true.
Proof.
  induction cps as [|cp cps IH]; intros fuel HF HL.
  - destruct fuel; reflexivity.
  - inversion HF; subst. cbn [map concat] in *. rewrite app_length in HL.
    pose proof (rfc2781_nonempty cp) as NE.
    pose proof (utf16_decode_rfc cp (concat (map rfc2781 cps)) ltac:(assumption)) as D.
    destruct (rfc2781 cp) as [|c t] eqn:E; [congruence|].
    cbn [app length] in *. destruct fuel as [|fuel]; [lia|].
    cbn [utf16_validate_loop]. rewrite D. apply IH; [assumption|lia].
Qed.

Lemma utf16_validate_iff s : Forall is_u16 s -> (utf16_validate s = Some true <-> utf16_wf s).
Proof.
  intros HB; split; [apply utf16_validate_fwd, HB|].
  intros (cps & F & ->). apply utf16_validate_bwd; [exact F|lia].
Qed.

(* Whole strings *)
Lemma clamp_scalar v : is_int64 v -> (scalar v -> clamp_char32 v = v) /\
  (~ scalar v -> utf8_encode (clamp_char32 v) = None).
Proof.
  intros Hv. unfold clamp_char32. split.
  - unfold scalar; intros S. replace (v <? -1) with false by lia. replace (2 ^ 31 - 1 <? v) with false by lia.
    apply Z.mod_small; lia.
  - intros N.
    set (w := (if v <? -1 then -1 else if 2 ^ 31 - 1 <? v then 2 ^ 31 - 1 else v) mod 2 ^ 32).
    assert (0 <= w < 2 ^ 32) as R by (apply Z.mod_pos_bound; lia).
    destruct (utf8_encode_spec w R) as [[S _]|[_ E]]; [|exact E].
    exfalso. apply N. revert S. subst w. unfold scalar.
    destruct (v <? -1) eqn:A; [change (-1 mod 2 ^ 32) with 4294967295; lia|].
    destruct (2 ^ 31 - 1 <? v) eqn:B; [change ((2 ^ 31 - 1) mod 2 ^ 32) with 2147483647; lia|].
    destruct (Z.eq_dec v (-1)) as [->|]; [change (-1 mod 2 ^ 32) with 4294967295; lia|].
    rewrite Z.mod_small by lia. auto.
Qed.

Lemma std_encode_ok perm cps : Forall is_int64 cps -> Forall scalar cps ->
  std_utf8_encode perm cps = Ok (concat (map rfc3629 cps)).
Proof.
  intros HI; induction 1 as [|v t S F IH]; [reflexivity|].
  inversion HI; subst. cbn [std_utf8_encode map concat].
  destruct (clamp_scalar v ltac:(assumption)) as [C _]. rewrite C by exact S.
  destruct (utf8_encode_spec v) as [[_ ->]|[N _]]; [unfold scalar in S; lia| |contradiction].
  rewrite IH by assumption. reflexivity.
Qed.

Lemma std_encode_throws cps : Forall is_int64 cps -> ~ Forall scalar cps ->
  std_utf8_encode false cps = Throw.
Proof.
  induction 1 as [|v t I F IH]; intros N; [elim N; constructor|].
  cbn [std_utf8_encode]. destruct (clamp_scalar v I) as [C1 C2].
  assert (scalar v \/ ~ scalar v) as [S|S] by (unfold scalar; lia).
  - rewrite C1 by exact S.
    destruct (utf8_encode_spec v) as [[_ ->]|[X _]]; [unfold scalar in S; lia| |contradiction].
    rewrite IH; [reflexivity|]. intros F2. apply N. constructor; assumption.
  - rewrite C2 by exact S. reflexivity.
Qed.

Lemma std_decode_ok perm : forall cps fuel, Forall scalar cps ->
  (length (concat (map rfc3629 cps)) <= fuel)%nat ->
  std_utf8_decode_loop fuel perm (concat (map rfc3629 cps)) = Some (Ok cps).
Proof.
  induction cps as [|cp cps IH]; intros fuel HF HL.
  - destruct fuel; reflexivity.
  - inversion HF; subst. cbn [map concat] in *. rewrite app_length in HL.
    pose proof (rfc3629_nonempty cp) as NE.
    pose proof (decode_rfc cp (concat (map rfc3629 cps)) ltac:(assumption)) as D.
    destruct (rfc3629 cp) as [|c t] eqn:E; [congruence|].
    cbn [app length] in *. destruct fuel as [|fuel]; [lia|].
    cbn [std_utf8_decode_loop]. rewrite D. rewrite IH; [reflexivity|assumption|lia].
Qed.

Lemma std_utf8_roundtrip perm perm' cps : Forall is_int64 cps -> Forall scalar cps ->
  exists s, std_utf8_encode perm cps = Ok s /\ std_utf8_decode perm' s = Some (Ok cps).
Proof.
  intros I S. eexists; split; [apply std_encode_ok; assumption|].
  apply std_decode_ok; [exact S|lia].
Qed.

Lemma std_decode_permissive_total : forall fuel s, all_bytes s -> (length s <= fuel)%nat ->
  exists cps, std_utf8_decode_loop fuel true s = Some (Ok cps).
Proof.
  induction fuel as [|fuel IH]; intros s HB HL; destruct s as [|c s]; cbn [std_utf8_decode_loop length] in *; try lia.
  1, 2: eexists; reflexivity.
  inversion HB; subst.
  destruct (utf8_decode (c :: s)) as [[cp rest]|] eqn:D.
  - destruct (decode_shorter _ _ _ HB D). cbn [length] in *.
    destruct (IH rest) as [r ->]; [assumption|lia|]. eexists; reflexivity.
  - destruct (IH s) as [r ->]; [assumption|lia|]. eexists; reflexivity.
Qed.

Lemma std_decode_permissive s : all_bytes s -> exists cps, std_utf8_decode true s = Some (Ok cps).
Proof. intros; apply std_decode_permissive_total; [assumption|lia]. Qed.
