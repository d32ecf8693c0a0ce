From Verif Require Import Base Lists Bits BinNumModel BinNumSpec IntOpsProofs.

Lemma mask_ok m : 0 < m <= 64 -> to_u64 (to_u64 (Z.shiftl 2 (m - 1)) - 1) = 2 ^ m - 1.
Proof.
  intros H. unfold to_u64. rewrite Z.shiftl_mul_pow2 by lia.
  replace (2 * 2 ^ (m - 1)) with (2 ^ m) by (replace m with (1 + (m - 1)) at 1 by lia; rewrite Z.pow_add_r by lia; reflexivity).
  assert (0 < 2 ^ m) by (apply Z.pow_pos_nonneg; lia).
  destruct (Z.eq_dec m 64) as [->|N].
  - vm_compute. reflexivity.
  - assert (2 ^ m < 2 ^ 64) by (apply Z.pow_lt_mono_r; lia).
    rewrite (Z.mod_small (2 ^ m)) by lia. apply Z.mod_small. lia.
Qed.

Lemma sh_norm n m : 0 < m <= 64 -> is_int64 n -> Z.rem n m <> 0 ->
  Z.rem n m + Z.land (Z.shiftr (Z.rem n m) 63) m = n mod m /\ 0 < n mod m < m.
Proof.
  intros Hm Hn N.
  assert (B : - m < Z.rem n m < m).
  { destruct (Z_le_gt_dec 0 n).
    - pose proof (Z.rem_bound_pos n m ltac:(lia) ltac:(lia)). lia.
    - pose proof (Z.rem_bound_pos (-n) m ltac:(lia) ltac:(lia)) as P. rewrite Z.rem_opp_l in P by lia. lia. }
  pose proof (Z.quot_rem n m ltac:(lia)) as Q.
  assert (S : Z.land (Z.shiftr (Z.rem n m) 63) m = if Z.rem n m <? 0 then m else 0).
  { destruct (Z.ltb_spec (Z.rem n m) 0).
    - replace (Z.shiftr (Z.rem n m) 63) with (-1); [apply Z.land_m1_l|].
      rewrite Z.shiftr_div_pow2 by lia. change (2 ^ 63) with 9223372036854775808.
      apply Z.div_unique with (9223372036854775808 + Z.rem n m); lia.
    - replace (Z.shiftr (Z.rem n m) 63) with 0; [reflexivity|].
      rewrite Z.shiftr_div_pow2 by lia. symmetry. apply Z.div_small. change (2 ^ 63) with 9223372036854775808. lia. }
  rewrite S.
  assert (E : n mod m = Z.rem n m + (if Z.rem n m <? 0 then m else 0)).
  { symmetry. destruct (Z.ltb_spec (Z.rem n m) 0).
    - apply Z.mod_unique with (Z.quot n m - 1); lia.
    - apply Z.mod_unique with (Z.quot n m); lia. }
  rewrite E. destruct (Z.ltb_spec (Z.rem n m) 0); lia.
Qed.

Lemma testbit_u64 x i : 0 <= i < 64 -> Z.testbit (to_u64 x) i = Z.testbit x i.
Proof. intros. unfold to_u64. apply Z.mod_pow2_bits_low. lia. Qed.
Lemma testbit_i64 x i : 0 <= i < 64 -> Z.testbit (to_i64 x) i = Z.testbit x i.
Proof.
  intros H. rewrite <- (testbit_u64 (to_i64 x)), <- (testbit_u64 x) by auto.
  rewrite to_u64_to_i64. reflexivity.
Qed.
Lemma mask_bit m i : 0 <= i -> 0 <= m -> Z.testbit (2 ^ m - 1) i = (i <? m).
Proof.
  intros. replace (2 ^ m - 1) with (Z.ones m) by (rewrite Z.ones_equiv; lia).
  destruct (Z.ltb_spec i m); [apply Z.ones_spec_low|apply Z.ones_spec_high]; lia.
Qed.

Lemma mod_shift_ge i s m : 0 < m -> 0 < s < m -> 0 <= i < m -> forall n, n mod m = s ->
  (i - n) mod m = if s <=? i then i - s else i + (m - s).
Proof.
  intros Hm Hs Hi n E. pose proof (Z.div_mod n m ltac:(lia)) as D. rewrite E in D.
  destruct (Z.leb_spec s i).
  - symmetry. apply Z.mod_unique with (- (n / m)); lia.
  - symmetry. apply Z.mod_unique with (- (n / m) - 1); lia.
Qed.

Lemma rotl_ok m x n : 0 <= m <= 64 -> is_int64 n ->
  exists r, rotl m x n = Ok r /\ is_rotation m x n r.
Proof.
  intros Hm Hn. unfold rotl.
  destruct ((m <? 0) || (m >? 64)) eqn:E; [lia|]. clear E.
  destruct (Z.eqb_spec m 0) as [->|M0].
  { exists 0. split; [reflexivity|]. split; [unfold is_int64, int64_min, int64_max; lia|].
    intros i Hi. rewrite Z.bits_0. destruct (Z.ltb_spec i 0); [lia|reflexivity]. }
  cbv zeta. rewrite mask_ok by lia.
  eexists. split; [reflexivity|]. split; [apply to_i64_range|].
  intros i Hi. rewrite testbit_i64 by auto. rewrite Z.land_spec, mask_bit by lia.
  destruct (Z.ltb_spec i m) as [Hlt|]; [|apply andb_false_r]. rewrite andb_true_r.
  destruct (Z.eqb_spec (Z.rem n m) 0) as [R0|RN]; cbn [negb].
  - rewrite testbit_u64 by auto. f_equal.
    assert (N0 : n mod m = 0). { apply Z.rem_mod_eq_0 in R0; lia. }
    pose proof (Z.div_mod n m ltac:(lia)) as D. apply Z.mod_unique with (- (n / m)); lia.
  - destruct (sh_norm n m ltac:(lia) Hn RN) as [-> HS].
    rewrite (mod_shift_ge i (n mod m) m) by (auto; lia).
    rewrite Z.lor_spec. rewrite testbit_u64 by auto.
    rewrite Z.shiftr_spec by lia. rewrite Z.land_spec, mask_bit by lia.
    destruct (Z.leb_spec (n mod m) i).
    + rewrite Z.shiftl_spec by lia. rewrite testbit_u64 by lia.
      destruct (Z.ltb_spec (i + (m - n mod m)) m); [lia|]. rewrite andb_false_r, orb_false_r. reflexivity.
    + rewrite Z.shiftl_spec_low by lia. cbn [orb].
      destruct (Z.ltb_spec (i + (m - n mod m)) m); [|lia]. rewrite andb_true_r.
      apply testbit_u64. lia.
Qed.
Lemma rotr_ok m x n : 0 <= m <= 64 -> is_int64 n ->
  exists r, rotr m x n = Ok r /\ is_rotation m x (- n) r.
Proof.
  intros Hm Hn. unfold rotr.
  destruct ((m <? 0) || (m >? 64)) eqn:E; [lia|]. clear E.
  destruct (Z.eqb_spec m 0) as [->|M0].
  { exists 0. split; [reflexivity|]. split; [unfold is_int64, int64_min, int64_max; lia|].
    intros i Hi. rewrite Z.bits_0. destruct (Z.ltb_spec i 0); [lia|reflexivity]. }
  cbv zeta. rewrite mask_ok by lia.
  eexists. split; [reflexivity|]. split; [apply to_i64_range|].
  intros i Hi. rewrite testbit_i64 by auto. rewrite Z.land_spec, mask_bit by lia.
  destruct (Z.ltb_spec i m) as [Hlt|]; [|apply andb_false_r]. rewrite andb_true_r.
  destruct (Z.eqb_spec (Z.rem n m) 0) as [R0|RN]; cbn [negb].
  - rewrite testbit_u64 by auto. f_equal.
    assert (N0 : n mod m = 0). { apply Z.rem_mod_eq_0 in R0; lia. }
    pose proof (Z.div_mod n m ltac:(lia)) as D. apply Z.mod_unique with (n / m); lia.
  - destruct (sh_norm n m ltac:(lia) Hn RN) as [-> HS].
    assert (EM : (- n) mod m = m - n mod m) by (rewrite Z.mod_opp_l_nz; lia).
    rewrite (mod_shift_ge i (m - n mod m) m) by (auto; lia).
    rewrite Z.lor_spec. rewrite testbit_u64 by auto.
    rewrite Z.shiftr_spec by lia. rewrite Z.land_spec, mask_bit by lia.
    destruct (Z.leb_spec (m - n mod m) i).
    + destruct (Z.ltb_spec (i + n mod m) m); [lia|]. rewrite andb_false_r. cbn [orb].
      rewrite Z.shiftl_spec by lia. apply testbit_u64. lia.
    + rewrite Z.shiftl_spec_low by lia. rewrite orb_false_r.
      destruct (Z.ltb_spec (i + n mod m) m); [|lia]. rewrite andb_true_r.
      rewrite testbit_u64 by lia. f_equal. lia.
Qed.
Lemma rot_throw m x n : ~ 0 <= m <= 64 -> rotl m x n = Throw /\ rotr m x n = Throw.
Proof.
  intros H. unfold rotl, rotr. destruct ((m <? 0) || (m >? 64)) eqn:E; [auto|lia].
Qed.

Lemma bits64_eq a b : is_int64 a -> is_int64 b ->
  (forall i, 0 <= i < 64 -> Z.testbit a i = Z.testbit b i) -> a = b.
Proof.
  intros Ha Hb H. rewrite <- (to_i64_id a Ha), <- (to_i64_id b Hb).
  assert (E : a mod 2 ^ 64 = b mod 2 ^ 64). {
    apply Z.bits_inj'. intros i Hi. destruct (Z_lt_ge_dec i 64).
    - rewrite !Z.mod_pow2_bits_low by lia. apply H; lia.
    - rewrite !Z.mod_pow2_bits_high by lia. reflexivity. }
  apply to_i64_congr. exists (a / 2 ^ 64 - b / 2 ^ 64).
  pose proof (Z.div_mod a (2 ^ 64) ltac:(lia)). pose proof (Z.div_mod b (2 ^ 64) ltac:(lia)). lia.
Qed.

Lemma rot_inverse m x n : 0 <= m <= 64 -> is_int64 n ->
  exists r, rotl m x n = Ok r /\ rotr m r n = Ok (to_i64 (x mod 2 ^ m)).
Proof.
  intros Hm Hn. destruct (rotl_ok m x n Hm Hn) as (r & E1 & I1 & R1).
  exists r. split; [exact E1|]. destruct (rotr_ok m r n Hm Hn) as (r2 & E2 & I2 & R2).
  rewrite E2. f_equal. apply bits64_eq; [exact I2|apply to_i64_range|].
  intros i Hi. rewrite R2, testbit_i64 by auto.
  destruct (Z.ltb_spec i m) as [L|G].
  - rewrite Z.mod_pow2_bits_low by lia.
    pose proof (Z.mod_pos_bound (i - - n) m ltac:(lia)) as B.
    rewrite R1 by lia. destruct (Z.ltb_spec ((i - - n) mod m) m); [|lia]. f_equal.
    rewrite <- (Z.mod_small i m) at 2 by lia.
    rewrite Zminus_mod_idemp_l. f_equal. lia.
  - rewrite Z.mod_pow2_bits_high by lia. reflexivity.
Qed.

(* ---- packing ---- *)
Lemma image_length w v : length (image w v) = w.
Proof. revert v; induction w; intros; cbn; auto. Qed.
Lemma image_bytes w v : all_bytes (image w v).
Proof. revert v; induction w; intros; cbn; constructor; [apply Z.mod_pos_bound; lia|apply IHw]. Qed.
Lemma unimage_image w v : unimage (image w v) = v mod 2 ^ width_bits w.
Proof.
  unfold width_bits. revert v; induction w as [|w IH]; intros v; cbn [image unimage].
  - change (2 ^ (8 * Z.of_nat 0)) with 1. rewrite Z.mod_1_r. reflexivity.
  - rewrite IH. replace (8 * Z.of_nat (S w)) with (8 + 8 * Z.of_nat w) by lia.
    rewrite Z.pow_add_r by lia. change (2 ^ 8) with 256.
    rewrite Z.rem_mul_r; [reflexivity|lia|]. apply Z.pow_pos_nonneg; lia.
Qed.
Lemma unimage_bound s : all_bytes s -> 0 <= unimage s < 2 ^ width_bits (length s).
Proof.
  unfold width_bits. induction 1 as [|b t Hb _ IH]; cbn [unimage length]; [change (2 ^ (8 * Z.of_nat 0)) with 1; lia|].
  replace (8 * Z.of_nat (S (length t))) with (8 + 8 * Z.of_nat (length t)) by lia.
  rewrite Z.pow_add_r by lia. change (2 ^ 8) with 256. unfold is_byte in Hb. lia.
Qed.
Lemma image_unimage s : all_bytes s -> image (length s) (unimage s) = s.
Proof.
  induction 1 as [|b t Hb _ IH]; cbn [unimage length image]; [reflexivity|]. unfold is_byte in Hb.
  rewrite (Z.mul_comm 256).
  rewrite Z.mod_add, Z.mod_small, Z.div_add, Z.div_small by lia. rewrite Z.add_0_l, IH. reflexivity.
Qed.
Lemma rev_bytes s : all_bytes s -> all_bytes (rev s).
Proof. intros H. apply Forall_rev. exact H. Qed.
Lemma store_be_rev w v : store_be w v = rev (image w v).
Proof.
  unfold store_be, bswap.
  assert (L : length (rev (image w v)) = w) by (rewrite rev_length; apply image_length).
  rewrite <- L at 1. apply image_unimage, rev_bytes, image_bytes.
Qed.
Lemma load_be_rev s : all_bytes s -> load_be (length s) s = unimage (rev s).
Proof. intros H. unfold load_be, bswap. rewrite image_unimage by auto. reflexivity. Qed.

Lemma le_value_unimage s : le_value s = unimage s. Proof. induction s; cbn; auto. Qed.

Lemma store_spec e w v : length (store e w v) = w /\ all_bytes (store e w v) /\
  match e with LE => le_value (store e w v) | BE => be_value (store e w v) end = v mod 2 ^ (8 * Z.of_nat w).
Proof.
  destruct e; cbn [store].
  - unfold store_le. split; [apply image_length|]. split; [apply image_bytes|].
    rewrite le_value_unimage. apply unimage_image.
  - rewrite store_be_rev. split; [rewrite rev_length; apply image_length|]. split; [apply rev_bytes, image_bytes|].
    unfold be_value. rewrite rev_involutive, le_value_unimage. apply unimage_image.
Qed.
Lemma load_value e w s : all_bytes s -> length s = w ->
  load e w s = match e with LE => le_value s | BE => be_value s end.
Proof.
  intros H L. destruct e; cbn [load].
  - reflexivity.
  - rewrite <- L. rewrite load_be_rev by auto. reflexivity.
Qed.
Lemma load_store e w v : load e w (store e w v) = v mod 2 ^ width_bits w.
Proof.
  destruct (store_spec e w v) as (L & B & V). rewrite load_value by auto.
  unfold width_bits. destruct e; exact V.
Qed.
Lemma value_inj a b : all_bytes a -> all_bytes b -> length a = length b -> unimage a = unimage b -> a = b.
Proof.
  intros Ha Hb L E. rewrite <- (image_unimage a Ha), <- (image_unimage b Hb). congruence.
Qed.
Lemma store_load e w s : all_bytes s -> length s = w -> store e w (load e w s) = s.
Proof.
  intros H <-. destruct e; cbn [store load].
  - unfold store_le, load_le. apply image_unimage; auto.
  - rewrite store_be_rev, load_be_rev by auto.
    pose proof (image_unimage (rev s) (rev_bytes s H)) as E. rewrite rev_length in E.
    rewrite E. apply rev_involutive.
Qed.

Lemma pack_length e w xs : length (pack e w xs) = (length xs * w)%nat.
Proof.
  induction xs as [|x t IH]; cbn [pack length]; [reflexivity|].
  rewrite app_length, IH. destruct (store_spec e w (cast_u w x)) as (-> & _). lia.
Qed.
Lemma pack_bytes e w xs : all_bytes (pack e w xs).
Proof.
  induction xs as [|x t IH]; cbn [pack]; [constructor|].
  apply Forall_app; split; [apply store_spec|exact IH].
Qed.

Lemma cast_i_u w x : (0 < w)%nat -> cast_i w (cast_u w x mod 2 ^ width_bits w) = cast_i w x.
Proof.
  intros. unfold cast_i, cast_u. assert (0 < 2 ^ width_bits w) by (apply Z.pow_pos_nonneg; unfold width_bits; lia).
  rewrite Z.mod_mod by lia. rewrite Zplus_mod_idemp_l. reflexivity.
Qed.
Lemma cast_i_spec w x : (0 < w)%nat -> sign_extended w x (cast_i w x).
Proof.
  intros Hw. unfold sign_extended, cast_i, width_bits.
  set (W := 8 * Z.of_nat w). assert (E : 2 ^ W = 2 * 2 ^ (W - 1)).
  { replace W with (1 + (W - 1)) at 1 by lia. rewrite Z.pow_add_r by lia. reflexivity. }
  assert (0 < 2 ^ (W - 1)) by (apply Z.pow_pos_nonneg; lia).
  pose proof (Z.mod_pos_bound (x + 2 ^ (W - 1)) (2 ^ W) ltac:(lia)).
  split; [lia|]. exists ((x + 2 ^ (W - 1)) / 2 ^ W).
  pose proof (Z.div_mod (x + 2 ^ (W - 1)) (2 ^ W) ltac:(lia)). lia.
Qed.
Lemma sign_extended_unique w x r r' : (0 < w)%nat -> sign_extended w x r -> sign_extended w x r' -> r = r'.
Proof.
  intros Hw [B [q E]] [B' [q' E']].
  set (W := 8 * Z.of_nat w) in *. assert (E2 : 2 ^ W = 2 * 2 ^ (W - 1)).
  { replace W with (1 + (W - 1)) at 1 by lia. rewrite Z.pow_add_r by lia. reflexivity. }
  assert (q = q') by nia. subst. lia.
Qed.

Lemma unpack_loop_pack e w xs : (0 < w)%nat -> forall pre fuel, (length xs <= fuel)%nat ->
  unpack_loop e w fuel (pre ++ pack e w xs) (length pre) = Ok (map (cast_i w) xs).
Proof.
  intros Hw. induction xs as [|x t IH]; intros pre fuel Hf.
  - cbn [pack map]. rewrite app_nil_r. destruct fuel; cbn [unpack_loop]; rewrite Nat.eqb_refl; reflexivity.
  - destruct fuel as [|fuel]; [cbn in Hf; lia|]. cbn [pack map unpack_loop].
    destruct (store_spec e w (cast_u w x)) as (L & B & _).
    rewrite !app_length, L.
    destruct (Nat.eqb_spec (length pre) (length pre + (w + length (pack e w t)))); [lia|].
    destruct (Nat.leb_spec (length pre + w) (length pre + (w + length (pack e w t)))); [|lia].
    rewrite skipn_app, skipn_all, Nat.sub_diag. cbn [app skipn].
    rewrite firstn_app, L, Nat.sub_diag, firstn_O, app_nil_r, firstn_all2 by lia.
    rewrite load_store, cast_i_u by auto.
    rewrite app_assoc. replace (length pre + w)%nat with (length (pre ++ store e w (cast_u w x)))
      by (rewrite app_length, L; reflexivity).
    rewrite IH; [reflexivity|cbn in Hf; lia].
Qed.
Lemma unpack_pack e w xs : (0 < w)%nat -> unpack e w (pack e w xs) = Ok (map (cast_i w) xs).
Proof.
  intros Hw. unfold unpack. rewrite pack_length.
  replace (Z.of_nat (length xs * w) mod Z.of_nat w) with 0 by (rewrite Nat2Z.inj_mul, Z.mod_mul; lia).
  cbn [Z.eqb negb]. change (pack e w xs) with ([] ++ pack e w xs).
  change 0%nat with (length (@nil Z)). apply unpack_loop_pack; [exact Hw|].
  destruct w; [lia|]. nia.
Qed.
Lemma pack_values e w xs rs : (0 < w)%nat -> unpack e w (pack e w xs) = Ok rs <-> Forall2 (sign_extended w) xs rs.
Proof.
  intros Hw. rewrite unpack_pack by auto. split.
  - intros E. injection E as <-. induction xs; cbn; constructor; auto. apply cast_i_spec; auto.
  - intros H. f_equal. induction H as [|x r xs rs Hr _ IH]; cbn [map]; [reflexivity|].
    rewrite IH. f_equal. eapply sign_extended_unique; eauto. apply cast_i_spec; auto.
Qed.
Lemma unpack_loop_ok e w : (0 < w)%nat -> forall n text off fuel, all_bytes text ->
  (length text = off + n * w)%nat -> (n <= fuel)%nat ->
  exists rs, unpack_loop e w fuel text off = Ok rs /\ pack e w rs = skipn off text /\ length rs = n.
Proof.
  intros Hw. induction n as [|n IH]; intros text off fuel HB HL HF.
  - exists []. assert (length text = off) by lia. subst off.
    split; [|split; [rewrite skipn_all; reflexivity|reflexivity]].
    destruct fuel; cbn [unpack_loop]; rewrite Nat.eqb_refl; reflexivity.
  - destruct fuel as [|fuel]; [lia|]. cbn [unpack_loop].
    destruct (Nat.eqb_spec off (length text)); [lia|].
    destruct (Nat.leb_spec (off + w) (length text)); [|lia].
    destruct (IH text (off + w)%nat fuel HB ltac:(lia) ltac:(lia)) as (rs & -> & EP & EL).
    eexists. split; [reflexivity|]. split; [|cbn; lia].
    cbn [pack]. rewrite EP.
    set (s := firstn w (skipn off text)).
    assert (Hs : length s = w) by (unfold s; rewrite firstn_length, skipn_length; lia).
    assert (Hb : all_bytes (skipn off text)).
    { rewrite <- (firstn_skipn off text) in HB. apply Forall_app in HB. tauto. }
    assert (Hsb : all_bytes s).
    { rewrite <- (firstn_skipn w (skipn off text)) in Hb. apply Forall_app in Hb. unfold s. tauto. }
    assert (EC : cast_u w (cast_i w (load e w s)) = load e w s). {
      rewrite <- (store_load e w s Hsb Hs) at 2. rewrite load_store.
      unfold cast_u. destruct (cast_i_spec w (load e w s) Hw) as [_ [q Eq]].
      fold (width_bits w) in Eq. rewrite Eq at 2. rewrite Z.mod_add; [reflexivity|].
      apply Z.pow_nonzero; unfold width_bits; lia. }
    rewrite EC, store_load by auto.
    replace (skipn (off + w) text) with (skipn w (skipn off text)).
    { apply firstn_skipn. }
    rewrite skipn_skipn. reflexivity.
Qed.
Lemma unpack_total e w text : (0 < w)%nat -> all_bytes text ->
  (Z.of_nat (length text) mod Z.of_nat w <> 0 /\ unpack e w text = Throw) \/
  (Z.of_nat (length text) mod Z.of_nat w = 0 /\ exists rs, unpack e w text = Ok rs /\ pack e w rs = text).
Proof.
  intros Hw HB. unfold unpack.
  destruct (Z.eqb_spec (Z.of_nat (length text) mod Z.of_nat w) 0) as [E|N]; cbn [negb]; [right|left; auto].
  split; [exact E|].
  destruct (unpack_loop_ok e w Hw (length text / w) text 0 (length text) HB) as (rs & R & P & _).
  - apply Z.mod_divide in E; [|lia]. destruct E as [q Q].
    rewrite (Nat.div_mod (length text) w) at 1 by lia.
    assert ((length text) mod w = 0)%nat; [|lia].
    apply Nat.mod_divide; [lia|]. exists (Z.to_nat q). nia.
  - apply Nat.div_le_upper_bound; [lia|]. nia.
  - exists rs. auto.
Qed.
