(* Proofs about the text codecs. *)
From Verif Require Import Base Text Bits CodecModel CodecSpec.

(* ---- positional notation ---- *)
Lemma be_from_eq B l acc : be_value_from B acc l = acc * B ^ Z.of_nat (length l) + be_value B l.
Proof.
  unfold be_value. revert acc.
  induction l as [|d t IH]; intros acc; cbn [be_value_from length].
  - change (B ^ Z.of_nat 0) with 1. lia.
  - rewrite IH, (IH (0 * B + d)).
    replace (Z.of_nat (S (length t))) with (Z.of_nat (length t) + 1) by lia.
    rewrite Z.pow_add_r, Z.pow_1_r by lia. ring.
Qed.
Lemma be_cons B d t : be_value B (d :: t) = d * B ^ Z.of_nat (length t) + be_value B t.
Proof. unfold be_value at 1. cbn [be_value_from]. rewrite be_from_eq. ring. Qed.
Lemma be_app B a b : be_value B (a ++ b) = be_value B a * B ^ Z.of_nat (length b) + be_value B b.
Proof.
  induction a as [|d t IH]; cbn [app].
  - change (be_value B []) with 0. lia.
  - rewrite !be_cons, IH, app_length.
    replace (Z.of_nat (length t + length b)) with (Z.of_nat (length t) + Z.of_nat (length b)) by lia.
    rewrite Z.pow_add_r by lia. ring.
Qed.
Lemma be_bound B l : 0 < B -> digits_below B l -> 0 <= be_value B l < B ^ Z.of_nat (length l).
Proof.
  intros HB. induction l as [|d t IH]; intros H.
  - change (be_value B []) with 0. change (B ^ Z.of_nat (@length Z [])) with 1. lia.
  - rewrite be_cons. inversion H as [|? ? Hd Ht]; subst. specialize (IH Ht).
    cbn [length]. replace (Z.of_nat (S (length t))) with (Z.of_nat (length t) + 1) by lia.
    rewrite Z.pow_add_r, Z.pow_1_r by lia.
    set (P := B ^ Z.of_nat (length t)) in *. assert (0 <= d * P) by (apply Z.mul_nonneg_nonneg; lia).
    assert (d * P <= (B - 1) * P) by (apply Z.mul_le_mono_nonneg_r; lia). lia.
Qed.
Lemma be_inj B a : 0 < B -> forall b, digits_below B a -> digits_below B b -> length a = length b ->
  be_value B a = be_value B b -> a = b.
Proof.
  intros HB. induction a as [|d t IH]; intros [|e u] Ha Hb Hl E; try discriminate Hl; auto.
  rewrite !be_cons in E. inversion Ha; inversion Hb; subst. cbn [length] in Hl.
  assert (L : length t = length u) by lia. rewrite L in E.
  pose proof (be_bound B t HB ltac:(assumption)) as B1.
  pose proof (be_bound B u HB ltac:(assumption)) as B2. rewrite L in B1.
  set (P := B ^ Z.of_nat (length u)) in *.
  assert (d = e). {
    assert (D : (d * P + be_value B t) / P = (e * P + be_value B u) / P) by (rewrite E; reflexivity).
    rewrite !Z.div_add_l, !Z.div_small in D by lia. lia. }
  subst e. f_equal. apply IH; auto. lia.
Qed.

(* ---- streaming digits out of a fraction v/M ---- *)
Fixpoint frac (B M : Z) (n : nat) (v : Z) : list Z :=
  match n with O => [] | S n' => v * B / M :: frac B M n' ((v * B) mod M) end.

Lemma frac_length B M n v : length (frac B M n v) = n.
Proof. revert v; induction n; intros; cbn; auto. Qed.
Lemma frac_below B M n v : 0 < B -> 0 < M -> 0 <= v < M -> digits_below B (frac B M n v).
Proof.
  intros HB HM. revert v; induction n as [|n IH]; intros v Hv; cbn [frac]; constructor.
  - split. { apply Z.div_pos; nia. } apply Z.div_lt_upper_bound; nia.
  - apply IH. apply Z.mod_pos_bound; lia.
Qed.
Lemma frac_value B M n v : 0 < B -> 0 < M -> be_value B (frac B M n v) = v * B ^ Z.of_nat n / M
  \/ ~ 0 <= v < M.
Proof.
  intros HB HM. revert v; induction n as [|n IH]; intros v; cbn [frac].
  - destruct (Z_lt_ge_dec v M); [|right; lia]. destruct (Z_lt_ge_dec v 0); [right; lia|].
    left. change (be_value B []) with 0. change (B ^ Z.of_nat 0) with 1. rewrite Z.div_small; lia.
  - left. rewrite be_cons, frac_length.
    destruct (IH ((v * B) mod M)) as [->|N].
    2:{ exfalso; apply N, Z.mod_pos_bound; lia. }
    replace (Z.of_nat (S n)) with (1 + Z.of_nat n) by lia. rewrite Z.pow_add_r, Z.pow_1_r by lia.
    rewrite <- Z.div_add_l by lia. f_equal.
    pose proof (Z.div_mod (v * B) M ltac:(lia)) as E.
    set (q := v * B / M) in *. set (r := (v * B) mod M) in *. clearbody q r.
    replace (v * (B * B ^ Z.of_nat n)) with ((v * B) * B ^ Z.of_nat n) by ring.
    rewrite E; ring.
Qed.
Lemma frac_value' B M n v : 0 < B -> 0 < M -> 0 <= v < M ->
  be_value B (frac B M n v) = v * B ^ Z.of_nat n / M.
Proof. intros. destruct (frac_value B M n v); auto; contradiction. Qed.

(* ---- digit emission ---- *)
(* idx d: where digit d sits in the table *)
Lemma emit_frac w sh mask k tab n reg (idx : Z -> Z) :
  0 < k <= w -> 0 <= reg < 2 ^ w ->
  (forall r, 0 <= r < 2 ^ w -> Z.land (Z.shiftr r sh) mask = idx (r / 2 ^ (w - k))) ->
  emit w sh mask k tab n reg =
    (map (fun d => table_at tab (idx d)) (frac (2 ^ k) (2 ^ w) n reg),
     reg * 2 ^ (k * Z.of_nat n) mod 2 ^ w).
Proof.
  intros Hk Hr Hidx. revert reg Hr.
  assert (0 < 2 ^ w) by (apply Z.pow_pos_nonneg; lia).
  induction n as [|n IH]; intros reg Hr; cbn [emit frac map].
  - rewrite Z.mul_0_r, Z.pow_0_r, Z.mul_1_r, Z.mod_small by lia. reflexivity.
  - rewrite IH by (apply Z.mod_pos_bound; lia).
    rewrite Hidx by exact Hr. rewrite Z.shiftl_mul_pow2 by lia.
    f_equal.
    + f_equal. f_equal. f_equal.
      replace w with ((w - k) + k) at 2 by lia. rewrite Z.pow_add_r by lia.
      rewrite Z.div_mul_cancel_r; try lia; apply Z.pow_nonzero; lia.
    + rewrite Z.mul_mod_idemp_l by lia. f_equal.
      replace (k * Z.of_nat (S n)) with (k + k * Z.of_nat n) by lia.
      rewrite Z.pow_add_r by lia. ring.
Qed.

Lemma land_fe r : is_byte r -> Z.land r 0xFE = 2 * (r / 2).
Proof.
  intros H. apply Z.eqb_eq. revert r H.
  apply (byte_forall (fun r => Z.land r 0xFE =? 2 * (r / 2))). vm_compute; reflexivity.
Qed.

(* ---- absorbing bytes ---- *)
Lemma land_ff c : is_byte c -> Z.land c 0xFF = c.
Proof.
  intros H. change 0xFF with (2 ^ 8 - 1). rewrite land_mask by lia.
  change (2 ^ 8) with 256. apply Z.mod_small. exact H.
Qed.
Lemma absorb_value w s : forall reg, 0 <= w -> all_bytes s -> 0 <= reg ->
  reg * 256 ^ Z.of_nat (length s) + be_value 256 s < 2 ^ w ->
  absorb w reg s = reg * 256 ^ Z.of_nat (length s) + be_value 256 s.
Proof.
  induction s as [|c t IH]; intros reg Hw Hs Hr Hb; cbn [absorb length] in *.
  - change (256 ^ Z.of_nat 0) with 1. change (be_value 256 []) with 0. lia.
  - inversion Hs as [|? ? Hc Ht]; subst. rewrite be_cons in *.
    replace (Z.of_nat (S (length t))) with (1 + Z.of_nat (length t)) in * by lia.
    rewrite Z.pow_add_r, Z.pow_1_r in * by lia.
    pose proof (be_bound 256 t ltac:(lia) Ht) as Bt.
    assert (Hp : 0 < 256 ^ Z.of_nat (length t)) by (apply Z.pow_pos_nonneg; lia).
    set (P := 256 ^ Z.of_nat (length t)) in *.
    assert (Hlt : reg * 256 + c < 2 ^ w). { unfold is_byte in Hc. nia. }
    rewrite land_ff by exact Hc.
    rewrite Z.shiftl_mul_pow2 by lia. change (2 ^ 8) with 256.
    unfold is_byte in Hc. rewrite Z.mod_small by lia.
    replace (Z.lor (reg * 256) c) with (reg * 256 + c)
      by (symmetry; apply (lor_mul_add reg c 8); change (2 ^ 8) with 256; lia).
    rewrite IH; [ring | lia | exact Ht | lia |].
    replace ((reg * 256 + c) * P + be_value 256 t) with (reg * (256 * P) + (c * P + be_value 256 t)) by ring.
    exact Hb.
Qed.

Lemma pow256 m : 0 <= m -> 256 ^ m = 2 ^ (8 * m).
Proof. intros. change 256 with (2 ^ 8). rewrite <- Z.pow_mul_r by lia. reflexivity. Qed.

Lemma group_reg w chunk : 0 <= w -> all_bytes chunk -> 8 * Z.of_nat (length chunk) <= w ->
  let V := be_value 256 chunk * 2 ^ (w - 8 * Z.of_nat (length chunk)) in
  0 <= V < 2 ^ w /\
  Z.shiftl (absorb w 0 chunk) (w - Z.of_nat (length chunk) * 8) mod 2 ^ w = V.
Proof.
  intros Hw Hc Hl V.
  pose proof (be_bound 256 chunk ltac:(lia) Hc) as Bc. rewrite pow256 in Bc by lia.
  assert (HV : 0 <= V < 2 ^ w). {
    unfold V. split. { apply Z.mul_nonneg_nonneg; [lia|]. apply Z.pow_nonneg; lia. }
    replace w with (8 * Z.of_nat (length chunk) + (w - 8 * Z.of_nat (length chunk))) at 2 by lia.
    rewrite Z.pow_add_r by lia. apply Z.mul_lt_mono_pos_r; [|lia]. apply Z.pow_pos_nonneg; lia. }
  split; [exact HV|].
  rewrite absorb_value; auto; try lia.
  2:{ rewrite pow256 by lia. pose proof (Z.pow_le_mono_r 2 (8 * Z.of_nat (length chunk)) w); lia. }
  rewrite Z.shiftl_mul_pow2 by lia. rewrite Z.mul_0_l, Z.add_0_l.
  rewrite (Z.mul_comm (Z.of_nat _) 8). apply Z.mod_small. exact HV.
Qed.

Lemma group_digits w k chunk p : 0 < k <= w -> all_bytes chunk ->
  8 * Z.of_nat (length chunk) <= w -> 8 * Z.of_nat (length chunk) <= k * Z.of_nat p ->
  let V := be_value 256 chunk * 2 ^ (w - 8 * Z.of_nat (length chunk)) in
  let ds := frac (2 ^ k) (2 ^ w) p V in
  length ds = p /\ digits_below (2 ^ k) ds /\
  be_value (2 ^ k) ds = be_value 256 chunk * 2 ^ (k * Z.of_nat p - 8 * Z.of_nat (length chunk)).
Proof.
  intros Hk Hc Hl Hp V ds.
  destruct (group_reg w chunk ltac:(lia) Hc Hl) as [HV _]. fold V in HV.
  assert (0 < 2 ^ w) by (apply Z.pow_pos_nonneg; lia).
  assert (0 < 2 ^ k) by (apply Z.pow_pos_nonneg; lia).
  split; [apply frac_length|]. split; [apply frac_below; auto|].
  unfold ds. rewrite frac_value' by auto. rewrite <- Z.pow_mul_r by lia. unfold V.
  rewrite <- Z.mul_assoc, <- Z.pow_add_r by lia.
  replace (w - 8 * Z.of_nat (length chunk) + k * Z.of_nat p)
    with ((k * Z.of_nat p - 8 * Z.of_nat (length chunk)) + w) by lia.
  rewrite Z.pow_add_r by lia. rewrite Z.mul_assoc. apply Z.div_mul. lia.
Qed.

(* ---- base-32 and base-64 encoders follow the RFC ---- *)
Lemma table_map32 d : 0 <= d < 32 ->
  table_at base32_table (2 * d) = nth (Z.to_nat d) rfc_base32_alphabet (-1).
Proof.
  intros H. apply Z.eqb_eq.
  assert (Hb : is_byte d) by (unfold is_byte; lia).
  pose proof (byte_forall (fun d => if d <? 32 then
     table_at base32_table (2 * d) =? nth (Z.to_nat d) rfc_base32_alphabet (-1) else true)
     ltac:(vm_compute; reflexivity) d Hb) as E. cbv beta in E.
  destruct (Z.ltb_spec d 32); [exact E|lia].
Qed.
Lemma table_map64 d : 0 <= d < 64 ->
  table_at base64_table d = nth (Z.to_nat d) rfc_base64_alphabet (-1).
Proof.
  intros H. apply Z.eqb_eq.
  assert (Hb : is_byte d) by (unfold is_byte; lia).
  pose proof (byte_forall (fun d => if d <? 64 then
     table_at base64_table d =? nth (Z.to_nat d) rfc_base64_alphabet (-1) else true)
     ltac:(vm_compute; reflexivity) d Hb) as E. cbv beta in E.
  destruct (Z.ltb_spec d 64); [exact E|lia].
Qed.

Lemma idx32 r : 0 <= r < 2 ^ 64 -> Z.land (Z.shiftr r 58) 0xFE = 2 * (r / 2 ^ (64 - 5)).
Proof.
  intros H. rewrite Z.shiftr_div_pow2 by lia. change (64 - 5) with (58 + 1).
  rewrite Z.pow_add_r by lia. rewrite <- Z.div_div by lia. apply land_fe.
  unfold is_byte. split; [apply Z.div_pos; lia|]. apply Z.div_lt_upper_bound; [lia|].
  change (2 ^ 58 * 256) with (2 ^ 64 * 4). lia.
Qed.
Lemma idx64 r : 0 <= r < 2 ^ 32 -> Z.land (Z.shiftr r 26) 0xFF = r / 2 ^ (32 - 6).
Proof.
  intros H. rewrite Z.shiftr_div_pow2 by lia. change (32 - 6) with 26. apply land_ff.
  unfold is_byte. split; [apply Z.div_pos; lia|]. apply Z.div_lt_upper_bound; [lia|].
  change (2 ^ 26 * 256) with (2 ^ 32 * 4). lia.
Qed.
Lemma idx16 r : 0 <= r < 2 ^ 32 -> Z.land (Z.shiftr r 27) 0xFE = 2 * (r / 2 ^ (32 - 4)).
Proof.
  intros H. rewrite Z.shiftr_div_pow2 by lia. change (32 - 4) with (27 + 1).
  rewrite Z.pow_add_r by lia. rewrite <- Z.div_div by lia. apply land_fe.
  unfold is_byte. split; [apply Z.div_pos; lia|]. apply Z.div_lt_upper_bound; [lia|].
  change (2 ^ 27 * 256) with (2 ^ 32 * 8). lia.
Qed.

Ltac zd := zify; Z.div_mod_to_equations; lia.
Lemma nd32 m : 0 <= m <= 5 -> ndigits 5 m = (m * 8 + 4) / 5 /\ 8 * m <= 5 * ndigits 5 m /\
  0 <= ndigits 5 m <= 8.
Proof. unfold ndigits. intros. split; [f_equal; lia|]. zd. Qed.
Lemma nd64 m : 0 <= m <= 3 -> ndigits 6 m = (m * 8 + 5) / 6 /\ 8 * m <= 6 * ndigits 6 m /\
  0 <= ndigits 6 m <= 4.
Proof. unfold ndigits. intros. split; [f_equal; lia|]. zd. Qed.

Lemma base32_group chunk p : all_bytes chunk -> (length chunk <= 5)%nat ->
  Z.of_nat p = ndigits 5 (Z.of_nat (length chunk)) ->
  rfc_group 5 8 rfc_base32_alphabet chunk
    (fst (emit 64 58 0xFE 5 base32_table p
           (Z.shiftl (absorb 64 0 chunk) (64 - Z.of_nat (length chunk) * 8) mod 2 ^ 64))
     ++ repeat 61 (8 - p)).
Proof.
  intros Hc Hl Hp. destruct (nd32 (Z.of_nat (length chunk)) ltac:(lia)) as (_ & N2 & N3).
  destruct (group_reg 64 chunk ltac:(lia) Hc ltac:(lia)) as [HV ->].
  destruct (group_digits 64 5 chunk p ltac:(lia) Hc ltac:(lia) ltac:(lia)) as (D1 & D2 & D3).
  rewrite (emit_frac _ _ _ _ _ _ _ (fun d => 2 * d)); [|lia|exact HV|intros; apply idx32; auto].
  cbn [fst]. eexists. split; [|split; [exact D2|split]].
  - lia.
  - rewrite D3. rewrite D1. reflexivity.
  - rewrite D1. f_equal. apply map_ext_in. intros d Hd. apply table_map32.
    exact (proj1 (Forall_forall _ _) D2 d Hd).
Qed.
Lemma base64_group chunk p : all_bytes chunk -> (length chunk <= 3)%nat ->
  Z.of_nat p = ndigits 6 (Z.of_nat (length chunk)) ->
  rfc_group 6 4 rfc_base64_alphabet chunk
    (fst (emit 32 26 0xFF 6 base64_table p
           (Z.shiftl (absorb 32 0 chunk) (32 - Z.of_nat (length chunk) * 8) mod 2 ^ 32))
     ++ repeat 61 (4 - p)).
Proof.
  intros Hc Hl Hp. destruct (nd64 (Z.of_nat (length chunk)) ltac:(lia)) as (_ & N2 & N3).
  destruct (group_reg 32 chunk ltac:(lia) Hc ltac:(lia)) as [HV ->].
  destruct (group_digits 32 6 chunk p ltac:(lia) Hc ltac:(lia) ltac:(lia)) as (D1 & D2 & D3).
  rewrite (emit_frac _ _ _ _ _ _ _ (fun d => d)); [|lia|exact HV|intros; apply idx64; auto].
  cbn [fst]. eexists. split; [|split; [exact D2|split]].
  - lia.
  - rewrite D3. rewrite D1. reflexivity.
  - rewrite D1. f_equal. apply map_ext_in. intros d Hd. apply table_map64.
    exact (proj1 (Forall_forall _ _) D2 d Hd).
Qed.

Lemma base32_reg_out chunk : all_bytes chunk -> length chunk = 5%nat ->
  snd (emit 64 58 0xFE 5 base32_table 8
         (Z.shiftl (absorb 64 0 chunk) (64 - Z.of_nat (length chunk) * 8) mod 2 ^ 64)) = 0.
Proof.
  intros Hc Hl. destruct (group_reg 64 chunk ltac:(lia) Hc ltac:(lia)) as [HV ->].
  rewrite (emit_frac _ _ _ _ _ _ _ (fun d => 2 * d)); [|lia|exact HV|intros; apply idx32; auto].
  cbn [snd]. rewrite Hl. rewrite <- Z.mul_assoc, <- Z.pow_add_r by lia.
  change (64 - 8 * Z.of_nat 5 + 5 * Z.of_nat 8) with 64. apply Z.mod_mul. lia.
Qed.
Lemma base64_reg_out chunk : all_bytes chunk -> length chunk = 3%nat ->
  snd (emit 32 26 0xFF 6 base64_table 4
         (Z.shiftl (absorb 32 0 chunk) (32 - Z.of_nat (length chunk) * 8) mod 2 ^ 32)) = 0.
Proof.
  intros Hc Hl. destruct (group_reg 32 chunk ltac:(lia) Hc ltac:(lia)) as [HV ->].
  rewrite (emit_frac _ _ _ _ _ _ _ (fun d => d)); [|lia|exact HV|intros; apply idx64; auto].
  cbn [snd]. rewrite Hl. rewrite <- Z.mul_assoc, <- Z.pow_add_r by lia.
  change (32 - 8 * Z.of_nat 3 + 6 * Z.of_nat 4) with 32. apply Z.mod_mul. lia.
Qed.

Lemma base32_tail_ok rest : all_bytes rest -> (0 < length rest < 5)%nat ->
  rfc_encoding 5 5 8 rfc_base32_alphabet rest (base32_tail 0 rest).
Proof.
  intros Hc Hl. apply rfc_last; [lia|]. unfold base32_tail.
  destruct (nd32 (Z.of_nat (length rest)) ltac:(lia)) as (N1 & N2 & N3). rewrite <- N1.
  change (table_at base32_table 64) with 61.
  replace (Z.to_nat (8 - ndigits 5 (Z.of_nat (length rest))))
    with (8 - Z.to_nat (ndigits 5 (Z.of_nat (length rest))))%nat by lia.
  apply base32_group; [auto|lia|lia].
Qed.
Lemma base64_tail_ok rest : all_bytes rest -> (0 < length rest < 3)%nat ->
  rfc_encoding 3 6 4 rfc_base64_alphabet rest (base64_tail 0 rest).
Proof.
  intros Hc Hl. apply rfc_last; [lia|]. unfold base64_tail.
  destruct (nd64 (Z.of_nat (length rest)) ltac:(lia)) as (N1 & N2 & N3). rewrite <- N1.
  change (table_at base64_table 64) with 61.
  replace (Z.to_nat (4 - ndigits 6 (Z.of_nat (length rest))))
    with (4 - Z.to_nat (ndigits 6 (Z.of_nat (length rest))))%nat by lia.
  apply base64_group; [auto|lia|lia].
Qed.

Lemma base32_encode_rfc data : all_bytes data ->
  rfc_encoding 5 5 8 rfc_base32_alphabet data (base32_encode data).
Proof.
  unfold base32_encode. remember (length data) as n eqn:Hn.
  revert data Hn. induction n as [n IH] using lt_wf_ind. intros data Hn Hd.
  destruct data as [|b0 [|b1 [|b2 [|b3 [|b4 t]]]]]; cbn [base32_encode_loop].
  - constructor.
  - apply base32_tail_ok; [auto|cbn; lia].
  - apply base32_tail_ok; [auto|cbn; lia].
  - apply base32_tail_ok; [auto|cbn; lia].
  - apply base32_tail_ok; [auto|cbn; lia].
  - set (chunk := [b0; b1; b2; b3; b4]).
    assert (Hs : all_bytes chunk /\ all_bytes t) by (apply Forall_app; exact Hd).
    destruct Hs as [Hc Ht].
    change (b0 :: b1 :: b2 :: b3 :: b4 :: t) with (chunk ++ t).
    change 24 with (64 - Z.of_nat (length chunk) * 8).
    rewrite base32_reg_out by auto.
    apply rfc_full; [reflexivity| |].
    + pose proof (base32_group chunk 8 Hc ltac:(cbn; lia) eq_refl) as G.
      change (repeat 61 (8 - 8)) with (@nil Z) in G. rewrite app_nil_r in G. exact G.
    + apply (IH (length t)); auto. subst n; cbn; lia.
Qed.
Lemma base64_encode_rfc data : all_bytes data ->
  rfc_encoding 3 6 4 rfc_base64_alphabet data (base64_encode data).
Proof.
  unfold base64_encode. remember (length data) as n eqn:Hn.
  revert data Hn. induction n as [n IH] using lt_wf_ind. intros data Hn Hd.
  destruct data as [|b0 [|b1 [|b2 t]]]; cbn [base64_encode_loop].
  - constructor.
  - apply base64_tail_ok; [auto|cbn; lia].
  - apply base64_tail_ok; [auto|cbn; lia].
  - set (chunk := [b0; b1; b2]).
    assert (Hs : all_bytes chunk /\ all_bytes t) by (apply Forall_app; exact Hd).
    destruct Hs as [Hc Ht].
    change (b0 :: b1 :: b2 :: t) with (chunk ++ t).
    change 8 with (32 - Z.of_nat (length chunk) * 8).
    rewrite base64_reg_out by auto.
    apply rfc_full; [reflexivity| |].
    + pose proof (base64_group chunk 4 Hc ltac:(cbn; lia) eq_refl) as G.
      change (repeat 61 (4 - 4)) with (@nil Z) in G. rewrite app_nil_r in G. exact G.
    + apply (IH (length t)); auto. subst n; cbn; lia.
Qed.
