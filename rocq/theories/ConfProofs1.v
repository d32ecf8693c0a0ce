(* The characters of a configuration file. *)
From Verif Require Import Base Text Monad UtfModel UtfSpec Bits UtfProofs ConfModel.

Local Open Scope Z_scope.

Fixpoint of_list (cs : list Z) : stream :=
  match cs with [] => SEnd | c :: r => SCons c (of_list r) end.
Fixpoint push (cs : list Z) (s : stream) : stream :=
  match cs with [] => s | c :: r => SCons c (push r s) end.
Lemma push_app a b s : push (a ++ b) s = push a (push b s).
Proof. induction a as [|c a IH]; cbn [push app]; [reflexivity|rewrite IH; reflexivity]. Qed.
Lemma push_list a b : push a (of_list b) = of_list (a ++ b).
Proof. induction a as [|c a IH]; cbn [push app of_list]; [reflexivity|rewrite IH; reflexivity]. Qed.
Lemma push_end a : push a SEnd = of_list a.
Proof. change SEnd with (of_list []). rewrite push_list, app_nil_r. reflexivity. Qed.
Lemma of_list_inj a : forall b, of_list a = of_list b -> a = b.
Proof. induction a as [|c a IH]; intros [|d b] H; cbn in H; try discriminate; [reflexivity|].
  injection H as -> H. f_equal. exact (IH _ H). Qed.

(* The first byte *)
Definition lead_ok (b : Z) : bool :=
  (if (192 <=? b) && (b <? 224) then (u8len b =? 2) && (low_bits b =? b - 192) else true) &&
  (if (224 <=? b) && (b <? 240) then (u8len b =? 3) && (low_bits b =? b - 224) else true) &&
  (if (240 <=? b) && (b <? 248) then (u8len b =? 4) && (low_bits b =? b - 240) else true) &&
  (if (248 <=? b) && (b <? 252) then (u8len b =? 5) && (low_bits b =? b - 248) else true) &&
  (if (252 <=? b) then (6 <=? u8len b) else true).
Lemma lead_all : forallb lead_ok all_byte_values = true.
Proof. vm_compute. reflexivity. Qed.
Lemma lead b : is_byte b -> lead_ok b = true.
Proof.
  intros H. apply (proj1 (forallb_forall _ _) lead_all). unfold all_byte_values.
  apply in_map_iff. exists (Z.to_nat b). unfold is_byte in H. split; [lia|]. apply in_seq. lia.
Qed.

Ltac lead_cases b Hb := pose proof (lead b Hb) as HL; unfold lead_ok in HL; unfold is_byte in Hb.
Lemma lead2 b : 192 <= b < 224 -> u8len b = 2 /\ low_bits b = b - 192.
Proof. intros H. assert (HB : is_byte b) by (unfold is_byte; lia). lead_cases b HB. clear HB.
  replace ((192 <=? b) && (b <? 224)) with true in HL by lia. lia. Qed.
Lemma lead3 b : 224 <= b < 240 -> u8len b = 3 /\ low_bits b = b - 224.
Proof. intros H. assert (HB : is_byte b) by (unfold is_byte; lia). lead_cases b HB. clear HB.
  replace ((224 <=? b) && (b <? 240)) with true in HL by lia. lia. Qed.
Lemma lead4 b : 240 <= b < 248 -> u8len b = 4 /\ low_bits b = b - 240.
Proof. intros H. assert (HB : is_byte b) by (unfold is_byte; lia). lead_cases b HB. clear HB.
  replace ((240 <=? b) && (b <? 248)) with true in HL by lia. lia. Qed.
Lemma lead5 b : 248 <= b < 252 -> u8len b = 5 /\ low_bits b = b - 248.
Proof. intros H. assert (HB : is_byte b) by (unfold is_byte; lia). lead_cases b HB. clear HB.
  replace ((248 <=? b) && (b <? 252)) with true in HL by lia. lia. Qed.
Lemma lead6 b : 252 <= b < 256 -> 6 <= u8len b.
Proof. intros H. assert (HB : is_byte b) by (unfold is_byte; lia). lead_cases b HB. clear HB.
  replace (252 <=? b) with true in HL by lia. lia. Qed.

Lemma join_step ch b : Z.lor (Z.shiftl ch 6) (Z.land b 0x3F) = ch * 64 + b mod 64.
Proof.
  change 0x3F with (2 ^ 6 - 1). rewrite land_mask by lia.
  rewrite shl_lor; [reflexivity|lia|]. apply Z.mod_pos_bound; lia.
Qed.

Lemma multi_rfc c : scalar c -> 128 <= c ->
  exists b tb, rfc3629 c = b :: tb /\ 192 <= b < 248 /\ Z.of_nat (length tb) = u8len b - 1 /\
    forall s, multi b tb s = SCons c s.
Proof.
  intros H H0. unfold rfc3629, cont. replace (c <? 128) with false by lia.
  destruct (c <? 2048) eqn:E2; [|destruct (c <? 65536) eqn:E3].
  - eexists _, _. split; [reflexivity|]. split; [lia|].
    destruct (lead2 (192 + c / 64) ltac:(lia)) as [EL EB]. split; [rewrite EL; reflexivity|].
    intros s. unfold multi. rewrite EL, EB. cbn [forallb join fold_left]. rewrite join_step.
    replace (is_cont (128 + c mod 64) && true) with true by (unfold is_cont; lia).
    replace ((192 + c / 64 - 192) * 64 + (128 + c mod 64) mod 64) with c by lia.
    replace (bad_char 2 c) with false; [reflexivity|].
    unfold bad_char. change (Z.shiftl 1 (2 * 5 - 4)) with 64. lia.
  - eexists _, _. split; [reflexivity|]. split; [lia|].
    destruct (lead3 (224 + c / 4096) ltac:(lia)) as [EL EB]. split; [rewrite EL; reflexivity|].
    intros s. unfold multi. rewrite EL, EB. cbn [forallb join fold_left]. rewrite !join_step.
    replace (is_cont (128 + (c / 64) mod 64) && (is_cont (128 + c mod 64) && true)) with true
      by (unfold is_cont; lia).
    replace (((224 + c / 4096 - 224) * 64 + (128 + (c / 64) mod 64) mod 64) * 64 + (128 + c mod 64) mod 64)
      with c by lia.
    replace (bad_char 3 c) with false; [reflexivity|].
    unfold bad_char. change (Z.shiftl 1 (3 * 5 - 4)) with 2048. unfold scalar in H. lia.
  - assert (c < 0x110000) by (unfold scalar in H; lia).
    eexists _, _. split; [reflexivity|]. split; [lia|].
    destruct (lead4 (240 + c / 262144) ltac:(lia)) as [EL EB]. split; [rewrite EL; reflexivity|].
    intros s. unfold multi. rewrite EL, EB. cbn [forallb join fold_left]. rewrite !join_step.
    replace (is_cont (128 + (c / 4096) mod 64) && (is_cont (128 + (c / 64) mod 64) && (is_cont (128 + c mod 64) && true)))
      with true by (unfold is_cont; lia).
    replace ((((240 + c / 262144 - 240) * 64 + (128 + (c / 4096) mod 64) mod 64) * 64 +
              (128 + (c / 64) mod 64) mod 64) * 64 + (128 + c mod 64) mod 64) with c by lia.
    replace (bad_char 4 c) with false; [reflexivity|].
    unfold bad_char. change (Z.shiftl 1 (4 * 5 - 4)) with 65536. lia.
Qed.

Lemma decode_rfc_cons c rest : scalar c -> decode (rfc3629 c ++ rest) = SCons c (decode rest).
Proof.
  intros H. destruct (Z_lt_ge_dec c 128) as [Hc|Hc].
  - unfold rfc3629. replace (c <? 128) with true by lia. cbn [app decode].
    unfold scalar in H. replace (c <=? 127) with true by lia. reflexivity.
  - destruct (multi_rfc c H ltac:(lia)) as (b & tb & -> & Hb & HL & HM). cbn [app decode].
    replace (b <=? 127) with false by lia. replace (b <=? 191) with false by lia.
    assert (H4 : u8len b = 2 \/ u8len b = 3 \/ u8len b = 4).
    { destruct (Z_lt_ge_dec b 224); [pose proof (lead2 b); lia|].
      destruct (Z_lt_ge_dec b 240); [pose proof (lead3 b); lia|pose proof (lead4 b); lia]. }
    replace (7 <? u8len b) with false by lia.
    destruct tb as [|b1 [|b2 [|b3 [|b4 tb]]]]; cbn [length] in HL; try lia; cbn [app].
    + replace (u8len b =? 2) with true by lia. apply HM.
    + replace (u8len b =? 2) with false by lia. replace (u8len b =? 3) with true by lia. apply HM.
    + replace (u8len b =? 2) with false by lia. replace (u8len b =? 3) with false by lia.
      replace (u8len b =? 4) with true by lia. apply HM.
Qed.
Lemma decode_text cps : Forall scalar cps -> decode (concat (map rfc3629 cps)) = of_list cps.
Proof.
  induction 1 as [|c cps Hc _ IH]; [reflexivity|]. cbn [map concat of_list].
  rewrite decode_rfc_cons by assumption. rewrite IH. reflexivity.
Qed.

Lemma multi_inv b tb s c s' : 192 <= b < 252 -> Forall is_byte tb ->
  Z.of_nat (length tb) = u8len b - 1 -> multi b tb s = SCons c s' ->
  s' = s /\ scalar c /\ b :: tb = rfc3629 c.
Proof.
  intros Hb HB HL. unfold multi.
  destruct (forallb is_cont tb) eqn:HC; [|discriminate]. cbv zeta.
  destruct (bad_char (u8len b) (join (low_bits b) tb)) eqn:HX; [discriminate|].
  intros [= <- <-]. split; [reflexivity|].
  unfold scalar, rfc3629, cont.
  destruct (Z_lt_ge_dec b 224); [|destruct (Z_lt_ge_dec b 240); [|destruct (Z_lt_ge_dec b 248)]].
  - destruct (lead2 b ltac:(lia)) as [EL EB]. rewrite EL in *. rewrite EB in *.
    destruct tb as [|b1 [|? ?]]; cbn [length] in HL; try lia.
    cbn [forallb join fold_left] in HC, HX |- *. rewrite join_step in *.
    unfold is_cont in HC. unfold bad_char in HX. change (Z.shiftl 1 (2 * 5 - 4)) with 64 in HX.
    set (cp := (b - 192) * 64 + b1 mod 64) in *.
    assert (128 <= cp < 2048) by lia.
    replace (cp <? 128) with false by lia. replace (cp <? 2048) with true by lia.
    split; [lia|]. repeat (apply f_equal2; [lia|]). reflexivity.
  - destruct (lead3 b ltac:(lia)) as [EL EB]. rewrite EL in *. rewrite EB in *.
    destruct tb as [|b1 [|b2 [|? ?]]]; cbn [length] in HL; try lia.
    cbn [forallb join fold_left] in HC, HX |- *. rewrite !join_step in *.
    unfold is_cont in HC. unfold bad_char in HX. change (Z.shiftl 1 (3 * 5 - 4)) with 2048 in HX.
    set (cp := ((b - 224) * 64 + b1 mod 64) * 64 + b2 mod 64) in *.
    assert (2048 <= cp < 65536) by lia.
    replace (cp <? 128) with false by lia. replace (cp <? 2048) with false by lia.
    replace (cp <? 65536) with true by lia.
    split; [lia|]. repeat (apply f_equal2; [lia|]). reflexivity.
  - destruct (lead4 b ltac:(lia)) as [EL EB]. rewrite EL in *. rewrite EB in *.
    destruct tb as [|b1 [|b2 [|b3 [|? ?]]]]; cbn [length] in HL; try lia.
    cbn [forallb join fold_left] in HC, HX |- *. rewrite !join_step in *.
    unfold is_cont in HC. unfold bad_char in HX. change (Z.shiftl 1 (4 * 5 - 4)) with 65536 in HX.
    set (cp := (((b - 240) * 64 + b1 mod 64) * 64 + b2 mod 64) * 64 + b3 mod 64) in *.
    assert (65536 <= cp < 0x110000) by lia.
    replace (cp <? 128) with false by lia. replace (cp <? 2048) with false by lia.
    replace (cp <? 65536) with false by lia.
    split; [lia|]. repeat (apply f_equal2; [lia|]). reflexivity.
  - exfalso. destruct (lead5 b ltac:(lia)) as [EL EB]. rewrite EL in *. rewrite EB in *.
    unfold bad_char in HX. change (Z.shiftl 1 (5 * 5 - 4)) with 2097152 in HX. lia.
Qed.

Lemma decode_inv : forall n file cps, (length file <= n)%nat -> all_bytes file ->
  decode file = of_list cps -> Forall scalar cps /\ file = concat (map rfc3629 cps).
Proof.
  induction n as [|n IH]; intros file cps HN HB HD.
  { destruct file; [|cbn in HN; lia]. destruct cps; [|discriminate]. split; [constructor|reflexivity]. }
  destruct file as [|b r].
  { destruct cps; [|discriminate]. split; [constructor|reflexivity]. }
  cbn [length] in HN. inversion HB as [|? ? Hb HBr]; subst.
  cbn [decode] in HD.
  destruct (b <=? 127) eqn:E1.
  { destruct cps as [|c cps]; [discriminate|]. cbn [of_list] in HD. injection HD as <- HD.
    destruct (IH r cps ltac:(lia) HBr HD) as [HS ->]. unfold is_byte in Hb.
    split; [constructor; [unfold scalar; lia|assumption]|]. cbn [map concat].
    unfold rfc3629 at 2. replace (b <? 128) with true by lia. reflexivity. }
  destruct (b <=? 191) eqn:E2; [destruct cps; discriminate|].
  destruct (7 <? u8len b) eqn:E7; [destruct cps; discriminate|].
  assert (HM : forall tb r', r = tb ++ r' -> Z.of_nat (length tb) = u8len b - 1 -> u8len b <= 5 ->
            multi b tb (decode r') = of_list cps ->
            Forall scalar cps /\ b :: r = concat (map rfc3629 cps)).
  { intros tb r' -> HL H5 HMu.
    destruct cps as [|c cps].
    { exfalso. unfold multi in HMu. destruct (forallb is_cont tb); [|discriminate].
      cbv zeta in HMu. destruct (bad_char _ _); discriminate. }
    cbn [of_list] in HMu. unfold is_byte in Hb.
    assert (b < 252) by (destruct (Z_lt_ge_dec b 252); [assumption|pose proof (lead6 b); lia]).
    apply Forall_app in HBr. destruct HBr as [HBt HBr].
    destruct (multi_inv b tb _ _ _ ltac:(lia) HBt HL HMu) as (Hs & Hsc & HR).
    rewrite app_length in HN.
    destruct (IH r' cps ltac:(lia) HBr (eq_sym Hs)) as [HS ->].
    split; [constructor; assumption|]. cbn [map concat]. rewrite <- HR. reflexivity. }
  destruct r as [|b1 r1]; [destruct cps; discriminate|].
  destruct (u8len b =? 2) eqn:L2; [apply (HM [b1] r1); cbn [length]; auto; lia|].
  destruct r1 as [|b2 r2]; [destruct cps; discriminate|].
  destruct (u8len b =? 3) eqn:L3; [apply (HM [b1; b2] r2); cbn [length]; auto; lia|].
  destruct r2 as [|b3 r3]; [destruct cps; discriminate|].
  destruct (u8len b =? 4) eqn:L4; [apply (HM [b1; b2; b3] r3); cbn [length]; auto; lia|].
  destruct r3 as [|b4 r4]; [destruct cps; discriminate|].
  destruct (u8len b =? 5) eqn:L5; [apply (HM [b1; b2; b3; b4] r4); cbn [length]; auto; lia|].
  destruct r4; destruct cps; discriminate.
Qed.
