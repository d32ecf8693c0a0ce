(* Proofs about writing reals as text. *)
From Verif Require Import Base Text Monad Lists Bits NumTables NumGetModel NumPutModel NumSpec
  NumGetProofs NumCastProofs NumRoundProofs NumRealProofs NumPutProofs.

Local Open Scope Z_scope.

(* Where the digits go: the point takes the place [a] digits after [out]. *)
Definition place1 (rdxpp : Z) (out : bytes) (d : digit) : bytes :=
  (if Z.of_nat (length out) =? rdxpp then out ++ [0] else out) ++ [digit_text d].
Definition place (rdxpp : Z) (out : bytes) (ds : list digit) : bytes :=
  fold_left (place1 rdxpp) ds out.

Lemma place_after rdxpp ds : forall out, rdxpp < Z.of_nat (length out) ->
  place rdxpp out ds = out ++ digits_text ds.
Proof.
  induction ds as [|d t IH]; intros out H; [cbn; rewrite app_nil_r; reflexivity|].
  unfold place. cbn [fold_left]. unfold place1 at 2.
  replace (Z.of_nat (length out) =? rdxpp) with false by lia.
  fold (place rdxpp (out ++ [digit_text d]) t). rewrite IH by (rewrite app_length; cbn [length]; lia).
  rewrite <- app_assoc. reflexivity.
Qed.
Lemma place_before ds : forall out a,
  place (Z.of_nat (length out) + Z.of_nat a) out ds =
  if (length ds <=? a)%nat then out ++ digits_text ds
  else out ++ digits_text (firstn a ds) ++ [0] ++ digits_text (skipn a ds).
Proof.
  induction ds as [|d t IH]; intros out a; [cbn; rewrite app_nil_r; reflexivity|].
  unfold place. cbn [fold_left]. unfold place1 at 2. destruct a as [|a].
  - rewrite Z.add_0_r, Z.eqb_refl. cbn [length Nat.leb firstn skipn].
    fold (place (Z.of_nat (length out)) ((out ++ [0]) ++ [digit_text d]) t).
    rewrite place_after by (rewrite !app_length; cbn [length]; lia).
    rewrite <- !app_assoc. reflexivity.
  - replace (Z.of_nat (length out) =? Z.of_nat (length out) + Z.of_nat (S a)) with false by lia.
    fold (place (Z.of_nat (length out) + Z.of_nat (S a)) (out ++ [digit_text d]) t).
    specialize (IH (out ++ [digit_text d]) a). rewrite app_length in IH. cbn [length] in IH.
    replace (Z.of_nat (length out) + Z.of_nat (S a)) with (Z.of_nat (length out + 1) + Z.of_nat a) by lia.
    rewrite IH. cbn [length Nat.leb firstn skipn].
    change (digits_text (d :: ?l)) with (digit_text d :: digits_text l).
    destruct (length t <=? a)%nat; rewrite <- app_assoc; reflexivity.
Qed.

Section MANT.
Context (b L : Z).
Context (Hb : 2 <= b <= 16) (HL : 1 <= L <= 60) (HbL : b ^ L < 2 ^ 64).
Let dv := b ^ (L - 1).

Lemma dv_pos : 0 < dv.
Proof. apply Z.pow_pos_nonneg; lia. Qed.
Lemma dv_b : b * dv = b ^ L.
Proof. unfold dv. rewrite <- Z.pow_succ_r by lia. f_equal. lia. Qed.

Lemma mant_digits_ok rdxpp fuel : forall k z out,
  0 <= k -> 0 <= z * b ^ k < b ^ L -> L <= k + Z.of_nat fuel -> k <= L ->
  Z.of_nat (length out) + (if Z.of_nat (length out) <=? rdxpp then 1 else 0) + (L - k) <= 71 ->
  exists ds, write_mant_digits fuel out (z * b ^ k) dv b rdxpp = Ok (place rdxpp out ds) /\
    digits_ok b ds /\ capitals ds /\ Z.of_nat (length ds) <= L - k /\
    z * b ^ k * b ^ Z.of_nat (length ds) = positional b ds * b ^ L /\
    (match ds with [] => z = 0 | d :: _ => fst d = z * b ^ k / dv end).
Proof.
  pose proof dv_pos as Hdv. pose proof dv_b as Hdb.
  induction fuel as [|f IH]; intros k z out Hk Hr Hf HkL Hbuf; cbn [write_mant_digits];
    pose proof (Z.pow_pos_nonneg b k ltac:(lia) Hk) as HPk.
  - assert (k = L) by lia. subst k. assert (z = 0) by nia. subst z. rewrite Z.mul_0_l, Z.eqb_refl.
    exists []. repeat split; try constructor; cbn; lia.
  - destruct (z * b ^ k =? 0) eqn:R0.
    + exists []. assert (z = 0) by nia. subst z. repeat split; try constructor; cbn [length positional]; lia.
    + assert (HkL' : k < L).
      { destruct (Z.eq_dec k L) as [->|]; [|lia]. assert (z <= 0) by nia. nia. }
      set (reg := z * b ^ k) in *.
      pose proof (Z.mod_pos_bound reg dv Hdv) as Hm. pose proof (Z.div_mod reg dv ltac:(lia)) as Hd.
      assert (Hdig : 0 <= reg / dv < b).
      { split; [apply Z.div_pos; lia|apply Z.div_lt_upper_bound; lia]. }
      set (out' := if Z.of_nat (length out) =? rdxpp then out ++ [0] else out).
      assert (Hlen : Z.of_nat (length out') = Z.of_nat (length out) + (if Z.of_nat (length out) =? rdxpp then 1 else 0)).
      { unfold out'. destruct (Z.of_nat (length out) =? rdxpp); [rewrite app_length; cbn [length]|]; lia. }
      replace (negb (reg / dv <? b)) with false by lia.
      replace (stor_size <=? Z.of_nat (length out')) with false.
      2:{ rewrite Hlen. unfold stor_size.
          destruct (Z.of_nat (length out) =? rdxpp) eqn:E1, (Z.of_nat (length out) <=? rdxpp) eqn:E2; lia. }
      cbn [orb].
      (* The register after one digit. *)
      assert (Hreg : exists z', reg mod dv * b = z' * b ^ (k + 1)).
      { exists (z - reg / dv * b ^ (L - 1 - k)).
        rewrite Z.pow_add_r, Z.pow_1_r by lia.
        assert (Hdvk : dv = b ^ (L - 1 - k) * b ^ k).
        { unfold dv. rewrite <- Z.pow_add_r by lia. f_equal. lia. }
        replace (reg mod dv) with (reg - dv * (reg / dv)) by lia.
        rewrite Hdvk at 1. unfold reg at 1. ring. }
      destruct Hreg as (z' & Hz').
      assert (Hr' : 0 <= z' * b ^ (k + 1) < b ^ L) by (rewrite <- Hz', <- Hdb; nia).
      replace (to_u64 (reg mod dv * b)) with (z' * b ^ (k + 1)).
      2:{ unfold to_u64. rewrite Hz'. symmetry. apply Z.mod_small. lia. }
      destruct (IH (k + 1) z' (out' ++ [digit_char (reg / dv)])) as (ds & E & Hok & Hcap & Hl & Hv & _).
      { lia. } { exact Hr'. } { lia. } { lia. }
      { rewrite app_length, Nat2Z.inj_add, Hlen. cbn [length].
        destruct (Z.of_nat (length out) =? rdxpp) eqn:E1, (Z.of_nat (length out) <=? rdxpp) eqn:E2;
          destruct (_ + _ <=? rdxpp) eqn:E3; lia. }
      exists ((reg / dv, true) :: ds). split.
      { rewrite E. unfold place. cbn [fold_left]. unfold place1 at 3. fold out'.
        rewrite (digit_char_text (reg / dv)) by lia. reflexivity. }
      split; [constructor; [cbn; lia|exact Hok]|]. split; [constructor; [reflexivity|exact Hcap]|].
      split; [cbn [length]; lia|]. split; [|reflexivity].
      cbn [positional fst length]. rewrite Nat2Z.inj_succ, Z.pow_succ_r by lia.
      set (Pn := b ^ Z.of_nat (length ds)) in *.
      replace (reg * (b * Pn)) with (dv * (reg / dv) * b * Pn + reg mod dv * b * Pn) by (rewrite Hd at 3; ring).
      rewrite Hz', Hv, <- Hdb. ring.
Qed.
End MANT.


Lemma set_point_mid (u v : bytes) c i : i = Z.of_nat (length u) -> set_point (u ++ [c] ++ v) i = u ++ [46] ++ v.
Proof.
  intros ->. unfold set_point. rewrite Nat2Z.id, !app_length. cbn [length].
  replace (length u <? length u + (1 + length v))%nat with true by (symmetry; apply Nat.ltb_lt; lia).
  rewrite firstn_app, firstn_all, Nat.sub_diag. cbn [firstn]. rewrite app_nil_r.
  rewrite skipn_app, skipn_all2 by lia.
  replace (S (length u) - length u)%nat with 1%nat by lia. reflexivity.
Qed.
Lemma set_point_end (u : bytes) i : Z.of_nat (length u) <= i -> set_point u i = u.
Proof.
  intros H. unfold set_point.
  replace (Z.to_nat i <? length u)%nat with false by (symmetry; apply Nat.ltb_ge; lia). reflexivity.
Qed.

Definition pad (o : bytes) (rdxpp : Z) : outcome bytes :=
  let w := Z.of_nat (length o) in
  if w <? rdxpp then
    if stor_size <? w + 8 * ((rdxpp - w + 7) / 8) then UB
    else Ok (o ++ repeat 48 (Z.to_nat (rdxpp - w)))
  else Ok o.
Lemma write_mantissa_eq out mant divisor base rdxpp :
  write_mantissa out mant divisor base rdxpp =
  obind (write_mant_digits 64 out mant divisor base rdxpp) (fun o => pad o rdxpp).
Proof. reflexivity. Qed.
Lemma pad_short o rdxpp : Z.of_nat (length o) <= rdxpp <= 64 ->
  pad o rdxpp = Ok (o ++ repeat 48 (Z.to_nat (rdxpp - Z.of_nat (length o)))).
Proof.
  intros H. unfold pad. destruct (Z.of_nat (length o) <? rdxpp) eqn:W.
  - replace (stor_size <? _) with false; [reflexivity|]. symmetry. apply Z.ltb_ge. unfold stor_size.
    pose proof (Z.mul_div_le (rdxpp - Z.of_nat (length o) + 7) 8 ltac:(lia)). lia.
  - replace (Z.to_nat _) with 0%nat by lia. cbn [repeat]. rewrite app_nil_r. reflexivity.
Qed.
Lemma pad_long o rdxpp : rdxpp <= Z.of_nat (length o) -> pad o rdxpp = Ok o.
Proof. intros H. unfold pad. replace (_ <? rdxpp) with false by lia. reflexivity. Qed.

Section LAYOUT.
Context (n : notation) (L mant : Z).
Local Notation b := (radix n).
Local Notation p := (power n).
Local Notation per := (per_digit n).
Context (HL : 2 <= L <= 53) (HbL : b ^ L < 2 ^ 64) (Hmant : 0 < mant < b ^ L).
Local Notation dv := (b ^ (L - 1)).

Lemma b_range : 2 <= b <= 16.
Proof. destruct n; cbn; lia. Qed.

Lemma mant_ok rdxpp out :
  Z.of_nat (length out) <= 11 ->
  exists ds, write_mant_digits 64 out mant dv b rdxpp = Ok (place rdxpp out ds) /\
    digits_ok b ds /\ capitals ds /\ 1 <= Z.of_nat (length ds) <= L /\
    mant * b ^ Z.of_nat (length ds) = positional b ds * b ^ L /\
    match ds with [] => False | d :: _ => fst d = mant / dv end.
Proof.
  intros Ho. pose proof b_range as Hb.
  destruct (mant_digits_ok b L Hb ltac:(lia) HbL rdxpp 64 0 mant out) as (ds & E & Hok & Hcap & Hl & Hv & Hh).
  - lia.
  - rewrite Z.pow_0_r; lia.
  - lia.
  - lia.
  - destruct (_ <=? rdxpp); lia.
  - rewrite Z.pow_0_r, Z.mul_1_r in *. exists ds. split; [exact E|]. split; [exact Hok|]. split; [exact Hcap|].
    destruct ds as [|d t]; [lia|]. split; [cbn [length] in *; lia|]. split; [exact Hv|exact Hh].
Qed.

Lemma power_radix j : 0 <= j -> p ^ (per * j) = b ^ j.
Proof. intros; symmetry; apply radix_power; assumption. Qed.

(* What is written after the prefix. *)
Definition Written (exp : Z) (I : list digit) (F : option (list digit)) (ev : Z) : Prop :=
  digits_ok b (I ++ fr_of F) /\ capitals (I ++ fr_of F) /\ I <> [] /\ (length (I ++ fr_of F) <= 57)%nat /\
  same_value p (positional b (I ++ fr_of F)) (ev - per * Z.of_nat (length (fr_of F))) mant (per * (exp - (L - 1))).

Lemma written_value D E lenz exp : 0 <= lenz ->
  D * b ^ L = mant * b ^ lenz -> E - per * (exp - (L - 1)) = per * (L - lenz) ->
  same_value p D E mant (per * (exp - (L - 1))).
Proof.
  intros Hl HD HE. pose proof (per_digit_pos n). exists (per * L), (per * lenz).
  split; [nia|]. split; [nia|]. split; [nia|]. rewrite !power_radix by lia. exact HD.
Qed.

Lemma plain_middle_ok h exp : length h = 3%nat -> 0 <= exp <= 52 ->
  exists I F, plain_middle h mant exp dv b = Ok (h ++ digits_text I ++ frac_text F) /\ Written exp I F 0.
Proof.
  intros Hh He. unfold plain_middle. rewrite write_mantissa_eq. pose proof b_range as Hb.
  destruct (mant_ok (3 + exp + 1) h ltac:(rewrite Hh; cbn; lia)) as (ds & -> & Hok & Hcap & Hl & Hv & _).
  cbn [obind].
  set (a := Z.to_nat (exp + 1)).
  assert (HP : place (3 + exp + 1) h ds = if (length ds <=? a)%nat then h ++ digits_text ds
    else h ++ digits_text (firstn a ds) ++ [0] ++ digits_text (skipn a ds)).
  { rewrite <- place_before. f_equal. rewrite Hh. unfold a. lia. }
  rewrite HP. destruct (length ds <=? a)%nat eqn:LA.
  - apply Nat.leb_le in LA.
    assert (HLo : Z.of_nat (length (h ++ digits_text ds)) = 3 + Z.of_nat (length ds))
      by (rewrite app_length, digits_text_length, Hh; lia).
    rewrite pad_short by (rewrite HLo; unfold a in LA; lia). rewrite HLo.
    exists (ds ++ zeros (a - length ds)), None. cbn [frac_text fr_of obind]. rewrite !app_nil_r.
    replace ((h ++ digits_text ds) ++ repeat 48 (Z.to_nat (3 + exp + 1 - (3 + Z.of_nat (length ds)))))
      with (h ++ digits_text (ds ++ zeros (a - length ds))).
    2:{ rewrite digits_text_app, zeros_text, <- app_assoc. do 3 f_equal. unfold a. lia. }
    split.
    + rewrite set_point_end; [reflexivity|].
      rewrite app_length, digits_text_length, app_length, zeros_length, Hh. unfold a. lia.
    + unfold Written. cbn [fr_of length]. rewrite app_nil_r. split; [apply digits_ok_app; [exact Hok|apply zeros_ok; lia]|].
      split; [apply Forall_app; split; [exact Hcap|apply zeros_capitals]|].
      split; [destruct ds; [cbn in Hl; lia|discriminate]|].
      split; [rewrite app_length, zeros_length; unfold a in *; lia|].
      apply (written_value _ _ (exp + 1)); [lia| |lia].
      rewrite positional_app, zeros_value, zeros_length, Z.add_0_r by lia.
      replace (positional b ds * b ^ Z.of_nat (a - length ds) * b ^ L)
        with (positional b ds * b ^ L * b ^ Z.of_nat (a - length ds)) by ring.
      rewrite <- Hv, <- Z.mul_assoc, <- Z.pow_add_r by lia. do 2 f_equal. unfold a in *. lia.
  - apply Nat.leb_gt in LA.
    exists (firstn a ds), (Some (skipn a ds)).
    assert (HW : Z.of_nat (length (h ++ digits_text (firstn a ds) ++ [0] ++ digits_text (skipn a ds))) = 4 + Z.of_nat (length ds)).
    { rewrite !app_length, !digits_text_length, firstn_length, skipn_length, Hh. cbn [length]. lia. }
    rewrite pad_long by (rewrite HW; unfold a in LA; lia).
    cbn [obind]. split.
    + rewrite app_assoc, set_point_mid.
      * rewrite <- app_assoc. reflexivity.
      * rewrite app_length, digits_text_length, firstn_length, Hh. unfold a in *. lia.
    + unfold Written. cbn [fr_of]. rewrite firstn_skipn.
      split; [exact Hok|]. split; [exact Hcap|].
      split; [destruct ds; [cbn in Hl; lia|]; unfold a; destruct (Z.to_nat (exp + 1)) eqn:X; [lia|discriminate]|].
      split; [lia|]. apply (written_value _ _ (Z.of_nat (length ds))); [lia|symmetry; exact Hv|].
      rewrite skipn_length. unfold a in *. lia.
Qed.

Lemma plain_zero_ok h exp : length h = 3%nat -> -4 <= exp < 0 ->
  exists I F, plain_zero h mant exp dv b = Ok (h ++ digits_text I ++ frac_text F) /\ Written exp I F 0.
Proof.
  intros Hh He. unfold plain_zero. pose proof b_range as Hb.
  set (zs := repeat 48 (Z.to_nat (- exp - 1))).
  assert (H1 : write_mantissa (h ++ [48; 0]) 0 1 1 (3 + 1 - exp) = Ok (h ++ [48; 0] ++ zs)).
  { rewrite write_mantissa_eq. cbn [write_mant_digits Z.eqb obind].
    assert (H5 : Z.of_nat (length (h ++ [48; 0])) = 5) by (rewrite app_length, Hh; reflexivity).
    rewrite pad_short by lia. rewrite H5. unfold zs. rewrite <- app_assoc. do 4 f_equal. lia. }
  rewrite H1. cbn [obind].
  assert (HZl : Z.of_nat (length (h ++ [48; 0] ++ zs)) = 4 - exp).
  { rewrite !app_length, Hh. unfold zs. rewrite repeat_length. cbn [length]. lia. }
  rewrite write_mantissa_eq.
  destruct (mant_ok (3 + 1) (h ++ [48; 0] ++ zs) ltac:(lia)) as (ds & -> & Hok & Hcap & Hl & Hv & _).
  cbn [obind]. rewrite place_after by lia.
  assert (HW : Z.of_nat (length ((h ++ [48; 0] ++ zs) ++ digits_text ds)) = 4 - exp + Z.of_nat (length ds)).
  { rewrite app_length, digits_text_length, Nat2Z.inj_add, HZl. reflexivity. }
  rewrite pad_long by lia. cbn [obind].
  exists [(0, true)], (Some (zeros (Z.to_nat (- exp - 1)) ++ ds)). split.
  - replace ((h ++ [48; 0] ++ zs) ++ digits_text ds) with ((h ++ [48]) ++ [0] ++ (zs ++ digits_text ds))
      by (rewrite <- !app_assoc; reflexivity).
    rewrite set_point_mid by (rewrite app_length, Hh; reflexivity).
    cbn [frac_text]. rewrite digits_text_app, zeros_text. fold zs. rewrite <- !app_assoc. reflexivity.
  - unfold Written. cbn [fr_of]. split.
    { constructor; [cbn; lia|]. apply digits_ok_app; [apply zeros_ok; lia|exact Hok]. }
    split; [constructor; [reflexivity|apply Forall_app; split; [apply zeros_capitals|exact Hcap]]|].
    split; [discriminate|]. split; [cbn [app length]; rewrite app_length, zeros_length; lia|].
    apply (written_value _ _ (Z.of_nat (length ds))); [lia| |].
    + cbn [app positional fst]. rewrite positional_app, zeros_value, Z.mul_0_l, !Z.add_0_l by lia. symmetry. exact Hv.
    + rewrite app_length, zeros_length. pose proof (per_digit_pos n). nia.
Qed.

Lemma exponent_digits a : 0 <= a < 2048 ->
  exists es, (if a <? 100 then do ds <- small_decimal (100 + a) ; Ok (firstn 2 (tl ds)) else small_decimal a)
             = Ok (digits_text es) /\
    digits_ok 10 es /\ es <> [] /\ positional 10 es = a /\ (2 <= length es <= 4)%nat.
Proof.
  intros Ha. destruct (a <? 100) eqn:A.
  - destruct (small_decimal_ok (100 + a) ltac:(lia)) as (ds & E & Hok & _ & Hv & _ & Hl).
    rewrite E. cbn [obind].
    assert (HX : 100 + a = 100 + a / 10 * 10 + a mod 10) by (pose proof (Z.div_mod a 10); lia).
    exists [(a / 10, true); (a mod 10, true)].
    pose proof (Z.mod_pos_bound a 10 ltac:(lia)).
    assert (0 <= a / 10 < 10) by (split; [apply Z.div_pos; lia|apply Z.div_lt_upper_bound; lia]).
    split.
    + unfold small_decimal in E. replace ((0 <=? 100 + a) && (100 + a <? 2048)) with true in E by lia.
      replace (100 + a <? 10) with false in E by lia. replace (100 + a <? 100) with false in E by lia.
      replace (100 + a <? 1000) with true in E by lia.
      injection E as E. rewrite <- E. cbn [tl firstn]. unfold digits_text. cbn [map].
      rewrite !digit_text_dec by (cbn [fst]; lia). cbn [fst]. do 2 f_equal.
      * f_equal. replace (100 + a) with (a + 10 * 10) by lia. rewrite Z.div_add by lia.
        replace (a / 10 + 10) with (a / 10 + 1 * 10) by lia.
        rewrite Z.mod_add, Z.mod_small by lia. reflexivity.
      * f_equal. f_equal. replace (100 + a) with (a + 10 * 10) by lia. apply Z.mod_add. lia.
    + split; [repeat constructor; cbn; lia|]. split; [discriminate|].
      split; [cbn [positional fst length]; change (Z.of_nat 1) with 1; change (Z.of_nat 0) with 0;
              rewrite Z.pow_1_r, Z.pow_0_r; lia|cbn; lia].
  - destruct (small_decimal_ok a ltac:(lia)) as (ds & E & Hok & _ & Hv & Hleast & Hl).
    exists ds. split; [exact E|]. split; [exact Hok|].
    assert (Hl2 : (2 <= length ds)%nat).
    { destruct ds as [|x [|y t]]; cbn [length]; [cbn in Hv; lia| |lia].
      cbn [positional length] in Hv. change (Z.of_nat 0) with 0 in Hv. rewrite Z.pow_0_r in Hv.
      inversion Hok; subst. cbn in *. lia. }
    split; [intros ->; cbn in Hl2; lia|]. split; [exact Hv|lia].
Qed.

Lemma scientific_ok h exp expv mark : length h = 3%nat -> -2048 < expv < 2048 -> expv = per * exp ->
  mark = (match n with Decimal => 101 | _ => 112 end) ->
  exists I F es,
    scientific h mant expv dv b mark
    = Ok (h ++ digits_text I ++ frac_text F ++ exp_text n (Some (Expo false (Some (expv <? 0)) es))) /\
    Written exp I F expv /\ length I = 1%nat /\ (match I with [] => False | d :: _ => fst d = mant / dv end) /\
    digits_ok 10 es /\ es <> [] /\ positional 10 es = Z.abs expv /\ (length es <= 4)%nat.
Proof.
  intros Hh He Hexp Hmark. unfold scientific. rewrite write_mantissa_eq. pose proof b_range as Hb.
  destruct (mant_ok (3 + 1) h ltac:(rewrite Hh; cbn; lia)) as (ds & -> & Hok & Hcap & Hl & Hv & Hhead).
  cbn [obind].
  assert (HP : place (3 + 1) h ds = if (length ds <=? 1)%nat then h ++ digits_text ds
    else h ++ digits_text (firstn 1 ds) ++ [0] ++ digits_text (skipn 1 ds)).
  { rewrite <- place_before. f_equal. rewrite Hh. reflexivity. }
  assert (Hsci : exists I F, obind (pad (place (3 + 1) h ds) (3 + 1)) (fun o => Ok (set_point o (3 + 1)))
                   = Ok (h ++ digits_text I ++ frac_text F) /\
     Written exp I F expv /\ length I = 1%nat /\ (match I with [] => False | d :: _ => fst d = mant / dv end) /\
     (length (I ++ fr_of F) <= 53)%nat).
  { rewrite HP. destruct ds as [|d t]; [cbn in Hl; lia|]. destruct t as [|d2 t2].
    - cbn [length Nat.leb]. exists [d], None.
      rewrite pad_long by (rewrite app_length, Hh; cbn; lia). cbn [obind].
      split; [rewrite set_point_end by (rewrite app_length, Hh; cbn; lia); cbn [frac_text]; rewrite app_nil_r; reflexivity|].
      split; [|split; [reflexivity|split; [exact Hhead|cbn; lia]]].
      unfold Written. cbn [fr_of app length]. split; [exact Hok|]. split; [exact Hcap|]. split; [discriminate|]. split; [lia|].
      apply (written_value _ _ 1); [lia|symmetry; exact Hv|]. change (Z.of_nat 0) with 0. rewrite Hexp. ring.
    - set (ds := d :: d2 :: t2) in *. replace (length ds <=? 1)%nat with false by reflexivity.
      exists (firstn 1 ds), (Some (skipn 1 ds)).
      assert (HW : Z.of_nat (length (h ++ digits_text (firstn 1 ds) ++ [0] ++ digits_text (skipn 1 ds))) = 4 + Z.of_nat (length ds)).
      { rewrite !app_length, !digits_text_length, firstn_length, skipn_length, Hh. cbn [length]. lia. }
      rewrite pad_long by (rewrite HW; lia). cbn [obind]. split.
      + rewrite app_assoc, set_point_mid.
        * rewrite <- app_assoc. reflexivity.
        * rewrite app_length, digits_text_length, firstn_length, Hh. cbn [length ds]. lia.
      + split; [|split; [reflexivity|split; [exact Hhead|cbn [fr_of]; rewrite firstn_skipn; lia]]].
        unfold Written. cbn [fr_of]. rewrite firstn_skipn. split; [exact Hok|]. split; [exact Hcap|].
        split; [discriminate|]. split; [lia|].
        apply (written_value _ _ (Z.of_nat (length ds))); [lia|symmetry; exact Hv|].
        rewrite skipn_length. rewrite Hexp. replace (Z.of_nat (length ds - 1)) with (Z.of_nat (length ds) - 1) by lia. ring. }
  destruct Hsci as (I & F & Hsci & HWr & HI1 & HIh & HIl).
  destruct (exponent_digits (Z.abs expv) ltac:(lia)) as (es & Ee & Hes & Hene & Hev & Hel).
  exists I, F, es.
  split; [|split; [exact HWr|split; [exact HI1|split; [exact HIh|split; [exact Hes|split; [exact Hene|split; [exact Hev|lia]]]]]]].
  destruct (pad (place (3 + 1) h ds) (3 + 1)) as [o| |]; cbn [obind] in Hsci |- *; try discriminate.
  injection Hsci as Hsci. rewrite Hsci. unfold write_exponent.
  assert (HLen : Z.of_nat (length ((h ++ digits_text I ++ frac_text F) ++ [mark])) + 5 <= 71).
  { rewrite !app_length, digits_text_length, Hh. rewrite app_length in HIl. cbn [length].
    destruct F as [F|]; cbn [frac_text fr_of length] in *; [|lia].
    rewrite app_length, digits_text_length. cbn [str length]. change (length (str ".")) with 1%nat. lia. }
  replace (stor_size <? _) with false by (unfold stor_size; lia).
  assert (HM : [mark] = mark_text n false) by (rewrite Hmark; destruct n; reflexivity).
  assert (HSG : [if 0 <=? expv then 43 else 45] = sign_text (Some (expv <? 0))).
  { destruct (expv <? 0) eqn:X; [replace (0 <=? expv) with false by lia|replace (0 <=? expv) with true by lia]; reflexivity. }
  cbn [exp_text e_capital e_sign e_digits]. rewrite <- HM, <- HSG.
  destruct (Z.abs expv <? 100).
  - destruct (small_decimal (100 + Z.abs expv)) as [t| |]; cbn [obind] in Ee |- *; try discriminate.
    assert (Ee2 : firstn 2 (tl t) = digits_text es) by congruence. rewrite Ee2. rewrite <- !app_assoc. reflexivity.
  - rewrite Ee. cbn [obind]. rewrite <- !app_assoc. reflexivity.
Qed.

Definition real_lit (neg : bool) (I : list digit) (F : option (list digit)) (e : option exponent) : literal :=
  Lit (if neg then Some true else None) n false I F e.

Lemma layout_ok (plain : bool) (h : bytes) (drop : Z) (neg : bool) (exp expv mark lim : Z) :
  length h = 3%nat -> -2048 < expv < 2048 -> expv = per * exp ->
  mark = (match n with Decimal => 101 | _ => 112 end) -> lim <= 53 ->
  (forall r, skipn (Z.to_nat drop) (h ++ r) = (if neg then [45] else []) ++ prefix_text n false ++ r) ->
  exists I F e,
    finish_real drop
      (if plain && (0 <=? exp) && (exp <? lim) then plain_middle h mant exp dv b
       else if plain && (-4 <=? exp) && (exp <? 0) then plain_zero h mant exp dv b
       else scientific h mant expv dv b mark) = Ok (text_of (real_lit neg I F e)) /\
    wf_literal (real_lit neg I F e) /\ capitals (I ++ fr_of F) /\
    same_value p (significand (real_lit neg I F e)) (scale (real_lit neg I F e)) mant (per * (exp - (L - 1))) /\
    (plain = false -> e <> None /\ length I = 1%nat /\ match I with [] => False | d :: _ => fst d = mant / dv end).
Proof.
  intros Hh Hexpv Hper Hmark Hlim Hdrop.
  assert (Hskip : forall r, Z.of_nat (length (h ++ r)) < 71 ->
    finish_real drop (Ok (h ++ r)) = Ok ((if neg then [45] else []) ++ prefix_text n false ++ r)).
  { intros r Hr. unfold finish_real. cbn [obind]. unfold stor_size.
    replace (Z.of_nat (length (h ++ r)) <? 71) with true by lia. rewrite Hdrop. reflexivity. }
  assert (Htext : forall I F e, text_of (real_lit neg I F e) =
    (if neg then [45] else []) ++ prefix_text n false ++ digits_text I ++ frac_text F ++ exp_text n e).
  { intros. unfold text_of, real_lit. cbn [l_sign l_notation l_capital l_int l_frac l_exp]. destruct neg; reflexivity. }
  assert (Hfl : forall F, (length (frac_text F) <= 1 + length (fr_of F))%nat).
  { intros [F|]; cbn [frac_text fr_of length]; [rewrite app_length, digits_text_length; change (length (str ".")) with 1%nat; lia|lia]. }
  assert (Hwf : forall I F e ev, Written exp I F ev ->
     match e with None => ev = 0 | Some x => e_sign x = Some (ev <? 0) /\ digits_ok 10 (e_digits x) /\ e_digits x <> [] /\
        positional 10 (e_digits x) = Z.abs ev /\ (length (e_digits x) <= 4)%nat end -> -2048 < ev < 2048 ->
     wf_literal (real_lit neg I F e) /\ capitals (I ++ fr_of F) /\
     same_value p (significand (real_lit neg I F e)) (scale (real_lit neg I F e)) mant (per * (exp - (L - 1)))).
  { intros I F e ev (H1 & H2 & H3 & H4 & H5) He Hev. split; [|split; [exact H2|]].
    - unfold wf_literal. cbn [real_lit l_notation l_int l_frac l_exp]. unfold frac_digits. cbn [real_lit l_frac].
      fold (fr_of F). split; [exact H1|]. split; [destruct I; [congruence|discriminate]|]. split.
      + rewrite Htext, !app_length, digits_text_length. specialize (Hfl F). rewrite app_length in H4.
        assert ((length (prefix_text n false) <= 2)%nat) by (destruct n; vm_compute; lia).
        assert ((length (if neg then [45%Z] else []) <= 1)%nat) by (destruct neg; vm_compute; lia).
        assert ((length (exp_text n e) <= 6)%nat).
        { destruct e as [e|]; [|cbn; lia]. destruct He as (_ & _ & _ & _ & He).
          unfold exp_text. rewrite !app_length, digits_text_length.
          assert ((length (mark_text n (e_capital e)) <= 1)%nat) by (destruct n, (e_capital e); vm_compute; lia).
          assert ((length (sign_text (e_sign e)) <= 1)%nat) by (destruct (e_sign e) as [[]|]; vm_compute; lia).
          lia. }
        lia.
      + destruct e as [e|]; [|exact Logic.I]. destruct He as (_ & Hd & Hn & Hp & _).
        split; [exact Hd|]. split; [exact Hn|]. rewrite Hp. lia.
    - unfold significand, scale, exp_value, frac_digits. cbn [real_lit l_notation l_int l_frac l_exp]. fold (fr_of F).
      replace (match e with None => 0 | Some x => signed (e_sign x) (positional 10 (e_digits x)) end) with ev; [exact H5|].
      destruct e as [e|]; [|exact He]. destruct He as (-> & _ & _ & -> & _).
      destruct (ev <? 0) eqn:X; cbn [signed]; lia. }
  destruct (plain && (0 <=? exp) && (exp <? lim)) eqn:B1.
  { apply andb_prop in B1 as [B1 B3]. apply andb_prop in B1 as [B1 B2].
    destruct (plain_middle_ok h exp Hh ltac:(lia)) as (I & F & E & HW). exists I, F, None.
    pose proof HW as (_ & _ & _ & Hlen & _). rewrite app_length in Hlen. specialize (Hfl F).
    split; [rewrite E, Htext; cbn [exp_text]; rewrite app_nil_r; apply Hskip; rewrite !app_length, digits_text_length, Hh; lia|].
    destruct (Hwf I F None 0 HW eq_refl ltac:(lia)) as (W1 & W2 & W3). repeat split; try assumption; try apply W1; congruence. }
  destruct (plain && (-4 <=? exp) && (exp <? 0)) eqn:B4.
  { apply andb_prop in B4 as [B4 B6]. apply andb_prop in B4 as [B4 B5].
    destruct (plain_zero_ok h exp Hh ltac:(lia)) as (I & F & E & HW). exists I, F, None.
    pose proof HW as (_ & _ & _ & Hlen & _). rewrite app_length in Hlen. specialize (Hfl F).
    split; [rewrite E, Htext; cbn [exp_text]; rewrite app_nil_r; apply Hskip; rewrite !app_length, digits_text_length, Hh; lia|].
    destruct (Hwf I F None 0 HW eq_refl ltac:(lia)) as (W1 & W2 & W3). repeat split; try assumption; try apply W1; congruence. }
  destruct (scientific_ok h exp expv mark Hh Hexpv Hper Hmark) as (I & F & es & E & HW & HI1 & HIh & Hes & Hene & Hev & Hel).
  set (e := Some (Expo false (Some (expv <? 0)) es)) in *.
  exists I, F, e. pose proof HW as (_ & _ & _ & Hlen & _). rewrite app_length in Hlen. specialize (Hfl F).
  assert (He6 : (length (exp_text n e) <= 6)%nat).
  { unfold e, exp_text. cbn [e_capital e_sign e_digits]. rewrite !app_length, digits_text_length.
    assert ((length (mark_text n false) <= 1)%nat) by (destruct n; vm_compute; lia).
    assert ((length (sign_text (Some (expv <? 0)%Z)) <= 1)%nat) by (destruct (expv <? 0)%Z; vm_compute; lia). lia. }
  split; [rewrite E, Htext; apply Hskip; rewrite !app_length, digits_text_length, Hh; lia|].
  destruct (Hwf I F e expv HW) as (W1 & W2 & W3).
  { unfold e. cbn [e_sign e_digits]. repeat split; assumption. }
  { exact Hexpv. }
  split; [exact W1|]. split; [exact W2|]. split; [exact W3|]. intros _. split; [discriminate|split; assumption].
Qed.
End LAYOUT.
