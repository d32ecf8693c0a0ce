(* Decimal digits and time stamps. *)
From Verif Require Import Base Text Monad NumPutModel ValueModel FmtModel FmtSpec.

Local Open Scope Z_scope.

Lemma dec_length k n : length (dec k n) = k.
Proof. revert n; induction k; intro n; cbn; [reflexivity|]. rewrite app_length, IHk. cbn. lia. Qed.

Lemma repeat_snoc {A} (x : A) n : repeat x n ++ [x] = x :: repeat x n.
Proof. induction n; cbn; [reflexivity|]. now rewrite IHn. Qed.

Lemma pow10_S k : 10 ^ Z.of_nat (S k) = 10 * 10 ^ Z.of_nat k.
Proof. rewrite Nat2Z.inj_succ. apply Z.pow_succ_r. lia. Qed.

Lemma div10_lt k v : 0 <= v < 10 ^ Z.of_nat (S k) -> 0 <= v / 10 < 10 ^ Z.of_nat k.
Proof.
  rewrite pow10_S. intros H. split; [apply Z.div_pos; lia|]. apply Z.div_lt_upper_bound; lia.
Qed.

Lemma dec_zero j : dec j 0 = repeat 48 j.
Proof. induction j; cbn [dec repeat]; [reflexivity|]. change (0 / 10) with 0. rewrite IHj.
  change (48 + 0 mod 10) with 48. apply repeat_snoc. Qed.

Lemma dec_pad j k v : 0 <= v < 10 ^ Z.of_nat k -> dec (j + k) v = repeat 48 j ++ dec k v.
Proof.
  revert v; induction k; intros v H.
  - change (10 ^ Z.of_nat 0) with 1 in H. assert (v = 0) by lia. subst. rewrite Nat.add_0_r. cbn.
    rewrite app_nil_r. apply dec_zero.
  - rewrite Nat.add_succ_r. cbn [dec]. rewrite IHk by (apply div10_lt, H). now rewrite app_assoc.
Qed.

Lemma digit_char_low d : 0 <= d <= 9 -> digit_char d = 48 + d.
Proof.
  intros H. unfold digit_char. rewrite Z.mod_small by lia. rewrite Z.shiftr_div_pow2 by lia.
  rewrite Z.div_small by lia. lia.
Qed.

Lemma pop_dec k : forall v acc fuel, 10 ^ Z.of_nat k <= v < 10 ^ Z.of_nat (S k) ->
  (S k <= fuel)%nat -> pop_digits fuel 10 v acc = Ok (dec (S k) v ++ acc).
Proof.
  induction k; intros v acc fuel Hv Hf.
  - change (10 ^ Z.of_nat 0) with 1 in Hv. change (10 ^ Z.of_nat 1) with 10 in Hv.
    destruct fuel as [|[|f]]; [lia| |]; cbn [pop_digits];
    (destruct (Z.eqb_spec v 0); [lia|]); (rewrite Z.div_small by lia); cbn -[digit_char Z.modulo];
    rewrite digit_char_low by (rewrite Z.mod_small; lia); reflexivity.
  - destruct fuel as [|f]; [lia|]. cbn [pop_digits].
    assert (0 < 10 ^ Z.of_nat (S k)) by (apply Z.pow_pos_nonneg; lia).
    destruct (Z.eqb_spec v 0); [lia|].
    rewrite IHk; [| |lia].
    + cbn [dec]. rewrite digit_char_low by (pose proof (Z.mod_pos_bound v 10); lia).
      repeat rewrite <- app_assoc. reflexivity.
    + split; [|apply div10_lt; lia]. rewrite pow10_S in Hv at 1.
      apply Z.div_le_lower_bound; lia.
Qed.

Lemma log10_ex v : 0 < v -> exists k, 10 ^ Z.of_nat k <= v < 10 ^ Z.of_nat (S k).
Proof.
  intros H. assert (G : forall n, v < 10 ^ Z.of_nat n -> exists k, 10 ^ Z.of_nat k <= v < 10 ^ Z.of_nat (S k)).
  { induction n; intros L; [change (10 ^ Z.of_nat 0) with 1 in L; lia|].
    destruct (Z_lt_le_dec v (10 ^ Z.of_nat n)); [now apply IHn|]. exists n. lia. }
  apply (G (Z.to_nat v)). rewrite Z2Nat.id by lia. apply Z.pow_gt_lin_r; lia.
Qed.

Lemma pow10_lt a b : 10 ^ Z.of_nat a < 10 ^ Z.of_nat b -> (a < b)%nat.
Proof. intros H. apply Z.pow_lt_mono_r_iff in H; lia. Qed.

Lemma write_dec p v : (1 <= p <= 20)%nat -> 0 <= v < 10 ^ Z.of_nat p ->
  write_digits_backwards (Z.of_nat p) 10 v = Ok (dec p v).
Proof.
  intros Hp Hv. unfold write_digits_backwards, stor_size.
  destruct (Z.eq_dec v 0) as [->|N].
  - change (pop_digits 64 10 0 []) with (@Ok bytes []). cbn [obind length].
    rewrite dec_zero.
    destruct (Z.ltb_spec (71 - 1 - Z.of_nat 0) 0); [lia|].
    destruct (Z.ltb_spec (71 - 1 - Z.of_nat p) (71 - 1 - Z.of_nat 0)); [|lia].
    destruct (Z.ltb_spec (71 - 1 - Z.of_nat 0 - 8 * ((71 - 1 - Z.of_nat 0 - (71 - 1 - Z.of_nat p) + 7) / 8)) 0).
    { exfalso. pose proof (Z.mul_div_le (71 - 1 - Z.of_nat 0 - (71 - 1 - Z.of_nat p) + 7) 8). lia. }
    rewrite app_nil_r. do 2 f_equal. lia.
  - destruct (log10_ex v) as [k Hk]; [lia|].
    assert (L : (k < p)%nat) by (apply pow10_lt; lia).
    rewrite (pop_dec k) by (lia || exact Hk). rewrite app_nil_r. cbn [obind].
    rewrite dec_length.
    destruct (Z.ltb_spec (71 - 1 - Z.of_nat (S k)) 0); [lia|].
    destruct (Z.ltb_spec (71 - 1 - Z.of_nat p) (71 - 1 - Z.of_nat (S k))).
    + destruct (Z.ltb_spec (71 - 1 - Z.of_nat (S k) - 8 * ((71 - 1 - Z.of_nat (S k) - (71 - 1 - Z.of_nat p) + 7) / 8)) 0).
      { exfalso. pose proof (Z.mul_div_le (71 - 1 - Z.of_nat (S k) - (71 - 1 - Z.of_nat p) + 7) 8). lia. }
      f_equal. replace p with ((p - S k) + S k)%nat at 2 by lia. rewrite dec_pad by lia.
      do 2 f_equal. lia.
    + replace p with (S k) by lia. reflexivity.
Qed.

Lemma write_short v : 2048 <= v < 2 ^ 64 ->
  exists t, write_digits_backwards 1 10 v = Ok t /\ decimal v t.
Proof.
  intros Hv. destruct (log10_ex v) as [k Hk]; [lia|].
  assert (L : (k < 20)%nat).
  { apply pow10_lt. eapply Z.le_lt_trans; [apply Hk|]. eapply Z.lt_trans; [apply Hv|]. reflexivity. }
  exists (dec (S k) v). split; [|exists k; repeat split; try lia; intros _; lia].
  unfold write_digits_backwards, stor_size. rewrite (pop_dec k) by (lia || exact Hk).
  rewrite app_nil_r. cbn [obind]. rewrite dec_length.
  destruct (Z.ltb_spec (71 - 1 - Z.of_nat (S k)) 0); [lia|].
  destruct (Z.ltb_spec (71 - 1 - 1) (71 - 1 - Z.of_nat (S k))); [lia|reflexivity].
Qed.

Lemma small_dec v : 0 <= v < 2048 -> exists t, small_decimal v = Ok t /\ decimal v t.
Proof.
  intros Hv. unfold small_decimal. destruct (Z.leb_spec 0 v); [|lia]. destruct (Z.ltb_spec v 2048); [|lia].
  cbn [andb]. eexists; split; [reflexivity|].
  pose proof (Z.mod_pos_bound v 10). pose proof (Z.div_mod v 10).
  assert (D2 : v / 10 / 10 = v / 100) by (rewrite Z.div_div by lia; reflexivity).
  assert (D3 : v / 100 / 10 = v / 1000) by (rewrite Z.div_div by lia; reflexivity).
  destruct (Z.ltb_spec v 10); [|destruct (Z.ltb_spec v 100); [|destruct (Z.ltb_spec v 1000)]].
  - exists 0%nat. cbn. rewrite Z.mod_small by lia. repeat split; lia.
  - exists 1%nat. cbn [dec app]. rewrite (Z.mod_small (v / 10)) by (split; [apply Z.div_pos|apply Z.div_lt_upper_bound]; lia).
    change (10 ^ Z.of_nat 2) with 100. change (10 ^ Z.of_nat 1) with 10. repeat split; lia.
  - exists 2%nat. cbn [dec app]. rewrite D2, (Z.mod_small (v / 100)) by (split; [apply Z.div_pos|apply Z.div_lt_upper_bound]; lia).
    change (10 ^ Z.of_nat 3) with 1000. change (10 ^ Z.of_nat 2) with 100. repeat split; lia.
  - exists 3%nat. cbn [dec app]. rewrite D2, D3, (Z.mod_small (v / 1000)) by (split; [apply Z.div_pos|apply Z.div_lt_upper_bound]; lia).
    change (10 ^ Z.of_nat 4) with 10000. change (10 ^ Z.of_nat 3) with 1000. repeat split; lia.
Qed.

Lemma put_DU_1 v : 0 <= v < 2 ^ 64 -> exists t, put_DU v 1 = Ok t /\ decimal v t.
Proof.
  intros Hv. unfold put_DU. change (1 =? 1) with true. change (Z.min 1 20) with 1. cbn [andb].
  destruct (Z.ltb_spec v 2048); [apply small_dec|apply write_short]; lia.
Qed.

Lemma put_DU_p p v : (2 <= p <= 20)%nat -> 0 <= v < 10 ^ Z.of_nat p ->
  put_DU v (Z.of_nat p) = Ok (dec p v).
Proof.
  intros Hp Hv. unfold put_DU. destruct (Z.eqb_spec (Z.of_nat p) 1); [lia|]. cbn [andb].
  rewrite Z.min_l by lia. apply write_dec; lia.
Qed.

Lemma abs_value_ok v : - 2 ^ 63 <= v < 2 ^ 63 -> abs_value v = Z.abs v.
Proof.
  intros H. unfold abs_value, to_u64. destruct (Z_lt_le_dec v 0).
  - replace (v mod 2 ^ 64) with (v + 2 ^ 64) by (apply (Z.mod_unique_pos _ _ (-1)); lia).
    replace (- (v + 2 ^ 64)) with (- v + (-1) * 2 ^ 64) by lia. rewrite Z.mod_add by lia.
    rewrite Z.mod_small by lia. lia.
  - rewrite (Z.mod_small v) by lia. destruct (Z.eq_dec v 0) as [->|]; [reflexivity|].
    replace (- v mod 2 ^ 64) with (- v + 2 ^ 64) by (apply (Z.mod_unique_pos _ _ (-1)); lia).
    lia.
Qed.

Lemma decimal_length v t : 0 <= v < 2 ^ 64 -> decimal v t -> (length t <= 20)%nat.
Proof.
  intros Hv (k & -> & H1 & H2). rewrite dec_length. destruct k; [lia|].
  assert (L : (S k < 20)%nat); [|lia].
  apply pow10_lt. eapply Z.le_lt_trans; [apply H2; lia|]. eapply Z.lt_trans; [apply Hv|]. reflexivity.
Qed.

Lemma put_DI_1 v : - 2 ^ 63 <= v < 2 ^ 63 ->
  exists t, put_DI v 1 = Ok ((if v <? 0 then [45] else []) ++ t) /\ decimal (Z.abs v) t.
Proof.
  intros Hv. unfold put_DI. rewrite abs_value_ok by exact Hv. change (1 =? 1) with true.
  change (Z.min 1 20) with 1. cbn [andb]. destruct (Z.ltb_spec (Z.abs v) 2048).
  - destruct (small_dec (Z.abs v)) as (t & E & D); [lia|]. exists t. rewrite E. now split.
  - destruct (write_short (Z.abs v)) as (t & E & D); [lia|]. exists t. rewrite E. cbn [obind].
    apply decimal_length in D as L; [|lia]. unfold stor_size.
    destruct (Z.ltb_spec (71 - 1 - Z.of_nat (length t) - 1) 0); [lia|]. now split.
Qed.

Lemma put_DI_p p v : (2 <= p <= 20)%nat -> - 2 ^ 63 <= v < 2 ^ 63 -> Z.abs v < 10 ^ Z.of_nat p ->
  put_DI v (Z.of_nat p) = Ok ((if v <? 0 then [45] else []) ++ dec p (Z.abs v)).
Proof.
  intros Hp Hr Hv. unfold put_DI. rewrite abs_value_ok by exact Hr.
  destruct (Z.eqb_spec (Z.of_nat p) 1); [lia|]. cbn [andb]. rewrite Z.min_l by lia.
  rewrite write_dec by lia. cbn [obind]. rewrite dec_length. unfold stor_size.
  destruct (Z.ltb_spec (71 - 1 - Z.of_nat p - 1) 0); [lia|reflexivity].
Qed.

(* concatenation of digit groups *)
Lemma dec_group j k a b : 0 <= b < 10 ^ Z.of_nat k ->
  dec (j + k) (a * 10 ^ Z.of_nat k + b) = dec j a ++ dec k b.
Proof.
  revert b; induction k; intros b H.
  - change (10 ^ Z.of_nat 0) with 1 in *. rewrite Nat.add_0_r. cbn [dec]. rewrite app_nil_r. f_equal. lia.
  - rewrite Nat.add_succ_r. cbn [dec]. rewrite pow10_S.
    replace (a * (10 * 10 ^ Z.of_nat k) + b) with (b + a * 10 ^ Z.of_nat k * 10) by lia.
    rewrite Z.div_add, Z.mod_add by lia. rewrite (Z.add_comm (b / 10)), IHk by (apply div10_lt, H).
    now rewrite app_assoc.
Qed.
