(* Time stamps. *)
From Verif Require Import Base Text Monad NumPutModel ValueModel FmtModel FmtSpec FmtProofs1.

Local Open Scope Z_scope.

Lemma len2 {A} (l : list A) : length l = 2%nat -> exists a b, l = [a; b].
Proof. destruct l as [|a [|b [|]]]; try discriminate. eauto. Qed.
Lemma len4 {A} (l : list A) : length l = 4%nat -> exists a b c d, l = [a; b; c; d].
Proof. destruct l as [|a [|b [|c [|d [|]]]]]; try discriminate. eauto. Qed.
Lemma len9 {A} (l : list A) : length l = 9%nat ->
  exists a b c d e f g h i, l = [a; b; c; d; e; f; g; h; i].
Proof.
  destruct l as [|a [|b [|c [|d [|e [|f [|g [|h [|i [|]]]]]]]]]]; try discriminate.
  intros _. now exists a, b, c, d, e, f, g, h, i.
Qed.

Lemma year_ok y : -1900 <= y <= 8099 -> to_u32 (to_u32 y + 1900) = y + 1900.
Proof. intros H. unfold to_u32. rewrite Zplus_mod_idemp_l. apply Z.mod_small. lia. Qed.
Lemma mon_ok y : 0 <= y <= 11 -> to_u32 (to_u32 y + 1) = y + 1.
Proof. intros H. unfold to_u32. rewrite Zplus_mod_idemp_l. apply Z.mod_small. lia. Qed.
Lemma u32_ok y : 0 <= y < 2 ^ 32 -> to_u32 y = y.
Proof. intros H. apply Z.mod_small. lia. Qed.
Lemma u64_ok y : 0 <= y < 2 ^ 64 -> to_u64 y = y.
Proof. intros H. apply Z.mod_small. lia. Qed.

Lemma dec3 v : 0 <= v < 100 -> dec 3 v = 48 :: dec 2 v.
Proof. intros H. apply (dec_pad 1 2). exact H. Qed.

Lemma date_digits y mo d h mi s :
  0 <= y <= 9999 -> 0 <= mo < 100 -> 0 <= d < 100 -> 0 <= h < 100 -> 0 <= mi < 100 -> 0 <= s < 100 ->
  put_DU (((((y * 1000 + mo) * 1000 + d) * 1000 + h) * 1000 + mi) * 1000 + s) 19 =
  Ok (dec 4 y ++ (48 :: dec 2 mo) ++ (48 :: dec 2 d) ++ (48 :: dec 2 h) ++ (48 :: dec 2 mi) ++
      (48 :: dec 2 s)).
Proof.
  intros. change 19 with (Z.of_nat 19). rewrite put_DU_p; [|lia|].
  2:{ change (10 ^ Z.of_nat 19) with 10000000000000000000. lia. }
  f_equal. rewrite <- !dec3 by assumption. change 1000 with (10 ^ Z.of_nat 3).
  change 19%nat with (16 + 3)%nat. rewrite dec_group by (change (10 ^ Z.of_nat 3) with 1000; lia).
  change 16%nat with (13 + 3)%nat. rewrite dec_group by (change (10 ^ Z.of_nat 3) with 1000; lia).
  change 13%nat with (10 + 3)%nat. rewrite dec_group by (change (10 ^ Z.of_nat 3) with 1000; lia).
  change 10%nat with (7 + 3)%nat. rewrite dec_group by (change (10 ^ Z.of_nat 3) with 1000; lia).
  change 7%nat with (4 + 3)%nat. rewrite dec_group by (change (10 ^ Z.of_nat 3) with 1000; lia).
  now rewrite <- !app_assoc.
Qed.

Lemma zone_digits off : -86400 <= off <= 86400 ->
  put_DI (Z.quot off 3600 * 100 + Z.rem (Z.quot off 60) 60) 4 =
  Ok ((if off <=? -60 then [45] else []) ++ dec 2 (Z.abs off / 3600) ++ dec 2 (Z.abs off / 60 mod 60)).
Proof.
  intros H.
  assert (Q1 : forall a, 0 <= a <= 86400 -> Z.quot a 3600 * 100 + Z.rem (Z.quot a 60) 60
                 = a / 3600 * 100 + a / 60 mod 60).
  { intros a Ha. rewrite !Z.quot_div_nonneg by lia. rewrite Z.rem_mod_nonneg; [reflexivity| |lia].
    apply Z.div_pos; lia. }
  assert (Q2 : Z.quot off 3600 * 100 + Z.rem (Z.quot off 60) 60 =
               Z.sgn off * (Z.abs off / 3600 * 100 + Z.abs off / 60 mod 60)).
  { destruct (Z_lt_le_dec off 0).
    - replace off with (- Z.abs off) at 1 2 by lia. rewrite !Z.quot_opp_l, Z.rem_opp_l by lia.
      rewrite Z.sgn_neg by lia. pose proof (Q1 (Z.abs off)). lia.
    - destruct (Z.eq_dec off 0) as [->|]; [reflexivity|]. rewrite Z.sgn_pos, (Z.abs_eq off) by lia.
      rewrite Q1 by lia. lia. }
  rewrite Q2. set (a := Z.abs off) in *. set (w := a / 3600 * 100 + a / 60 mod 60).
  assert (A : 0 <= a / 3600 <= 24).
  { split; [apply Z.div_pos; lia|]. assert (a / 3600 < 25) by (apply Z.div_lt_upper_bound; lia). lia. }
  pose proof (Z.mod_pos_bound (a / 60) 60) as B. specialize (B ltac:(lia)).
  assert (W : 0 <= w < 2500) by (unfold w; lia).
  assert (SG : Z.sgn off = -1 \/ Z.sgn off = 0 \/ Z.sgn off = 1) by lia.
  change 4 with (Z.of_nat 4). rewrite put_DI_p; [|lia|nia|change (10 ^ Z.of_nat 4) with 10000; nia].
  f_equal.
  assert (Z0 : a < 60 -> w = 0).
  { intros L. unfold w. rewrite (Z.div_small a 3600), (Z.div_small a 60) by lia. reflexivity. }
  assert (Z1 : 60 <= a -> 0 < w).
  { intros L. unfold w. pose proof (Z.div_mod a 60 ltac:(lia)). pose proof (Z.div_mod (a / 60) 60 ltac:(lia)) as DM.
    rewrite Z.div_div in DM by lia. change (60 * 60) with 3600 in DM.
    assert (1 <= a / 60) by (apply Z.div_le_lower_bound; lia). lia. }
  f_equal.
  - destruct (Z.ltb_spec (Z.sgn off * w) 0); destruct (Z.leb_spec off (-60)); try reflexivity; exfalso.
    + assert (off < 0) by nia. assert (a < 60) by lia. rewrite Z0 in * by lia. lia.
    + rewrite Z.sgn_neg in * by lia. pose proof (Z1 ltac:(lia)). lia.
  - replace (Z.abs (Z.sgn off * w)) with w.
    + unfold w. change 100 with (10 ^ Z.of_nat 2). apply (dec_group 2 2).
      change (10 ^ Z.of_nat 2) with 100. lia.
    + rewrite Z.abs_mul, Z.abs_eq with (n := w) by lia. destruct (Z.eq_dec off 0) as [E|].
      * rewrite Z0 by (subst a; lia). lia.
      * destruct SG as [->|[S0| ->]]; [cbn [Z.abs]; clear; lia| |cbn [Z.abs]; clear; lia].
        exfalso. clear - S0 n. lia.
Qed.

Lemma u64_date t : tm_ok t ->
  let Y := tm_year t + 1900 in let Mo := tm_mon t + 1 in
  let date := to_u32 (to_u32 (tm_year t) + 1900) in
  let date := to_u64 (date * 1000) in
  let date := to_u64 (date + to_u32 (to_u32 (tm_mon t) + 1)) in
  let date := to_u64 (date * 1000) in
  let date := to_u64 (date + to_u32 (tm_mday t)) in
  let date := to_u64 (date * 1000) in
  let date := to_u64 (date + to_u32 (tm_hour t)) in
  let date := to_u64 (date * 1000) in
  let date := to_u64 (date + to_u32 (tm_min t)) in
  let date := to_u64 (date * 1000) in
  let date := to_u64 (date + to_u32 (tm_sec t)) in
  date = ((((Y * 1000 + Mo) * 1000 + tm_mday t) * 1000 + tm_hour t) * 1000 + tm_min t) * 1000 + tm_sec t.
Proof.
  intros (H1 & H2 & H3 & H4 & H5 & H6 & _). cbv zeta.
  rewrite year_ok, mon_ok by assumption. rewrite !u32_ok by lia.
  repeat match goal with |- context [to_u64 ?x] =>
    lazymatch x with context [to_u64 _] => fail | _ => rewrite (u64_ok x) by lia end end.
  reflexivity.
Qed.

Lemma time_iso t nsec : tm_ok t -> 0 <= nsec < 10 ^ 9 ->
  format_time_iso t nsec = Ok (time_text t nsec).
Proof.
  intros HT HN. unfold format_time_iso. cbv zeta.
  pose proof (u64_date t HT) as U. cbv zeta in U. rewrite U. clear U.
  destruct HT as (H1 & H2 & H3 & H4 & H5 & H6 & H7).
  rewrite date_digits by lia. rewrite u32_ok by lia.
  rewrite (put_DU_p 9) by (exact HN || lia).
  unfold time_text, date_text.
  destruct (len4 (dec 4 (tm_year t + 1900)) (dec_length _ _)) as (y1 & y2 & y3 & y4 & ->).
  destruct (len2 (dec 2 (tm_mon t + 1)) (dec_length _ _)) as (m1 & m2 & ->).
  destruct (len2 (dec 2 (tm_mday t)) (dec_length _ _)) as (d1 & d2 & ->).
  destruct (len2 (dec 2 (tm_hour t)) (dec_length _ _)) as (h1 & h2 & ->).
  destruct (len2 (dec 2 (tm_min t)) (dec_length _ _)) as (i1 & i2 & ->).
  destruct (len2 (dec 2 (tm_sec t)) (dec_length _ _)) as (s1 & s2 & ->).
  destruct (len9 (dec 9 nsec) (dec_length _ _)) as (n1 & n2 & n3 & n4 & n5 & n6 & n7 & n8 & n9 & ->).
  unfold zone_text. destruct (tm_gmtoff t =? 0).
  - reflexivity.
  - rewrite zone_digits by exact H7.
    destruct (len2 (dec 2 (Z.abs (tm_gmtoff t) / 3600)) (dec_length _ _)) as (z1 & z2 & ->).
    destruct (len2 (dec 2 (Z.abs (tm_gmtoff t) / 60 mod 60)) (dec_length _ _)) as (z3 & z4 & ->).
    destruct (tm_gmtoff t <=? -60); reflexivity.
Qed.

Lemma errno_text s args templ : sys_ok s -> exists t, format_errno s = Ok t /\ puts s templ args Errno t.
Proof.
  intros (He & _). destruct (put_DI_1 (errno s)) as (t & E & D); [lia|].
  unfold format_errno. rewrite E. destruct (Z.ltb_spec (errno s) 0).
  - eexists; split; [reflexivity|]. apply P_errno_neg; [lia|]. now replace (- errno s) with (Z.abs (errno s)) by lia.
  - eexists; split; [reflexivity|]. apply P_errno; [lia|]. now rewrite Z.abs_eq in D by lia.
Qed.

Lemma decimal_fun v a b : decimal v a -> decimal v b -> a = b.
Proof.
  intros (k & -> & H1 & H2) (j & -> & H3 & H4). f_equal.
  destruct (Nat.lt_trichotomy k j) as [L|[->|L]]; [|reflexivity|]; exfalso.
  - specialize (H4 ltac:(lia)). assert (10 ^ Z.of_nat (S k) <= 10 ^ Z.of_nat j) by (apply Z.pow_le_mono_r; lia). lia.
  - specialize (H2 ltac:(lia)). assert (10 ^ Z.of_nat (S j) <= 10 ^ Z.of_nat k) by (apply Z.pow_le_mono_r; lia). lia.
Qed.

Lemma puts_fun s templ args p : forall a b, puts s templ args p a -> puts s templ args p b -> a = b.
Proof.
  assert (G : forall a b, puts s templ args Errno a -> puts s templ args Errno b -> a = b).
  { intros a b H1 H2. inversion H1; subst; inversion H2; subst; try lia; repeat f_equal; eauto using decimal_fun. }
  intros a b H1 H2. destruct H1; inversion H2; subst; try reflexivity; try lia; try congruence.
  - exfalso. assert (nth_error args (Z.to_nat (n - 1)) <> None) as X by congruence.
    apply nth_error_Some in X. lia.
  - exfalso. assert (nth_error args (Z.to_nat (n - 1)) <> None) as X by congruence.
    apply nth_error_Some in X. lia.
  - eauto using decimal_fun.
  - f_equal. eauto using decimal_fun.
  - do 3 f_equal. eauto.
Qed.
