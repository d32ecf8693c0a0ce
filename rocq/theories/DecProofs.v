(* Proofs about decimal literals. *)
From Verif Require Import Base Text Monad Lists Bits NumTables NumGetModel NumSpec DecSpec
  NumGetProofs NumCastProofs NumRoundProofs NumRealProofs.

Local Open Scope Z_scope.

(* ---- the distances of doubles ---- *)

Lemma dbl_nonneg t : 0 <= t -> 0 <= dbl t.
Proof. intros H. pose proof (dbl_mono 0 t ltac:(lia) H). change (dbl 0) with 0 in *. lia. Qed.
Lemma gap_shape t : 0 <= t -> exists q e, 0 <= e /\ dbl t = q * 2 ^ e /\ dbl (t + 1) = (q + 1) * 2 ^ e /\ 0 <= q < 2 ^ 53 /\
  (q < 2 ^ 52 -> e = 0) /\ t = e * 2 ^ 52 + q.
Proof.
  intros Ht. destruct (Z_lt_ge_dec t (2 ^ 52)) as [C|C].
  - exists t, 0. rewrite !dbl_sub by lia. change (2 ^ 0) with 1. repeat split; lia.
  - set (e := t / 2 ^ 52). set (q := 2 ^ 52 + t mod 2 ^ 52).
    pose proof (Z.mod_pos_bound t (2 ^ 52) ltac:(lia)).
    pose proof (Z.div_mod t (2 ^ 52) ltac:(lia)) as HE.
    assert (1 <= e) by (apply Z.div_le_lower_bound; lia).
    exists q, (e - 1). replace t with ((e - 1) * 2 ^ 52 + q) by (unfold e, q in *; lia).
    rewrite <- Z.add_assoc.
    rewrite (dbl_normal_top e q), (dbl_normal_top e (q + 1)) by (unfold q; lia).
    repeat split; unfold q; lia.
Qed.
Lemma gap_big t : 0 <= t -> dbl (t + 1) <= 2 ^ 53 * (dbl (t + 1) - dbl t).
Proof.
  intros Ht. destruct (gap_shape t Ht) as (q & e & He & -> & -> & Hq & _).
  pose proof (pow2_pos e He). replace ((q + 1) * 2 ^ e - q * 2 ^ e) with (2 ^ e) by ring. nia.
Qed.
Lemma gap_next t : 0 <= t ->
  dbl (t + 1) - dbl t <= dbl (t + 2) - dbl (t + 1) <= 2 * (dbl (t + 1) - dbl t).
Proof.
  intros Ht. destruct (gap_shape t Ht) as (q & e & He & E1 & E2 & Hq & Hs & Ht1).
  destruct (gap_shape (t + 1) ltac:(lia)) as (q' & e' & He' & E3 & E4 & Hq' & Hs' & Ht2).
  replace (t + 2) with (t + 1 + 1) by lia. rewrite E1, E4.
  assert (C : e' = e \/ e' = e + 1).
  { destruct (Z_lt_ge_dec q' (2 ^ 52)) as [A|A]; [specialize (Hs' A)|]; destruct (Z_lt_ge_dec q (2 ^ 52)) as [B|B]; try specialize (Hs B); lia. }
  destruct C as [-> | ->].
  - assert (q' = q + 1) by lia. subst q'. rewrite E3. lia.
  - pose proof (pow2_pos e He). rewrite Z.pow_add_r in * by lia. change (2 ^ 1) with 2 in *. rewrite E2 in E3.
    rewrite E2. replace ((q' + 1) * (2 ^ e * 2)) with (q' * (2 ^ e * 2) + 2 * 2 ^ e) by ring. rewrite <- E3.
    replace ((q + 1) * 2 ^ e) with (q * 2 ^ e + 2 ^ e) by ring. lia.
Qed.

(* ---- rounding an approximation ---- *)

Lemma close_scale K N m c : 0 < c -> close_at (K * c) (N * c) m -> close_at K N m.
Proof.
  intros Hc (H1 & H2 & H3). split; [exact H1|]. split.
  - intros H. apply H2. replace (dbl infinity * (K * c)) with (dbl infinity * K * c) by ring. apply Z.mul_le_mono_nonneg_r; lia.
  - intros t Ht HN. cbv zeta.
    specialize (H3 t Ht). cbv zeta in H3.
    replace (dbl t * (K * c)) with (dbl t * K * c) in H3 by ring.
    replace (dbl (t + 1) * (K * c)) with (dbl (t + 1) * K * c) in H3 by ring.
    destruct H3 as [[E H]|[E H]].
    + split; apply Z.mul_le_mono_nonneg_r; lia.
    + left. split; [exact E|]. apply (Z.mul_le_mono_pos_r _ _ c); [exact Hc|].
      replace (16 * (2 * N - (dbl t + dbl (t + 1)) * K) * c) with (16 * (2 * (N * c) - (dbl t + dbl (t + 1)) * (K * c))) by ring.
      replace ((dbl (t + 1) - dbl t) * K * c) with ((dbl (t + 1) - dbl t) * (K * c)) by ring. exact H.
    + right. split; [exact E|]. apply (Z.mul_le_mono_pos_r _ _ c); [exact Hc|].
      replace (16 * ((dbl t + dbl (t + 1)) * K - 2 * N) * c) with (16 * ((dbl t + dbl (t + 1)) * (K * c) - 2 * (N * c))) by ring.
      replace ((dbl (t + 1) - dbl t) * K * c) with ((dbl (t + 1) - dbl t) * (K * c)) by ring. exact H.
Qed.

Lemma close_of k Q N N' U m : 0 <= k -> 0 < Q -> 0 < U -> 2 ^ 63 * U <= N' ->
  nearest_at k N' m -> Z.abs (N - N' * Q) <= 20 * (U * Q) -> close_at (2 ^ k * Q) N m.
Proof.
  intros Hk HQ HU HN' [Hm Hnear] Hd. pose proof (pow2_pos k Hk) as HK.
  set (K := 2 ^ k) in *. set (X := U * Q) in *. assert (HX : 0 < X) by (unfold X; nia).
  set (V := N' * Q) in *.
  assert (HV : 2 ^ 63 * X <= V) by (unfold X, V; nia).
  set (A := fun x => dbl x * (K * Q)).
  assert (HA : forall x y, 0 <= x -> x < y -> A x < A y).
  { intros x y H1 H2. unfold A. apply Z.mul_lt_mono_pos_r; [nia|]. now apply dbl_lt. }
  assert (Near : forall c, 0 <= c <= infinity -> Z.abs (V - A m) <= Z.abs (V - A c)).
  { intros c Hc. destruct (Z.eq_dec c m) as [->|D]; [lia|]. specialize (Hnear c Hc D). cbv zeta in Hnear.
    assert (E : forall x, Z.abs (V - A x) = Z.abs (N' - dbl x * K) * Q).
    { intros x. unfold V, A. replace (N' * Q - dbl x * (K * Q)) with ((N' - dbl x * K) * Q) by ring.
      rewrite Z.abs_mul, (Z.abs_eq Q) by lia. reflexivity. }
    rewrite !E. apply Z.mul_le_mono_nonneg_r; [lia|]. lia. }
  assert (Gap : forall t, 0 <= t -> A (t + 1) <= 2 ^ 53 * (A (t + 1) - A t)).
  { intros t Ht. unfold A. pose proof (gap_big t Ht).
    replace (2 ^ 53 * (dbl (t + 1) * (K * Q) - dbl t * (K * Q))) with (2 ^ 53 * (dbl (t + 1) - dbl t) * (K * Q)) by ring.
    apply Z.mul_le_mono_nonneg_r; [nia|assumption]. }
  assert (Gap2 : forall t, 0 <= t -> A (t + 1) - A t <= A (t + 2) - A (t + 1) <= 2 * (A (t + 1) - A t)).
  { intros t Ht. unfold A. pose proof (gap_next t Ht) as [G1 G2]. assert (HW : 0 < K * Q) by nia. set (W := K * Q) in *.
    rewrite <- !Z.mul_sub_distr_r. rewrite Z.mul_assoc. split; apply Z.mul_le_mono_nonneg_r; try lia; assumption. }
  split; [exact Hm|]. fold (A infinity). split.
  - intros HI. destruct (Z.eq_dec m infinity) as [|D]; [assumption|exfalso].
    assert (Hm1 : 0 <= m < infinity) by lia.
    pose proof (HA m infinity ltac:(lia) ltac:(lia)) as L1.
    pose proof (Near infinity ltac:(lia)) as L2.
    assert (L3 : 2 * V <= A m + A infinity) by lia.
    pose proof (Gap (infinity - 1) ltac:(unfold infinity; lia)) as L4.
    replace (infinity - 1 + 1) with infinity in L4 by lia.
    assert (L5 : A m <= A (infinity - 1)).
    { destruct (Z.eq_dec m (infinity - 1)) as [->|]; [lia|]. pose proof (HA m (infinity - 1) ltac:(lia) ltac:(lia)). lia. }
    change (2 ^ 63) with (1024 * 2 ^ 53) in HV. lia.
  - intros t Ht HN. fold (A t) in HN |- *. fold (A (t + 1)) in HN |- *. cbv zeta.
    replace ((dbl (t + 1) - dbl t) * (K * Q)) with (A (t + 1) - A t) by (unfold A; ring).
    replace ((dbl t + dbl (t + 1)) * (K * Q)) with (A t + A (t + 1)) by (unfold A; ring).
    pose proof (HA t (t + 1) ltac:(lia) ltac:(lia)) as L1.
    assert (G : 32 * (20 * X) <= A (t + 1) - A t).
    { pose proof (Gap t ltac:(lia)). assert (2 ^ 63 * X - 20 * X <= A (t + 1)) by lia.
      change (2 ^ 63) with (1024 * 2 ^ 53) in *. lia. }
    assert (C : m < t \/ m = t \/ m = t + 1 \/ t + 1 < m) by lia. destruct C as [C|[C|[C|C]]].
    + exfalso. pose proof (Near t ltac:(lia)) as L2.
      assert (L3 : A m <= A (t - 1)).
      { destruct (Z.eq_dec m (t - 1)) as [->|]; [lia|]. pose proof (HA m (t - 1) ltac:(lia) ltac:(lia)). lia. }
      pose proof (Gap2 (t - 1) ltac:(lia)) as L4. replace (t - 1 + 2) with (t + 1) in L4 by lia.
      replace (t - 1 + 1) with t in L4 by lia. lia.
    + left. split; [exact C|]. subst m. pose proof (Near (t + 1) ltac:(lia)). lia.
    + right. split; [exact C|]. subst m. pose proof (Near t ltac:(lia)). lia.
    + exfalso. pose proof (Near (t + 1) ltac:(lia)) as L2.
      assert (L3 : A (t + 2) <= A m).
      { destruct (Z.eq_dec m (t + 2)) as [->|]; [lia|]. pose proof (HA (t + 2) m ltac:(lia) ltac:(lia)). lia. }
      pose proof (Gap2 t ltac:(lia)) as L4. lia.
Qed.

(* ---- the table ---- *)

(* p is 10^e, or 10^-e if e is negative *)
Definition entry_ok (neg : bool) (p : Z) (me : Z * Z) : bool :=
  let '(mm, e2) := me in
  let pe := Z.shiftl (if neg then 1 else p) 1264 in
  let ne := Z.shiftl (if neg then p else 1) (e2 + 1200) in
  (2 ^ 63 <=? mm) && (mm <? 2 ^ 64) && (-1140 <=? e2) && (e2 <=? 1025) &&
  ((mm - 1) * ne <? pe) && (pe <=? mm * ne).
Fixpoint entries_ok (neg : bool) (p : Z) (l : list (Z * Z)) : bool :=
  match l with
  | [] => true
  | x :: l => entry_ok neg p x && entries_ok neg (p * 10) l
  end.
Definition entries_all (l : list (Z * Z)) : bool :=
  entries_ok true 1 (rev (firstn 344 l)) && entries_ok false 1 (skipn 343 l) && (length l =? 652)%nat.
(* The same with smaller numbers *)
Lemma shiftl_ltb a b m n k : 0 <= k -> 0 <= m -> 0 <= n -> (Z.shiftl a m <? Z.shiftl b n) = (Z.shiftl a (m + k) <? Z.shiftl b (n + k)).
Proof.
  intros. rewrite !Z.shiftl_mul_pow2, !Z.pow_add_r by lia. assert (0 < 2 ^ k) by (apply Z.pow_pos_nonneg; lia).
  apply Bool.eq_iff_eq_true. rewrite !Z.ltb_lt, !Z.mul_assoc. apply Z.mul_lt_mono_pos_r. assumption.
Qed.
Lemma shiftl_leb a b m n k : 0 <= k -> 0 <= m -> 0 <= n -> (Z.shiftl a m <=? Z.shiftl b n) = (Z.shiftl a (m + k) <=? Z.shiftl b (n + k)).
Proof.
  intros. rewrite !Z.shiftl_mul_pow2, !Z.pow_add_r by lia. assert (0 < 2 ^ k) by (apply Z.pow_pos_nonneg; lia).
  apply Bool.eq_iff_eq_true. rewrite !Z.leb_le, !Z.mul_assoc. apply Z.mul_le_mono_pos_r. assumption.
Qed.
Definition entry_fast (neg : bool) (p : Z) (me : Z * Z) : bool :=
  let '(mm, e2) := me in
  let ne := if neg then p else 1 in
  let x := mm * ne in
  let u := Z.shiftl (if neg then 1 else p) (Z.max (64 - e2) 0) in
  (0x8000000000000000 <=? mm) && (mm <? 0x10000000000000000) && (-1140 <=? e2) && (e2 <=? 1025) &&
  (Z.shiftl (x - ne) (Z.max (e2 - 64) 0) <? u) && (u <=? Z.shiftl x (Z.max (e2 - 64) 0)).
Lemma entry_fast_ok neg p me : entry_fast neg p me = true -> entry_ok neg p me = true.
Proof.
  destruct me as [mm e2]. unfold entry_fast, entry_ok. change (2 ^ 63) with 0x8000000000000000. change (2 ^ 64) with 0x10000000000000000.
  set (ne := if neg then p else 1). set (pe := if neg then 1 else p). intros H.
  rewrite !andb_true_iff in H |- *. destruct H as [[[[[H1 H2] H3] H4] H5] H6]. repeat split; try assumption.
  - rewrite (shiftl_ltb _ _ _ _ (e2 + 1200 - Z.max (e2 - 64) 0)) in H5 by lia.
    replace (Z.max (64 - e2) 0 + (e2 + 1200 - Z.max (e2 - 64) 0)) with 1264 in H5 by lia.
    replace (Z.max (e2 - 64) 0 + (e2 + 1200 - Z.max (e2 - 64) 0)) with (e2 + 1200) in H5 by lia.
    rewrite Z.shiftl_mul_pow2 with (a := mm * ne - ne) in H5 by lia. rewrite Z.shiftl_mul_pow2 with (a := ne) by lia.
    replace ((mm - 1) * (ne * 2 ^ (e2 + 1200))) with ((mm * ne - ne) * 2 ^ (e2 + 1200)) by ring. exact H5.
  - rewrite (shiftl_leb _ _ _ _ (e2 + 1200 - Z.max (e2 - 64) 0)) in H6 by lia.
    replace (Z.max (64 - e2) 0 + (e2 + 1200 - Z.max (e2 - 64) 0)) with 1264 in H6 by lia.
    replace (Z.max (e2 - 64) 0 + (e2 + 1200 - Z.max (e2 - 64) 0)) with (e2 + 1200) in H6 by lia.
    rewrite Z.shiftl_mul_pow2 with (a := mm * ne) in H6 by lia. rewrite Z.shiftl_mul_pow2 with (a := ne) by lia.
    rewrite Z.mul_assoc. exact H6.
Qed.
Fixpoint entries_fast (neg : bool) (p : Z) (l : list (Z * Z)) : bool :=
  match l with
  | [] => true
  | x :: l => if entry_fast neg p x then entries_fast neg (p * 10) l else false
  end.
Lemma entries_fast_ok neg : forall l p, entries_fast neg p l = true -> entries_ok neg p l = true.
Proof.
  induction l as [|x l IH]; intros p; cbn [entries_fast entries_ok]; [reflexivity|].
  destruct (entry_fast neg p x) eqn:E; [|discriminate]. intros H. rewrite (entry_fast_ok _ _ _ E), (IH _ H). reflexivity.
Qed.
Lemma entries_true : entries_fast true 1 (rev (firstn 344 get_multipliers)) = true.
Proof. vm_compute. reflexivity. Qed.
Lemma entries_false : entries_fast false 1 (skipn 343 get_multipliers) = true.
Proof. vm_compute. reflexivity. Qed.
Lemma get_length : (length get_multipliers =? 652)%nat = true.
Proof. vm_compute. reflexivity. Qed.
Lemma table_ok : entries_all get_multipliers = true.
Proof. unfold entries_all. rewrite (entries_fast_ok _ _ _ entries_true), (entries_fast_ok _ _ _ entries_false), get_length. reflexivity. Qed.
Lemma entries_nth : forall neg l p n, entries_ok neg p l = true -> (n < length l)%nat ->
  entry_ok neg (p * 10 ^ Z.of_nat n) (nth n l (0, 0)) = true.
Proof.
  intros neg. induction l as [|x l IH]; intros p n H L; [cbn in L; lia|].
  cbn [entries_ok] in H. apply andb_true_iff in H as [H1 H2]. destruct n as [|n].
  - cbn [nth]. change (Z.of_nat 0) with 0. now rewrite Z.pow_0_r, Z.mul_1_r.
  - cbn [nth length] in *. rewrite Nat2Z.inj_succ, Z.pow_succ_r, Z.mul_assoc by lia. apply IH; [exact H2|lia].
Qed.
Lemma entries_at l e : entries_all l = true -> -343 <= e <= 308 ->
  entry_ok (e <? 0) (10 ^ Z.abs e) (nth (Z.to_nat (343 + e)) l (0, 0)) = true.
Proof.
  intros T He. unfold entries_all in T. apply andb_true_iff in T as [T T2]. apply andb_true_iff in T as [T0 T1].
  apply Nat.eqb_eq in T2. destruct (e <? 0) eqn:E.
  - pose proof (entries_nth true _ 1 (Z.to_nat (- e)) T0) as H. rewrite rev_length, firstn_length in H.
    specialize (H ltac:(lia)). rewrite Z2Nat.id, Z.mul_1_l in H by lia. replace (Z.abs e) with (- e) by lia.
    rewrite rev_nth in H by (rewrite firstn_length; lia). rewrite firstn_length in H.
    replace (Nat.min 344 (length l) - S (Z.to_nat (- e)))%nat with (Z.to_nat (343 + e)) in H by lia.
    rewrite <- (firstn_skipn 344 l), app_nth1 by (rewrite firstn_length; lia). exact H.
  - pose proof (entries_nth false _ 1 (Z.to_nat e) T1) as H. rewrite skipn_length in H.
    specialize (H ltac:(lia)). rewrite Z2Nat.id, Z.mul_1_l in H by lia. replace (Z.abs e) with e by lia.
    rewrite <- (firstn_skipn 343 l), app_nth2 by (rewrite firstn_length; lia). rewrite firstn_length.
    replace (Z.to_nat (343 + e) - Nat.min 343 (length l))%nat with (Z.to_nat e) by lia. exact H.
Qed.
Definition table_at e : -343 <= e <= 308 -> _ := entries_at get_multipliers e table_ok.
(* the multiplier is 10^e, rounded up *)
Lemma table_spec e a k mm e2 : -343 <= e <= 308 -> 0 <= e + a -> 0 <= a -> 3000 <= k ->
  nth (Z.to_nat (343 + e)) get_multipliers (0, 0) = (mm, e2) ->
  2 ^ 63 <= mm < 2 ^ 64 /\ -1140 <= e2 <= 1025 /\
  let P := 10 ^ (e + a) * 2 ^ (1074 + k) in
  let V := 2 ^ (e2 - 64 + 1074 + k) * 10 ^ a in
  (mm - 1) * V < P <= mm * V.
Proof.
  intros He Ha Ha0 Hk En. pose proof (table_at e He) as T. rewrite En in T. unfold entry_ok in T.
  rewrite !andb_true_iff in T. destruct T as (((((T1 & T2) & T3) & T4) & T5) & T6).
  apply Z.leb_le in T1, T3, T4, T6. apply Z.ltb_lt in T2, T5. split; [lia|]. split; [lia|]. cbv zeta.
  rewrite !Z.shiftl_mul_pow2 in T5, T6 by lia.
  set (pe := if e <? 0 then 1 else 10 ^ Z.abs e) in *. set (ne := if e <? 0 then 10 ^ Z.abs e else 1) in *.
  assert (Hne : 0 < ne) by (unfold ne; destruct (e <? 0); [apply Z.pow_pos_nonneg; lia|lia]).
  assert (HA : 10 ^ (e + a) * ne = pe * 10 ^ a).
  { unfold ne, pe. destruct (e <? 0) eqn:E.
    - rewrite <- Z.pow_add_r by lia. rewrite Z.mul_1_l. f_equal. lia.
    - rewrite <- Z.pow_add_r by lia. rewrite Z.mul_1_r. f_equal. lia. }
  set (R := 10 ^ a * 2 ^ (k + 1074 - 1264)).
  assert (HR : 0 < R) by (unfold R; apply Z.mul_pos_pos; apply Z.pow_pos_nonneg; lia).
  assert (EP : 10 ^ (e + a) * 2 ^ (1074 + k) * ne = pe * 2 ^ 1264 * R).
  { replace (10 ^ (e + a) * 2 ^ (1074 + k) * ne) with (10 ^ (e + a) * ne * 2 ^ (1074 + k)) by ring. rewrite HA.
    unfold R. replace (1074 + k) with (1264 + (k + 1074 - 1264)) at 1 by lia. rewrite Z.pow_add_r by lia. ring. }
  assert (EV : 2 ^ (e2 - 64 + 1074 + k) * 10 ^ a * ne = ne * 2 ^ (e2 + 1200) * R).
  { unfold R. replace (e2 - 64 + 1074 + k) with (e2 + 1200 + (k + 1074 - 1264)) by lia. rewrite Z.pow_add_r by lia. ring. }
  split.
  - apply (Z.mul_lt_mono_pos_r ne); [exact Hne|]. rewrite EP.
    rewrite <- (Z.mul_assoc (mm - 1)), EV, (Z.mul_assoc (mm - 1)). apply Z.mul_lt_mono_pos_r; assumption.
  - apply (Z.mul_le_mono_pos_r _ _ ne); [exact Hne|]. rewrite EP.
    rewrite <- (Z.mul_assoc mm), EV, (Z.mul_assoc mm). apply Z.mul_le_mono_nonneg_r; [lia|assumption].
Qed.

(* ---- reading ---- *)

Lemma compose_more sign more bits exp : exists more' : bool, (more' = true -> more = true) /\
  compose sign more bits exp = compose sign more' bits exp /\ (more' = true -> exp <> -52).
Proof.
  destruct (Z.eq_dec exp (-52)) as [->|D].
  - exists false. split; [discriminate|]. split; [reflexivity|discriminate].
  - exists more. repeat split; auto.
Qed.

Lemma core M mm W Q P b1 sp rp rho R1 :
  0 < M -> 2 ^ 63 <= mm < 2 ^ 64 -> 0 < W -> 0 < Q -> (rp = 1 \/ rp = 2) -> 0 < sp ->
  2 ^ 63 <= M * sp < 2 ^ 64 ->
  b1 * 2 ^ 64 <= M * sp * mm < (b1 + 1) * 2 ^ 64 ->
  (mm - 1) * (W * (sp * rp) * Q) < P <= mm * (W * (sp * rp) * Q) ->
  0 <= rho -> (rho = 0 \/ rho < P /\ sp <= 8) -> 0 <= R1 <= 1 ->
  Z.abs (M * P + rho - (b1 * rp * (2 ^ 64 * W) + R1) * Q) <= 20 * (2 ^ 64 * W * Q).
Proof.
  intros HM Hmm HW HQ Hrp Hsp Hbits Hb1 HP Hrho0 Hrho HR1.
  set (X := W * Q). assert (HX : 0 < X) by (unfold X; nia). assert (HQX : Q <= X) by (unfold X; nia).
  set (B := 2 ^ 64) in *. assert (HB : 2 ^ 63 = B / 2 /\ 1 < B) by (split; reflexivity). destruct HB as [_ HB].
  assert (Hrx : 0 < rp * X <= 2 * X) by (destruct Hrp as [-> | ->]; lia).
  replace (W * (sp * rp) * Q) with (sp * (rp * X)) in HP by (unfold X; ring).
  set (Y := rp * X) in *.
  replace ((b1 * rp * (B * W) + R1) * Q) with (b1 * B * Y + R1 * Q) by (unfold Y, X; ring).
  replace (B * W * Q) with (B * X) by (unfold X; ring).
  assert (G0 : 0 <= R1 * Q <= X) by (assert (C : R1 = 0 \/ R1 = 1) by lia; destruct C as [-> | ->]; lia).
  assert (G1 : M * P <= M * (mm * (sp * Y))) by (apply Z.mul_le_mono_nonneg_l; lia).
  assert (G2 : M * ((mm - 1) * (sp * Y)) <= M * P) by (apply Z.mul_le_mono_nonneg_l; lia).
  replace (M * (mm * (sp * Y))) with (M * sp * mm * Y) in G1 by ring.
  replace (M * ((mm - 1) * (sp * Y))) with (M * sp * mm * Y - M * sp * Y) in G2 by ring.
  assert (G3 : b1 * B * Y <= M * sp * mm * Y) by (apply Z.mul_le_mono_nonneg_r; lia).
  assert (G4 : M * sp * mm * Y <= (b1 + 1) * B * Y) by (apply Z.mul_le_mono_nonneg_r; lia).
  replace ((b1 + 1) * B * Y) with (b1 * B * Y + B * Y) in G4 by ring.
  assert (G5 : M * sp * Y <= B * Y) by (apply Z.mul_le_mono_nonneg_r; lia).
  assert (G6 : B * Y <= B * (2 * X)) by (apply Z.mul_le_mono_nonneg_l; lia).
  replace (B * (2 * X)) with (2 * (B * X)) in G6 by ring.
  assert (G7 : rho <= 16 * (B * X)).
  { destruct Hrho as [->|[H1 H2]]; [assert (0 < B * X) by (apply Z.mul_pos_pos; lia); lia|].
    assert (K1 : mm * (sp * Y) <= B * (sp * Y)) by (apply Z.mul_le_mono_nonneg_r; [apply Z.mul_nonneg_nonneg|]; lia).
    assert (K2 : sp * Y <= 8 * (2 * X)) by (apply Z.mul_le_mono_nonneg; lia).
    assert (K3 : B * (sp * Y) <= B * (8 * (2 * X))) by (apply Z.mul_le_mono_nonneg_l; lia).
    replace (B * (8 * (2 * X))) with (16 * (B * X)) in K3 by ring. lia. }
  assert (G8 : X <= B * X) by (assert (1 * X <= B * X) by (apply Z.mul_le_mono_nonneg_r; lia); lia).
  clear - G0 G1 G2 G3 G4 G5 G6 G7 G8 Hrho0. lia.
Qed.

Lemma low_core N K P B Qe : 0 <= P -> B <= Qe -> 2 * 2 ^ 64 * K <= B -> N * K < 2 ^ 64 * P * K -> 2 * (N * K) <= P * Qe.
Proof.
  intros H0 H1 H2 H3. assert (P * (2 * 2 ^ 64 * K) <= P * Qe) by (apply Z.mul_le_mono_nonneg_l; lia).
  replace (P * (2 * 2 ^ 64 * K)) with (2 * (2 ^ 64 * P * K)) in H by ring. lia.
Qed.
Lemma high_core N K Q B Qe I : 0 <= Q -> 0 <= K -> B <= Qe -> I <= B * K -> Q * Qe <= N -> I * Q <= N * K.
Proof.
  intros H0 HK H1 H2 H3. assert (A1 : Q * I <= Q * (B * K)) by (apply Z.mul_le_mono_nonneg_l; lia).
  assert (A2 : Q * B <= Q * Qe) by (apply Z.mul_le_mono_nonneg_l; lia).
  assert (A3 : Q * B * K <= N * K) by (apply Z.mul_le_mono_nonneg_r; lia).
  rewrite Z.mul_comm. rewrite Z.mul_assoc in A1. lia.
Qed.
Lemma low_const : 2 * 2 ^ 64 * 2 ^ 1074 <= 10 ^ 344.
Proof. apply Z.leb_le. vm_compute. reflexivity. Qed.
Lemma high_const : 2 ^ 2098 <= 10 ^ 309 * 2 ^ 1074.
Proof. apply Z.leb_le. vm_compute. reflexivity. Qed.
Lemma stored_close D E x : 0 <= D -> Stored Decimal D E x ->
  exists m, cast_D x = sign_bit (n_sign x) + m /\ close_decimal D E m.
Proof.
  intros HD HS.
  destruct (stored_split Decimal D E x HD HS) as (w & r & Hw & HDe & Hr & Hmore & He & Hm & Hbig).
  change (power Decimal) with 10 in *. change (radix Decimal) with 10 in *.
  pose proof HS as (Hc & Hb & _). change (power Decimal) with 10 in Hb. unfold cast_D. rewrite Hc, Hb.
  set (M := n_mant x) in *. set (e := n_exp x) in *.
  set (a := Z.max (- E) 0). set (Q := 10 ^ a). set (T := 10 ^ Z.max E 0).
  assert (HQ : 0 < Q) by (apply Z.pow_pos_nonneg; lia). assert (HT : 0 < T) by (apply Z.pow_pos_nonneg; lia).
  assert (Hea : 0 <= e + a) by lia.
  assert (HP0 : 10 ^ w * T = 10 ^ (e + a)) by (unfold T; rewrite <- Z.pow_add_r by lia; f_equal; lia).
  assert (HN0 : D * T = M * 10 ^ (e + a) + r * T) by (rewrite HDe, <- HP0; ring).
  assert (HR0 : 0 <= r * T < 10 ^ (e + a)) by (rewrite <- HP0; nia).
  assert (HE0 : 0 < 10 ^ (e + a)) by (apply Z.pow_pos_nonneg; lia).
  unfold close_decimal. fold a Q T.
  assert (Low : forall N, e < -343 -> N * 2 ^ 1074 < 2 ^ 64 * 10 ^ (e + a) * 2 ^ 1074 -> 2 * (N * 2 ^ 1074) <= Q).
  { intros N L HN. replace Q with (10 ^ (e + a) * 10 ^ (- e)) by (unfold Q; rewrite <- Z.pow_add_r by lia; f_equal; lia).
    apply (low_core N _ _ (10 ^ 344)); [apply Z.lt_le_incl, HE0 | apply Z.pow_le_mono_r; lia | exact low_const | exact HN]. }
  assert (High : 308 < e -> 10 ^ (e + a) <= D * T -> dbl infinity * Q <= D * T * 2 ^ 1074).
  { intros L HN. rewrite dbl_infinity.
    apply (high_core _ _ _ (10 ^ 309) (10 ^ e)); [apply Z.lt_le_incl, HQ | apply Z.pow_nonneg; lia | apply Z.pow_le_mono_r; lia | exact high_const |].
    replace (Q * 10 ^ e) with (10 ^ (e + a)) by (unfold Q; rewrite <- Z.pow_add_r by lia; f_equal; lia). exact HN. }
  assert (HK : exists K, [K] = [2 ^ 1074] /\ 0 < K) by (exists (2 ^ 1074); split; [reflexivity | apply pow2_pos; lia]).
  destruct HK as (K & HK & HK0). assert (EK : 2 ^ 1074 = K) by (injection HK as HK; symmetry; exact HK). rewrite EK in Low, High |- *. clear EK.
  (* zero *)
  assert (Zero : 2 * (D * T * K) <= Q -> close_at Q (D * T * K) 0).
  { intros HZ. assert (0 <= D * T * K) by (apply Z.mul_nonneg_nonneg; [apply Z.mul_nonneg_nonneg|]; lia). split; [unfold infinity; lia|]. split.
    - intros HI. exfalso. assert (L : dbl 1 < dbl infinity) by (apply dbl_lt; unfold infinity; lia). change (dbl 1) with 1 in L.
      apply (Z.mul_lt_mono_pos_r Q) in L; [|exact HQ]. lia.
    - intros t Ht HN. cbv zeta. left. destruct (Z.eq_dec t 0) as [->|Dt].
      + split; [reflexivity|]. change (dbl (0 + 1)) with 1. change (dbl 0) with 0. lia.
      + exfalso. pose proof (dbl_mono 1 t ltac:(lia) ltac:(lia)). change (dbl 1) with 1 in *.
        assert (1 * Q <= dbl t * Q) by (apply Z.mul_le_mono_nonneg_r; lia). lia. }
  (* infinity *)
  assert (Inf : dbl infinity * Q <= D * T * K -> close_at Q (D * T * K) infinity).
  { intros HI. split; [unfold infinity; lia|]. split; [reflexivity|]. intros t Ht HN. right.
    destruct (Z.eq_dec (t + 1) infinity) as [E1|E1].
    2: { exfalso. pose proof (dbl_lt (t + 1) infinity ltac:(lia) ltac:(lia)) as L.
         apply (Z.mul_lt_mono_pos_r Q) in L; [|exact HQ]. lia. }
    rewrite E1 in *. split; [reflexivity|]. pose proof (dbl_lt t infinity ltac:(lia) ltac:(lia)) as L.
    apply (Z.mul_lt_mono_pos_r Q) in L; [|exact HQ]. rewrite Z.mul_add_distr_r, Z.mul_sub_distr_r. lia. }
  assert (HNn : D * T * K < 2 ^ 64 * 10 ^ (e + a) * K).
  { apply Z.mul_lt_mono_pos_r; [exact HK0|]. rewrite HN0.
    assert (M * 10 ^ (e + a) <= (2 ^ 64 - 1) * 10 ^ (e + a)) by (apply Z.mul_le_mono_nonneg_r; lia). lia. }
  assert (Hw0 : w = 0 -> r = 0) by (intros W; rewrite W, Z.pow_0_r in Hr; lia).
  destruct (M =? 0) eqn:M0.
  { exists 0. split; [unfold sd_zero; lia|]. apply Zero.
    assert (w = 0) by (destruct (Z.eq_dec w 0); [assumption|destruct (Hbig ltac:(lia)); lia]).
    rewrite (Hw0 H) in HDe. assert (HD0 : D = 0) by nia. rewrite HD0. lia. }
  apply Z.eqb_neq in M0.
  assert (H4 : 10 ^ (e + a) <= D * T).
  { rewrite HN0. assert (1 * 10 ^ (e + a) <= M * 10 ^ (e + a)) by (apply Z.mul_le_mono_nonneg_r; lia). lia. }
  destruct (e <? -10000) eqn:L1.
  { exists 0. split; [unfold sd_zero; lia|]. apply Zero, Low; [lia | exact HNn]. }
  destruct (10000 <? e) eqn:L2.
  { exists infinity. split; [unfold sd_inf, infinity; lia|]. apply Inf, High; [lia | exact H4]. }
  change (10 =? 10) with true. cbv zeta iota.
  destruct (e <? -343) eqn:L3.
  { exists 0. split; [unfold sd_zero; lia|]. apply Zero, Low; [lia | exact HNn]. }
  destruct (308 <? e) eqn:L4.
  { exists infinity. split; [unfold sd_inf, infinity; lia|]. apply Inf, High; [lia | exact H4]. }
  clear Zero Inf Low High HNn H4.
  destruct (lzcnt_ok M ltac:(lia)) as (Hsh & Esh & Hbits). rewrite Esh.
  set (sh := lzcnt64 M) in *. set (bits := M * 2 ^ sh) in *. clear Esh.
  destruct (nth (Z.to_nat (343 + e)) get_multipliers (0, 0)) as [mm e2] eqn:En.
  assert (Hk : exists k, 6000 <= k) by (exists 6000; lia). destruct Hk as [k Hk].
  pose proof (table_spec e a k mm e2 ltac:(lia) Hea ltac:(lia) ltac:(lia) En) as (Hmm & He2 & HPV). cbv zeta in HPV. clear En.
  set (b1 := mulh128 bits mm) in *.
  assert (Hb1 : b1 * 2 ^ 64 <= bits * mm < (b1 + 1) * 2 ^ 64).
  { unfold b1, mulh128. pose proof (Z.div_mod (bits * mm) (2 ^ 64) ltac:(lia)). pose proof (Z.mod_pos_bound (bits * mm) (2 ^ 64) ltac:(lia)). lia. }
  assert (Hb1r : 2 ^ 62 <= b1 < 2 ^ 64).
  { split; [unfold b1, mulh128; apply Z.div_le_lower_bound; [lia|]|unfold b1, mulh128; apply Z.div_lt_upper_bound; [lia|]].
    - change (2 ^ 64 * 2 ^ 62) with (2 ^ 63 * 2 ^ 63). apply Z.mul_le_mono_nonneg; lia.
    - apply Z.mul_lt_mono_nonneg; lia. }
  destruct (lzcnt_ok b1 ltac:(lia)) as (Hrsh & Ersh & Hb2). rewrite Ersh. clear Ersh.
  assert (Hr1 : lzcnt64 b1 <= 1).
  { unfold lzcnt64. assert (62 <= Z.log2 b1) by (apply Z.log2_le_pow2; lia). lia. }
  set (rsh := lzcnt64 b1) in *. set (b2 := b1 * 2 ^ rsh) in *.
  set (ex := e2 - (sh + rsh) + 1086).
  destruct (compose_more (n_sign x) (n_more x) b2 ex) as (more & Hmr & -> & Hm52).
  set (U := 2 ^ (ex - 12 + k)).
  set (W := 2 ^ (ex - 12 + k - 64)).
  assert (HUW : U = 2 ^ 64 * W) by (unfold U, W; rewrite <- Z.pow_add_r by (unfold ex; lia); f_equal; lia).
  assert (HW : 0 < W) by (apply pow2_pos; unfold ex; lia).
  assert (HVW : 2 ^ (e2 - 64 + 1074 + k) = W * (2 ^ sh * 2 ^ rsh)).
  { unfold W. rewrite <- !Z.pow_add_r by (unfold ex; lia). f_equal. unfold ex. lia. }
  rewrite HVW in HPV. clear HVW.
  set (R1 := if more then 1 else 0).
  destruct (compose_ok (n_sign x) more b2 ex k (b2 * U + R1) U R1 0) as (m & -> & HA).
  - exact Hb2.
  - lia.
  - unfold ex; lia.
  - reflexivity.
  - unfold ex; lia.
  - reflexivity.
  - unfold R1; destruct more; lia.
  - intros ->; reflexivity.
  - intros ->. unfold R1. rewrite Z.pow_0_r, Z.mul_1_r. rewrite HUW. lia.
  - intros _. split; [lia|]. exists b2. rewrite Z.pow_0_r. lia.
  - intros Hm' Hx. now apply Hm52 in Hm'.
  - exists m. split; [reflexivity|].
    apply (close_scale Q (D * T * K) m (2 ^ k)); [apply pow2_pos; lia|]. rewrite (Z.mul_comm Q).
    apply (close_of k Q _ (b2 * U + R1) U m); [lia|exact HQ|rewrite HUW; lia| |exact HA|].
    { unfold R1. assert (2 ^ 63 * U <= b2 * U) by (apply Z.mul_le_mono_nonneg_r; [rewrite HUW|]; lia). destruct more; lia. }
    injection HK as HK. rewrite HK. clear HK HK0 K. rewrite <- Z.mul_assoc, <- Z.pow_add_r by (lia). rewrite HN0, Z.mul_add_distr_r.
    set (S := 2 ^ (1074 + k)) in *. assert (HS0 : 0 < S) by (apply pow2_pos; lia). fold Q in HPV.
    replace (M * 10 ^ (e + a) * S) with (M * (10 ^ (e + a) * S)) by ring.
    rewrite HUW. unfold b2.
    assert (Hrho : r * T * S = 0 \/ r * T * S < 10 ^ (e + a) * S /\ 2 ^ sh <= 8).
    { destruct (Z.eq_dec r 0) as [Hr0|Hr0]; [left; now rewrite Hr0|right].
      assert (Hw1 : 0 < w) by (clear - Hw0 Hw Hr0; destruct (Z.eq_dec w 0); [exfalso; auto|lia]).
      destruct (Hbig Hw1) as [HM _]. clear - HM HR0 HS0 Hsh.
      split; [apply Z.mul_lt_mono_pos_r; lia|].
      assert (Hs3 : sh <= 3) by (unfold sh, lzcnt64; assert (60 <= Z.log2 M) by (apply Z.log2_le_pow2; lia); lia).
      change 8 with (2 ^ 3). apply Z.pow_le_mono_r; lia. }
    apply (core M mm W Q (10 ^ (e + a) * S) b1 (2 ^ sh) (2 ^ rsh) (r * T * S) R1); clear - M0 Hm Hmm HW HQ Hbits Hb1 HPV Hr1 Hrsh Hrho HR0 HS0;
      try assumption.
    + lia.
    + assert (C : rsh = 0 \/ rsh = 1) by lia. destruct C as [C|C]; rewrite C; [left|right]; reflexivity.
    + apply pow2_pos. apply lzcnt_ok. lia.
    + apply Z.mul_nonneg_nonneg; lia.
    + unfold R1. destruct more; lia.
Qed.

Lemma close_exact D E m t : 0 <= t <= infinity -> is_double D E t -> close_decimal D E m -> m = t.
Proof.
  intros Ht HE (H1 & H2 & H3). unfold is_double in HE. set (K := 10 ^ Z.max (- E) 0) in *.
  assert (HK : 0 < K) by (apply Z.pow_pos_nonneg; lia). rewrite <- HE in *.
  destruct (Z.eq_dec t infinity) as [->|D1]; [apply H2; lia|].
  pose proof (dbl_succ t ltac:(lia)) as L. apply (Z.mul_lt_mono_pos_r K) in L; [|exact HK].
  destruct (H3 t ltac:(lia) ltac:(lia)) as [[? _]|[_ H]]; [assumption|].
  exfalso. cbv zeta in H. rewrite Z.mul_add_distr_r, Z.mul_sub_distr_r in H. lia.
Qed.
