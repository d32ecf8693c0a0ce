(* Proofs about writing a real in decimal. *)
From Coq Require Import Znumtheory Zpow_facts.
From Verif Require Import Base Text Monad Lists Bits NumTables NumGetModel NumPutModel NumSpec DecSpec
  NumGetProofs NumCastProofs NumRoundProofs NumRealProofs NumPutProofs NumFormatProofs NumTripProofs DecProofs.

Local Open Scope Z_scope.

(* ---- the table ---- *)

Definition entry_at (i : Z) : Z * Z * Z := nth (Z.to_nat i) put_multipliers (0, 0, 0).
Definition bound_at (i : Z) : Z := fst (fst (entry_at i)).
Definition mant_at (i : Z) : Z := snd (fst (entry_at i)).
Definition exp2_at (i : Z) : Z := snd (entry_at i).

Lemma put_length : length put_multipliers = 633%nat.
Proof. vm_compute. reflexivity. Qed.
Lemma entry_nth i : 0 <= i < 633 ->
  nth_error put_multipliers (Z.to_nat i) = Some (bound_at i, mant_at i, exp2_at i).
Proof.
  intros H. unfold bound_at, mant_at, exp2_at, entry_at. rewrite (nth_error_nth' _ (0, 0, 0)) by (rewrite put_length; lia).
  destruct (nth _ _ _) as [[a b] c]. reflexivity.
Qed.

(* The entry is 10^+-k, where p is 10^k. *)
Definition put_entry_ok (neg : bool) (p : Z) (t : Z * Z * Z) : bool :=
  let '(bound, mm, e2) := t in
  let pe := if neg then 1 else p in
  let ne := if neg then p else 1 in
  (2 ^ 63 <=? mm) && (mm <? 2 ^ 64) && (-1000 <=? e2) && (e2 <=? 1140) && (0 <=? bound) && (bound <? infinity) &&
  ((mm - 1) * Z.shiftl ne (e2 + 1200) <=? Z.shiftl pe 1264) &&
  (((mm - 1) * Z.shiftl ne (e2 + 1200) <? Z.shiftl pe 1264) || negb ((mm - 1) mod 2 ^ 40 =? 0)) &&
  (Z.shiftl pe 1264 <=? mm * Z.shiftl ne (e2 + 1200)) &&
  (Z.shiftl (10 ^ 17 * ne) 1074 <=? dbl (Z.max bound 1) * pe) &&
  ((bound =? 0) || (dbl (bound - 1) * pe <? Z.shiftl (10 ^ 17 * ne) 1074)).
Fixpoint put_entries_ok (neg : bool) (p : Z) (l : list (Z * Z * Z)) : bool :=
  match l with
  | [] => true
  | x :: l' => put_entry_ok neg p x && put_entries_ok neg (10 * p) l'
  end.
Definition put_entries_all (l : list (Z * Z * Z)) : bool :=
  put_entries_ok false 1 (rev (firstn 342 l)) && put_entries_ok true 1 (skipn 341 l) && (length l =? 633)%nat.
(* The same with smaller numbers *)
Definition mant_of (b : Z) : Z := if b <? 0x10000000000000 then b else 0x10000000000000 + b mod 0x10000000000000.
Definition shift_of (b : Z) : Z := if b <? 0x10000000000000 then 0 else b / 0x10000000000000 - 1.
Lemma dbl_split b : 0 <= b -> dbl b = mant_of b * 2 ^ shift_of b /\ 0 <= shift_of b.
Proof.
  intros H. unfold dbl, mant_of, shift_of. change (2 ^ 52) with 0x10000000000000. destruct (Z.ltb_spec b 0x10000000000000) as [L|L].
  - split; [symmetry; apply Z.mul_1_r | lia].
  - split; [reflexivity|]. assert (1 <= b / 0x10000000000000) by (apply Z.div_le_lower_bound; lia). lia.
Qed.
Definition put_entry_fast (neg : bool) (p : Z) (t : Z * Z * Z) : bool :=
  let '(bound, mm, e2) := t in
  let pe := if neg then 1 else p in
  let ne := if neg then p else 1 in
  let x := mm * ne in
  let u := Z.shiftl pe (Z.max (64 - e2) 0) in
  let v := Z.shiftl (x - ne) (Z.max (e2 - 64) 0) in
  let b := Z.max bound 1 in
  let w := 100000000000000000 * ne in
  (0x8000000000000000 <=? mm) && (mm <? 0x10000000000000000) && (-1000 <=? e2) && (e2 <=? 1140) && (0 <=? bound) &&
  (bound <? 0x7FF0000000000000) &&
  (v <=? u) && ((v <? u) || negb ((mm - 1) mod 0x10000000000 =? 0)) && (u <=? Z.shiftl x (Z.max (e2 - 64) 0)) &&
  (Z.shiftl w (Z.max (1074 - shift_of b) 0) <=? Z.shiftl (mant_of b * pe) (Z.max (shift_of b - 1074) 0)) &&
  ((bound =? 0) || (let b := bound - 1 in
    Z.shiftl (mant_of b * pe) (Z.max (shift_of b - 1074) 0) <? Z.shiftl w (Z.max (1074 - shift_of b) 0))).
Lemma shifted a k : 0 <= k -> Z.shiftl a k = a * 2 ^ k.
Proof. apply Z.shiftl_mul_pow2. Qed.
Lemma put_entry_fast_ok neg p t : put_entry_fast neg p t = true -> put_entry_ok neg p t = true.
Proof.
  destruct t as [[bound mm] e2]. unfold put_entry_fast, put_entry_ok. change (2 ^ 63) with 0x8000000000000000.
  change (2 ^ 64) with 0x10000000000000000. change infinity with 0x7FF0000000000000. change (2 ^ 40) with 0x10000000000.
  change (10 ^ 17) with 100000000000000000.
  set (ne := if neg then p else 1). set (pe := if neg then 1 else p). cbv zeta. intros H.
  rewrite !andb_true_iff in H. destruct H as [[[[[[[[[[H1 H2] H3] H4] H5] H6] H7] H8] H9] H10] H11].
  assert (A : Z.shiftl (mm * ne - ne) (e2 + 1200) = (mm - 1) * Z.shiftl ne (e2 + 1200)) by (rewrite !shifted by lia; ring).
  assert (B : Z.shiftl (mm * ne) (e2 + 1200) = mm * Z.shiftl ne (e2 + 1200)) by (rewrite !shifted by lia; ring).
  assert (E1 : Z.max (64 - e2) 0 + (e2 + 1200 - Z.max (e2 - 64) 0) = 1264) by lia.
  assert (E2 : Z.max (e2 - 64) 0 + (e2 + 1200 - Z.max (e2 - 64) 0) = e2 + 1200) by lia.
  rewrite (shiftl_leb _ _ _ _ (e2 + 1200 - Z.max (e2 - 64) 0)), E1, E2, A in H7 by lia.
  rewrite (shiftl_ltb _ _ _ _ (e2 + 1200 - Z.max (e2 - 64) 0)), E1, E2, A in H8 by lia.
  rewrite (shiftl_leb _ _ _ _ (e2 + 1200 - Z.max (e2 - 64) 0)), E1, E2, B in H9 by lia.
  assert (D : forall b, 0 <= b -> Z.shiftl (mant_of b * pe) (shift_of b) = dbl b * pe).
  { intros b Hb. destruct (dbl_split b Hb) as [-> Hs]. rewrite shifted by assumption. ring. }
  assert (E3 : forall s, Z.max (1074 - s) 0 + Z.min 1074 s = 1074) by lia.
  assert (E4 : forall s, Z.max (s - 1074) 0 + Z.min 1074 s = s) by lia.
  rewrite H1, H2, H3, H4, H5, H6, H7, H8, H9. cbn [andb]. apply andb_true_iff. split.
  - assert (Hb : 0 <= Z.max bound 1) by lia. destruct (dbl_split _ Hb) as [_ Hs].
    rewrite (shiftl_leb _ _ _ _ (Z.min 1074 (shift_of (Z.max bound 1)))), E3, E4, D in H10 by lia. exact H10.
  - destruct (bound =? 0) eqn:E; [reflexivity|]. cbn [orb] in H11 |- *.
    assert (Hb : 0 <= bound - 1) by lia. destruct (dbl_split _ Hb) as [_ Hs].
    rewrite (shiftl_ltb _ _ _ _ (Z.min 1074 (shift_of (bound - 1)))), E3, E4, D in H11 by lia. exact H11.
Qed.
Fixpoint put_entries_fast (neg : bool) (p : Z) (l : list (Z * Z * Z)) : bool :=
  match l with
  | [] => true
  | x :: l' => if put_entry_fast neg p x then put_entries_fast neg (10 * p) l' else false
  end.
Lemma put_entries_fast_ok neg : forall l p, put_entries_fast neg p l = true -> put_entries_ok neg p l = true.
Proof.
  induction l as [|x l IH]; intros p; cbn [put_entries_fast put_entries_ok]; [reflexivity|].
  destruct (put_entry_fast neg p x) eqn:E; [|discriminate]. intros H. rewrite (put_entry_fast_ok _ _ _ E), (IH _ H). reflexivity.
Qed.
Lemma put_entries_false : put_entries_fast false 1 (rev (firstn 342 put_multipliers)) = true.
Proof. vm_compute. reflexivity. Qed.
Lemma put_entries_true : put_entries_fast true 1 (skipn 341 put_multipliers) = true.
Proof. vm_compute. reflexivity. Qed.
Lemma put_table_ok : put_entries_all put_multipliers = true.
Proof.
  unfold put_entries_all. rewrite (put_entries_fast_ok _ _ _ put_entries_false), (put_entries_fast_ok _ _ _ put_entries_true), put_length.
  reflexivity.
Qed.

Lemma put_entries_nth : forall neg l p n, put_entries_ok neg p l = true -> (n < length l)%nat ->
  put_entry_ok neg (p * 10 ^ Z.of_nat n) (nth n l (0, 0, 0)) = true.
Proof.
  intros neg. induction l as [|x l IH]; intros p n H L; [cbn in L; lia|].
  cbn [put_entries_ok] in H. apply andb_true_iff in H as [H1 H2]. destruct n as [|n].
  - cbn [nth]. change (Z.of_nat 0) with 0. now rewrite Z.pow_0_r, Z.mul_1_r.
  - cbn [nth length] in *. rewrite Nat2Z.inj_succ, Z.pow_succ_r by lia.
    replace (p * (10 * 10 ^ Z.of_nat n)) with (10 * p * 10 ^ Z.of_nat n) by ring. apply IH; [exact H2|lia].
Qed.
Lemma put_entries_at l i : put_entries_all l = true -> 0 <= i < 633 ->
  put_entry_ok (341 <? i) (10 ^ Z.abs (341 - i)) (nth (Z.to_nat i) l (0, 0, 0)) = true.
Proof.
  intros T He. unfold put_entries_all in T. apply andb_true_iff in T as [T T2]. apply andb_true_iff in T as [T0 T1].
  apply Nat.eqb_eq in T2. destruct (341 <? i) eqn:E.
  - pose proof (put_entries_nth true _ 1 (Z.to_nat (i - 341)) T1) as H. rewrite skipn_length in H.
    specialize (H ltac:(lia)). rewrite Z2Nat.id, Z.mul_1_l in H by lia. replace (Z.abs (341 - i)) with (i - 341) by lia.
    rewrite <- (firstn_skipn 341 l), app_nth2 by (rewrite firstn_length; lia). rewrite firstn_length.
    replace (Z.to_nat i - Nat.min 341 (length l))%nat with (Z.to_nat (i - 341)) by lia. exact H.
  - pose proof (put_entries_nth false _ 1 (Z.to_nat (341 - i)) T0) as H. rewrite rev_length, firstn_length in H.
    specialize (H ltac:(lia)). rewrite Z2Nat.id, Z.mul_1_l in H by lia. replace (Z.abs (341 - i)) with (341 - i) by lia.
    rewrite rev_nth in H by (rewrite firstn_length; lia). rewrite firstn_length in H.
    replace (Nat.min 342 (length l) - S (Z.to_nat (341 - i)))%nat with (Z.to_nat i) in H by lia.
    rewrite <- (firstn_skipn 342 l), app_nth1 by (rewrite firstn_length; lia). exact H.
Qed.
Definition pe (i : Z) : Z := 10 ^ Z.max (341 - i) 0.
Definition ne (i : Z) : Z := 10 ^ Z.max (i - 341) 0.
Lemma pe_pos i : 0 < pe i. Proof. apply Z.pow_pos_nonneg; lia. Qed.
Lemma ne_pos i : 0 < ne i. Proof. apply Z.pow_pos_nonneg; lia. Qed.
Lemma pe_ne i : (if 341 <? i then 1 else 10 ^ Z.abs (341 - i)) = pe i /\
  (if 341 <? i then 10 ^ Z.abs (341 - i) else 1) = ne i.
Proof.
  unfold pe, ne. destruct (341 <? i) eqn:E.
  - replace (Z.max (341 - i) 0) with 0 by lia. replace (Z.max (i - 341) 0) with (Z.abs (341 - i)) by lia. split; reflexivity.
  - replace (Z.max (i - 341) 0) with 0 by lia. replace (Z.max (341 - i) 0) with (Z.abs (341 - i)) by lia. split; reflexivity.
Qed.
Lemma pe_next i : pe i * ne (i + 1) = 10 * pe (i + 1) * ne i.
Proof.
  unfold pe, ne. destruct (Z_lt_ge_dec i 341).
  - replace (Z.max (i + 1 - 341) 0) with 0 by lia. replace (Z.max (i - 341) 0) with 0 by lia.
    replace (Z.max (341 - i) 0) with (Z.succ (Z.max (341 - (i + 1)) 0)) by lia. rewrite Z.pow_succ_r by lia. ring.
  - replace (Z.max (341 - i) 0) with 0 by lia. replace (Z.max (341 - (i + 1)) 0) with 0 by lia.
    replace (Z.max (i + 1 - 341) 0) with (Z.succ (Z.max (i - 341) 0)) by lia. rewrite Z.pow_succ_r by lia. ring.
Qed.
(* the value 10^(341 - i) * 2^(64 - e2) is A / B *)
Lemma put_entry_spec i : 0 <= i < 633 ->
  let mm := mant_at i in let A := pe i * 2 ^ 1264 in let B := ne i * 2 ^ (exp2_at i + 1200) in
  2 ^ 63 <= mm < 2 ^ 64 /\ -1000 <= exp2_at i <= 1140 /\ 0 <= bound_at i < infinity /\
  (mm - 1) * B <= A <= mm * B /\ ((mm - 1) * B < A \/ (mm - 1) mod 2 ^ 40 <> 0) /\
  10 ^ 17 * ne i * 2 ^ 1074 <= dbl (Z.max (bound_at i) 1) * pe i /\
  (bound_at i = 0 \/ dbl (bound_at i - 1) * pe i < 10 ^ 17 * ne i * 2 ^ 1074).
Proof.
  intros Hi. cbv zeta. pose proof (put_entries_at _ i put_table_ok Hi) as T.
  unfold bound_at, mant_at, exp2_at, entry_at. destruct (nth (Z.to_nat i) put_multipliers (0, 0, 0)) as [[b mm] e2].
  cbn [fst snd]. unfold put_entry_ok in T. destruct (pe_ne i) as [-> ->] in T.
  rewrite !andb_true_iff, !orb_true_iff in T.
  destruct T as ((((((((((T1 & T2) & T3) & T4) & T5) & T6) & T7) & T8) & T9) & T10) & T11).
  apply Z.leb_le in T3, T4. rewrite !Z.shiftl_mul_pow2 in * by lia.
  apply Z.leb_le in T1, T5, T7, T9, T10. apply Z.ltb_lt in T2, T6.
  repeat split; try assumption.
  - destruct T8 as [T8|T8]; [left; apply Z.ltb_lt, T8|right]. apply negb_true_iff, Z.eqb_neq in T8. exact T8.
  - destruct T11 as [T11|T11]; [left; apply Z.eqb_eq, T11|right; apply Z.ltb_lt, T11].
Qed.

(* ---- the search ---- *)

Lemma search_ok bits : forall fuel lo hi, 0 <= lo <= hi -> hi <= 633 -> hi - lo < 2 ^ Z.of_nat fuel ->
  exists r, search_mult fuel bits lo hi = Ok r /\ lo <= r <= hi /\
    (r = lo \/ bound_at (r - 1) <= bits) /\ (r = hi \/ bits < bound_at r).
Proof.
  induction fuel as [|f IH]; intros lo hi H1 H2 H3.
  - change (2 ^ Z.of_nat 0) with 1 in H3. assert (lo = hi) by lia. subst hi.
    exists lo. cbn [search_mult]. rewrite Z.eqb_refl. repeat split; auto; lia.
  - cbn [search_mult]. destruct (Z.eqb_spec lo hi) as [->|D].
    + exists hi. repeat split; auto; lia.
    + rewrite Nat2Z.inj_succ, Z.pow_succ_r in H3 by lia.
      set (mid := (lo + hi) / 2). assert (Hm : lo <= mid < hi).
      { split; [apply Z.div_le_lower_bound; lia|apply Z.div_lt_upper_bound; lia]. }
      pose proof (Z.div_mod (lo + hi) 2 ltac:(lia)) as Hd. pose proof (Z.mod_pos_bound (lo + hi) 2 ltac:(lia)) as Hd'.
      fold mid in Hd.
      rewrite entry_nth by lia. destruct (Z.ltb_spec bits (bound_at mid)) as [C|C].
      * destruct (IH lo mid ltac:(lia) ltac:(lia) ltac:(lia)) as (r & E & R1 & R2 & R3).
        exists r. split; [exact E|]. split; [lia|]. split; [exact R2|]. destruct R3 as [->|R3]; right; assumption.
      * destruct (IH (mid + 1) hi ltac:(lia) ltac:(lia) ltac:(lia)) as (r & E & R1 & R2 & R3).
        exists r. split; [exact E|]. split; [lia|]. split; [|exact R3]. right. destruct R2 as [->|R2]; [|exact R2].
        now replace (mid + 1 - 1) with mid by lia.
Qed.

Definition lo_of (e : Z) : Z := 1 + (51 + e) * 0x134413 / 0x400000.
Definition hi_of (e : Z) : Z := 633 - (2046 - e) * 0x134413 / 0x400000.
Definition least_of (e : Z) : Z := if e <? 1 then 2 ^ (51 + e) else e * 2 ^ 52.
Definition most_of (e : Z) : Z := if e <? 1 then 2 ^ (52 + e) - 1 else (e + 1) * 2 ^ 52 - 1.
Definition exp_ok (e : Z) : bool :=
  (1 <=? lo_of e) && (lo_of e <=? hi_of e) && (hi_of e <=? 633) && (hi_of e - lo_of e <=? 2) &&
  (bound_at (lo_of e - 1) <=? least_of e) && ((hi_of e =? 633) || (most_of e <? bound_at (hi_of e))) &&
  forallb (fun k => let i := lo_of e - 1 + Z.of_nat k in
                    (hi_of e <=? i) || (1 <=? e + exp2_at i - 1075) && (e + exp2_at i - 1075 <=? 11)) (seq 0 3).
Lemma exps_ok : forallb (fun k => exp_ok (Z.of_nat k - 51)) (seq 0 2098) = true.
Proof. vm_compute. reflexivity. Qed.
Lemma exp_at e : -51 <= e <= 2046 -> exp_ok e = true.
Proof.
  intros H. pose proof exps_ok as T. rewrite forallb_forall in T. specialize (T (Z.to_nat (e + 51))).
  cbv beta in T. replace (Z.of_nat (Z.to_nat (e + 51)) - 51) with e in T by lia. apply T. apply in_seq. lia.
Qed.
Lemma search_found e b : -51 <= e <= 2046 -> least_of e <= b <= most_of e ->
  exists i, search_mult 12 b (lo_of e) (hi_of e) = Ok (i + 1) /\ 0 <= i < 633 /\
    bound_at i <= b /\ (i = 632 \/ b < bound_at (i + 1)) /\ 1 <= e + exp2_at i - 1075 <= 11.
Proof.
  intros He Hb. pose proof (exp_at e He) as T. unfold exp_ok in T. rewrite !andb_true_iff in T.
  destruct T as ((((((T1 & T2) & T3) & T4) & T5) & T6) & T7). apply Z.leb_le in T1, T2, T3, T4, T5.
  destruct (search_ok b 12 (lo_of e) (hi_of e) ltac:(lia) T3) as (r & E & R1 & R2 & R3).
  { change (2 ^ Z.of_nat 12) with 4096. lia. }
  exists (r - 1). replace (r - 1 + 1) with r by lia. split; [exact E|]. split; [lia|]. split; [|split].
  - destruct R2 as [->|R2]; [lia|exact R2].
  - destruct R3 as [->|R3]; [|now right]. apply orb_true_iff in T6 as [T6|T6].
    + apply Z.eqb_eq in T6. left. lia.
    + apply Z.ltb_lt in T6. right. lia.
  - rewrite forallb_forall in T7. specialize (T7 (Z.to_nat (r - lo_of e)) ltac:(apply in_seq; lia)). cbv beta zeta in T7.
    replace (lo_of e - 1 + Z.of_nat (Z.to_nat (r - lo_of e))) with (r - 1) in T7 by lia.
    apply orb_true_iff in T7 as [T7|T7]; [apply Z.leb_le in T7; lia|]. apply andb_true_iff in T7 as [T7 T8].
    apply Z.leb_le in T7, T8. split; assumption.
Qed.

(* ---- the interval ---- *)

Lemma pow_range sh : 1 <= sh <= 11 -> 2 ^ sh = 2 * 2 ^ (sh - 1) /\ 1 <= 2 ^ (sh - 1) <= 1024.
Proof.
  intros H. split.
  - rewrite <- Z.pow_succ_r by lia. f_equal. lia.
  - change 1 with (2 ^ 0). change 1024 with (2 ^ 10). split; apply Z.pow_le_mono_r; lia.
Qed.
Lemma odd_pow_ndiv n sh q : 1 <= sh <= 11 -> ((2 * n + 1) * 2 ^ (sh - 1) * q) mod 2 ^ 64 = 0 -> q mod 2 ^ 40 = 0.
Proof.
  intros Hs H. apply Z.mod_divide in H; [|lia]. apply Z.mod_divide; [lia|].
  assert (D : (2 ^ 50 | (2 * n + 1) * 2 ^ (sh - 1) * q)).
  { apply Z.divide_trans with (2 ^ 64); [exists (2 ^ 14); reflexivity|exact H]. }
  assert (E : 2 ^ 50 = 2 ^ (51 - sh) * 2 ^ (sh - 1)) by (rewrite <- Z.pow_add_r by lia; f_equal; lia).
  rewrite E in D. replace ((2 * n + 1) * 2 ^ (sh - 1) * q) with ((2 * n + 1) * q * 2 ^ (sh - 1)) in D by ring.
  apply Z.mul_divide_cancel_r in D; [|pose proof (pow_range sh Hs); lia].
  assert (D' : (2 ^ 40 | (2 * n + 1) * q)).
  { apply Z.divide_trans with (2 ^ (51 - sh)); [|exact D]. exists (2 ^ (11 - sh)). rewrite <- Z.pow_add_r by lia. f_equal. lia. }
  apply Z.gauss with (2 * n + 1); [exact D'|].
  apply Zgcd_1_rel_prime, rel_prime_sym, rel_prime_Zpower_r; [lia|].
  apply bezout_rel_prime. apply Bezout_intro with (1) (- n). lia.
Qed.

Lemma write_core n sh mm A B : 2 ^ 52 <= n < 2 ^ 53 -> 1 <= sh <= 11 -> 2 ^ 63 <= mm < 2 ^ 64 -> 0 < B ->
  (mm - 1) * B <= A <= mm * B -> ((mm - 1) * B < A \/ (mm - 1) mod 2 ^ 40 <> 0) ->
  10 ^ 17 * 2 ^ 64 * B <= n * 2 ^ sh * A < 10 ^ 18 * 2 ^ 64 * B ->
  let X := n * 2 ^ sh in let h := 2 ^ (sh - 1) in
  let mn := (X - h) * mm / 2 ^ 64 + 1 in let mx := (X + h) * (mm - 1) / 2 ^ 64 in
  0 < mn <= mx /\ mx - mn < 450 /\ mn <= 10 ^ 18 /\ 10 ^ 17 <= mx /\
  0 < X - h /\ X + h < 2 ^ 64 /\
  (forall r, mn <= r <= mx -> (X - h) * A < r * 2 ^ 64 * B < (X + h) * A) /\
  (forall r, 16 * Z.abs (r * 2 ^ 64 * B - X * A) <= 15 * h * A -> mn <= r <= mx).
Proof.
  intros Hn Hs Hmm HB HA Hst HV. cbv zeta. destruct (pow_range sh Hs) as [E2 Hh]. rewrite E2 in *.
  pose proof (odd_pow_ndiv n sh (mm - 1) Hs) as HD.
  set (h := 2 ^ (sh - 1)) in *. clearbody h. clear sh Hs E2.
  replace (n * (2 * h) - h) with ((2 * n - 1) * h) by ring. replace (n * (2 * h) + h) with ((2 * n + 1) * h) by ring.
  set (T := 2 ^ 64) in *. assert (HT : T = 2 ^ 64) by reflexivity. clearbody T.
  assert (HhA : 0 <= 2 * n * h) by lia.
  assert (P1 : n * (2 * h) * A <= 2 * n * h * mm * B).
  { replace (n * (2 * h) * A) with (2 * n * h * A) by ring. rewrite <- (Z.mul_assoc _ mm). apply Z.mul_le_mono_nonneg_l; lia. }
  assert (P2 : 2 * n * h * (mm - 1) * B <= n * (2 * h) * A).
  { replace (n * (2 * h) * A) with (2 * n * h * A) by ring. rewrite <- (Z.mul_assoc _ (mm - 1)). apply Z.mul_le_mono_nonneg_l; lia. }
  assert (Q1 : 10 ^ 17 * T <= 2 * n * h * mm) by (apply (Z.mul_le_mono_pos_r _ _ B); lia).
  assert (Q2 : 2 * n * h * (mm - 1) < 10 ^ 18 * T) by (apply (Z.mul_lt_mono_pos_r B); lia).
  assert (Hh2 : 6 <= h).
  { destruct (Z_lt_ge_dec h 6) as [C|C]; [exfalso|lia].
    assert (2 * n * h <= 2 ^ 54 * 5) by (clear - Hn Hh C; apply Z.mul_le_mono_nonneg; lia). assert (2 * n * h * mm <= 2 ^ 54 * 5 * mm) by (apply Z.mul_le_mono_nonneg_r; lia). lia. }
  assert (Hh3 : h <= 224).
  { destruct (Z_lt_ge_dec 224 h) as [C|C]; [exfalso|lia].
    assert (K1 : 2 * 2 ^ 52 * 225 <= 2 * n * h) by (clear - Hn Hh C; apply Z.mul_le_mono_nonneg; lia).
    assert (K2 : 2 * 2 ^ 52 * 225 * (2 ^ 63 - 1) <= 2 * n * h * (mm - 1)) by (clear - K1 Hmm; apply Z.mul_le_mono_nonneg; lia).
    rewrite HT in Q2. clear - K2 Q2. lia. }
  set (a := (2 * n - 1) * h * mm). set (b := (2 * n + 1) * h * (mm - 1)).
  assert (Hab : b - a = h * (2 * mm - 2 * n - 1)) by (unfold a, b; ring).
  assert (Hba : 2 * T <= b - a < 450 * T).
  { rewrite Hab. split.
    - assert (6 * (2 * mm - 2 * n - 1) <= h * (2 * mm - 2 * n - 1)) by (apply Z.mul_le_mono_nonneg_r; lia). lia.
    - assert (h * (2 * mm - 2 * n - 1) <= 224 * (2 * mm - 2 * n - 1)) by (apply Z.mul_le_mono_nonneg_r; lia). lia. }
  assert (Ha : a <= 2 * n * h * (mm - 1)).
  { assert (K : 0 <= h * (mm - 2 * n)) by (apply Z.mul_nonneg_nonneg; lia).
    replace (2 * n * h * (mm - 1)) with (a + h * (mm - 2 * n)) by (unfold a; ring). lia. }
  assert (Hb : 2 * n * h * mm <= b).
  { assert (K : 0 <= h * (mm - 2 * n - 1)) by (apply Z.mul_nonneg_nonneg; lia).
    replace b with (2 * n * h * mm + h * (mm - 2 * n - 1)) by (unfold b; ring). lia. }
  assert (Ha0 : 0 <= a) by (unfold a; apply Z.mul_nonneg_nonneg; [apply Z.mul_nonneg_nonneg|]; lia).
  pose proof (Z.div_mod a T ltac:(lia)) as Da. pose proof (Z.mod_pos_bound a T ltac:(lia)) as Ma.
  pose proof (Z.div_mod b T ltac:(lia)) as Db. pose proof (Z.mod_pos_bound b T ltac:(lia)) as Mb.
  assert (B1 : forall r, r <= b / T -> r * T <= b) by (intros r Hr; assert (r * T <= b / T * T) by (apply Z.mul_le_mono_nonneg_r; lia); lia).
  assert (B2 : forall r, a / T + 1 <= r -> a < r * T) by (intros r Hr; assert ((a / T + 1) * T <= r * T) by (apply Z.mul_le_mono_nonneg_r; lia); lia).
  assert (La : 0 <= a / T) by (apply Z.div_pos; lia).
  split; [|split; [|split; [|split; [|split; [|split; [|split]]]]]].
  - split; [lia|]. apply Z.div_le_lower_bound; [lia|]. rewrite Z.mul_add_distr_l. lia.
  - specialize (B1 (b / T) (Z.le_refl _)). specialize (B2 (a / T + 1) (Z.le_refl _)).
    apply (Z.mul_lt_mono_pos_r T); [clear - HT; lia|]. rewrite Z.mul_sub_distr_r. clear - B1 B2 Hba. lia.
  - assert (K : a < T * 10 ^ 18) by (clear - Ha Q2; lia).
    apply Z.div_lt_upper_bound in K; [clear - K; lia|clear - HT; lia].
  - apply Z.div_le_lower_bound; [clear - HT; lia|clear - Hb Q1; lia].
  - apply Z.mul_pos_pos; [clear - Hn; lia|clear - Hh; lia].
  - assert ((2 * n + 1) * h <= (2 ^ 54 - 1) * 1024) by (clear - Hn Hh; apply Z.mul_le_mono_nonneg; lia). clear - H HT. lia.
  - intros r [R1 R2]. specialize (B1 r R2). specialize (B2 r R1). split.
    + apply Z.le_lt_trans with (a * B); [|apply Z.mul_lt_mono_pos_r; assumption].
      unfold a. rewrite <- (Z.mul_assoc _ mm). apply Z.mul_le_mono_nonneg_l; [apply Z.mul_nonneg_nonneg; clear - Hn Hh; lia|clear - HA; lia].
    + destruct Hst as [Hst|Hst].
      * apply Z.le_lt_trans with (b * B); [apply Z.mul_le_mono_nonneg_r; [clear - HB; lia|exact B1]|].
        unfold b. rewrite <- (Z.mul_assoc _ (mm - 1)). apply Z.mul_lt_mono_pos_l; [apply Z.mul_pos_pos; clear - Hn Hh; lia|exact Hst].
      * apply Z.lt_le_trans with (b * B).
        -- apply Z.mul_lt_mono_pos_r; [exact HB|]. destruct (Z.eq_dec (r * T) b) as [C|C]; [exfalso|clear - B1 C; lia].
           apply Hst, HD. fold b. rewrite <- C. apply Z.mod_mul. clear - HT; lia.
        -- unfold b. rewrite <- (Z.mul_assoc _ (mm - 1)). apply Z.mul_le_mono_nonneg_l; [apply Z.mul_nonneg_nonneg; clear - Hn Hh; lia|clear - HA; lia].
  - intros r HR.
    assert (K0 : 0 <= h * B) by (clear - Hh HB; apply Z.mul_nonneg_nonneg; lia).
    assert (K1 : 2 ^ 60 * (h * B) <= h * A).
    { replace (2 ^ 60 * (h * B)) with (h * (2 ^ 60 * B)) by ring. apply Z.mul_le_mono_nonneg_l; [clear - Hh; lia|].
      assert (2 ^ 60 * B <= (mm - 1) * B) by (apply Z.mul_le_mono_nonneg_r; [clear - HB; lia|clear - Hmm; lia]). clear - H HA. lia. }
    assert (K2 : (2 * n + 1) * (h * B) <= 2 ^ 55 * (h * B)) by (apply Z.mul_le_mono_nonneg_r; [exact K0|clear - Hn; lia]).
    assert (K3 : (2 * n - 1) * h * (mm * B) <= (2 * n - 1) * h * (A + B)).
    { apply Z.mul_le_mono_nonneg_l; [apply Z.mul_nonneg_nonneg; clear - Hn Hh; lia|clear - HA; lia]. }
    assert (K4 : (2 * n + 1) * h * (A - B) <= (2 * n + 1) * h * ((mm - 1) * B)).
    { apply Z.mul_le_mono_nonneg_l; [apply Z.mul_nonneg_nonneg; clear - Hn Hh; lia|clear - HA; lia]. }
    assert (K5 : 0 < h * B) by (apply Z.mul_pos_pos; [clear - Hh2; lia|exact HB]).
    assert (L1 : a * B = (2 * n - 1) * h * (mm * B)) by (unfold a; ring).
    assert (L2 : b * B = (2 * n + 1) * h * ((mm - 1) * B)) by (unfold b; ring).
    assert (L3 : (2 * n - 1) * h * (A + B) = n * (2 * h) * A - h * A + (2 * n + 1) * (h * B) - 2 * (h * B)) by ring.
    assert (L4 : (2 * n + 1) * h * (A - B) = n * (2 * h) * A + h * A - (2 * n + 1) * (h * B)) by ring.
    replace (15 * h * A) with (15 * (h * A)) in HR by ring.
    set (xA := n * (2 * h) * A) in *. set (hA := h * A) in *. set (hB := h * B) in *. set (c := (2 * n + 1) * hB) in *.
    set (rb := r * T * B) in *.
    assert (M1 : a * B < rb /\ rb <= b * B) by (clear - HR K1 K2 K3 K4 K5 L1 L2 L3 L4; lia).
    destruct M1 as [M1 M2]. unfold rb in *. apply Z.mul_lt_mono_pos_r in M1; [|exact HB].
    apply Z.mul_le_mono_pos_r in M2; [|exact HB]. split.
    + assert (M3 : a < T * r) by (clear - M1; lia). apply Z.div_lt_upper_bound in M3; [clear - M3; lia|clear - HT; lia].
    + apply Z.div_le_lower_bound; [clear - HT; lia|clear - M2; lia].
Qed.

(* ---- removing digits ---- *)

Lemma u64_in z : 0 <= to_u64 z < 2 ^ 64.
Proof. unfold to_u64. apply Z.mod_pos_bound. lia. Qed.
Lemma u64_small z : 0 <= z < 2 ^ 64 -> to_u64 z = z.
Proof. intros. unfold to_u64. apply Z.mod_small. assumption. Qed.
Lemma diff_in mn df x : 0 <= mn -> 0 <= df -> mn + df < 2 ^ 64 -> 0 <= x < 2 ^ 64 ->
  to_u64 (x - mn) <= df <-> mn <= x <= mn + df.
Proof.
  intros H1 H2 H3 Hx. unfold to_u64. destruct (Z_lt_ge_dec x mn) as [C|C].
  - rewrite <- (Z.mod_add (x - mn) 1), Z.mod_small by lia. lia.
  - rewrite Z.mod_small by lia. lia.
Qed.
Lemma shorten_in mn df : 0 <= mn -> 0 <= df -> mn + df < 2 ^ 64 -> forall divs b,
  mn <= b <= mn + df -> mn <= shorten divs mn df b <= mn + df.
Proof.
  intros H1 H2 H3 divs b Hb. unfold shorten.
  assert (G : forall st : Z * Z * Z, mn <= fst (fst st) <= mn + df ->
    mn <= fst (fst (fold_left (fun (acc : Z * Z * Z) div =>
        let '(b, r_digits, r_mult) := acc in
        let next_digits := to_u64 (r_digits + div / 2) / div in
        let next_mult := to_u64 (r_mult * div) in
        let next_bits := to_u64 (next_digits * next_mult) in
        if to_u64 (next_bits - mn) <=? df
        then (next_bits, next_digits, next_mult) else acc) divs st)) <= mn + df).
  { induction divs as [|d divs IH]; intros [[b0 rd] rm] Hst; [exact Hst|]. cbn [fold_left]. apply IH.
    set (nb := to_u64 (to_u64 (rd + d / 2) / d * to_u64 (rm * d))). cbv zeta. fold nb.
    destruct (Z.leb_spec (to_u64 (nb - mn)) df) as [C|C]; [|exact Hst].
    cbn [fst]. apply diff_in in C; try assumption. apply u64_in. }
  specialize (G (b, b, 1) Hb). destruct (fold_left _ divs (b, b, 1)) as [[x y] z]. exact G.
Qed.

Definition round_numbers : list Z := [10 ^ 17; 10 ^ 18].
Lemma shorten_round mn df b G : In G round_numbers -> 0 <= mn -> 0 <= df < 2048 ->
  mn <= b <= mn + df -> mn <= G <= mn + df ->
  shorten [100000000; 10000; 100; 100; 10] mn df b = G.
Proof.
  intros HG H1 H2 Hb HGi. unfold shorten. cbn [fold_left].
  assert (HGb : 0 < G < 2 ^ 61) by (destruct HG as [<-|[<-|[]]]; lia).
  assert (A : (to_u64 (G - mn) <=? df) = true).
  { apply Z.leb_le, diff_in; lia. }
  assert (E1 : to_u64 (to_u64 (b + 100000000 / 2) / 100000000 * to_u64 (1 * 100000000)) = G /\
               to_u64 (b + 100000000 / 2) / 100000000 = G / 100000000).
  { assert (Q : to_u64 (b + 100000000 / 2) / 100000000 = G / 100000000).
    { rewrite u64_small by lia. destruct HG as [<-|[<-|[]]].
      - change (10 ^ 17 / 100000000) with 1000000000. symmetry. apply Z.div_unique with (b + 100000000 / 2 - 10 ^ 17); lia.
      - change (10 ^ 18 / 100000000) with 10000000000. symmetry. apply Z.div_unique with (b + 100000000 / 2 - 10 ^ 18); lia. }
    rewrite Q. split; [|reflexivity]. destruct HG as [<-|[<-|[]]]; reflexivity. }
  destruct E1 as [E1 E2]. rewrite E1, E2, A. clear E1 E2.
  destruct HG as [<-|[<-|[]]].
  - repeat (match goal with |- context [if to_u64 (?x - mn) <=? df then _ else _] =>
      change x with (10 ^ 17); rewrite A end; cbv beta iota zeta). reflexivity.
  - repeat (match goal with |- context [if to_u64 (?x - mn) <=? df then _ else _] =>
      change x with (10 ^ 18); rewrite A end; cbv beta iota zeta). reflexivity.
Qed.

(* ---- the spacing ---- *)

Lemma same_cross D E D' E' : same_value 10 D E D' E' ->
  D * 10 ^ Z.max E 0 * 10 ^ Z.max (- E') 0 = D' * 10 ^ Z.max E' 0 * 10 ^ Z.max (- E) 0.
Proof.
  intros (s & s' & Hs & Hs' & HE & HV).
  apply (Z.mul_cancel_r _ _ (10 ^ s)); [apply Z.pow_nonzero; lia|].
  transitivity (D * 10 ^ s * (10 ^ Z.max E 0 * 10 ^ Z.max (- E') 0)); [ring|]. rewrite HV.
  transitivity (D' * (10 ^ s' * 10 ^ Z.max E 0 * 10 ^ Z.max (- E') 0)); [ring|].
  transitivity (D' * (10 ^ s * 10 ^ Z.max E' 0 * 10 ^ Z.max (- E) 0)); [|ring].
  f_equal. rewrite <- !Z.pow_add_r by lia. f_equal. lia.
Qed.
Lemma within_same D E D' E' m : same_value 10 D E D' E' -> within_half D' E' m -> within_half D E m.
Proof.
  intros HS HW. apply same_cross in HS. unfold within_half in *.
  assert (K1 : 0 < 10 ^ Z.max (- E) 0) by (apply Z.pow_pos_nonneg; lia).
  assert (K2 : 0 < 10 ^ Z.max (- E') 0) by (apply Z.pow_pos_nonneg; lia).
  set (K := 10 ^ Z.max (- E) 0) in *. set (K' := 10 ^ Z.max (- E') 0) in *.
  set (P := D * 10 ^ Z.max E 0) in *. set (P' := D' * 10 ^ Z.max E' 0) in *.
  set (U := 2 ^ 1074) in *. clearbody K K' P P' U. set (d := dbl m) in *. set (g := dbl (m + 1) - d) in *. clearbody d g.
  apply (Z.mul_lt_mono_pos_r K'); [exact K2|]. apply (Z.mul_lt_mono_pos_r K) in HW; [|exact K1].
  rewrite <- (Z.mul_assoc 2) in *. rewrite <- (Z.abs_eq K') at 1 by lia. rewrite <- (Z.abs_eq K) in HW at 1 by lia.
  rewrite <- Z.abs_mul in *. replace ((P * U - d * K) * K') with ((P' * U - d * K') * K).
  - replace (g * K * K') with (g * K' * K) by ring. exact HW.
  - rewrite !Z.mul_sub_distr_r. replace (P * U * K') with (P * K' * U) by ring. rewrite HS. ring.
Qed.

Lemma split_spacing bits n e : 0 < magnitude bits < infinity -> 2 ^ 52 <= n < 2 ^ 53 ->
  (magnitude bits < 2 ^ 52 -> e <= 0 /\ n = magnitude bits * 2 ^ (1 - e)) ->
  (2 ^ 52 <= magnitude bits -> e = magnitude bits / 2 ^ 52 /\ n = 2 ^ 52 + magnitude bits mod 2 ^ 52) ->
  least_of e <= magnitude bits <= most_of e /\
  dbl (magnitude bits) <= n * (dbl (magnitude bits + 1) - dbl (magnitude bits)) /\
  (2 ^ 52 <= magnitude bits -> dbl (magnitude bits) = n * (dbl (magnitude bits + 1) - dbl (magnitude bits))).
Proof.
  set (g := magnitude bits). intros Hg Hn Hs Hb. destruct (Z_lt_ge_dec g (2 ^ 52)) as [C|C].
  - destruct (Hs C) as [He Hn']. clear Hs Hb. unfold least_of, most_of. replace (e <? 1) with true by lia.
    assert (He' : -51 <= e).
    { destruct (Z_lt_ge_dec e (-51)) as [D|D]; [exfalso|lia].
      assert (2 ^ 53 <= 2 ^ (1 - e)) by (apply Z.pow_le_mono_r; lia). nia. }
    assert (E1 : 2 ^ 52 = 2 ^ (51 + e) * 2 ^ (1 - e)) by (rewrite <- Z.pow_add_r by lia; f_equal; lia).
    assert (E2 : 2 ^ 53 = 2 ^ (52 + e) * 2 ^ (1 - e)) by (rewrite <- Z.pow_add_r by lia; f_equal; lia).
    pose proof (pow2_pos (1 - e) ltac:(lia)). rewrite Hn' in Hn.
    assert (G1 : 2 ^ (51 + e) <= g) by (apply (Z.mul_le_mono_pos_r _ _ (2 ^ (1 - e))); lia).
    assert (G2 : g < 2 ^ (52 + e)) by (apply (Z.mul_lt_mono_pos_r (2 ^ (1 - e))); lia).
    split; [lia|]. split; [|intros; lia]. rewrite !dbl_sub by lia. rewrite Hn'. nia.
  - destruct (Hb ltac:(lia)) as [He Hn']. clear Hs Hb. pose proof (Z.div_mod g (2 ^ 52) ltac:(lia)) as Hd.
    pose proof (Z.mod_pos_bound g (2 ^ 52) ltac:(lia)) as Hm. rewrite <- He in Hd.
    assert (1 <= e) by (subst e; apply Z.div_le_lower_bound; lia).
    split; [unfold least_of, most_of; replace (e <? 1) with false by lia; lia|].
    replace g with ((e - 1) * 2 ^ 52 + n) by lia. rewrite <- Z.add_assoc.
    rewrite (dbl_normal_top e n), (dbl_normal_top e (n + 1)) by lia.
    replace (n * ((n + 1) * 2 ^ (e - 1) - n * 2 ^ (e - 1))) with (n * 2 ^ (e - 1)) by ring. split; [lia|reflexivity].
Qed.

(* ---- the digits ---- *)

Lemma scale_back n r X h T A B U Y W F :
  0 < n -> 0 < U -> 0 < F -> X = 2 * n * h -> X * A * U = Y * F -> r * T * B * U = W * F ->
  (X - h) * A < r * T * B < (X + h) * A -> 2 * Z.abs (W - Y) * n < Y.
Proof.
  intros Hn HU HF HX H1 H2 [L R].
  apply (Z.mul_lt_mono_pos_r U) in L; [|exact HU]. apply (Z.mul_lt_mono_pos_r U) in R; [|exact HU]. rewrite H2 in *.
  apply (Z.mul_lt_mono_pos_l (2 * n)) in L; [|lia]. apply (Z.mul_lt_mono_pos_l (2 * n)) in R; [|lia].
  replace (2 * n * ((X - h) * A * U)) with (2 * n * (X * A * U) - 2 * n * h * A * U) in L by ring.
  replace (2 * n * ((X + h) * A * U)) with (2 * n * (X * A * U) + 2 * n * h * A * U) in R by ring.
  rewrite <- HX, H1 in *.
  assert (L' : (2 * n * Y - Y) * F < 2 * n * W * F) by lia. assert (R' : 2 * n * W * F < (2 * n * Y + Y) * F) by lia.
  apply Z.mul_lt_mono_pos_r in L', R'; try exact HF.
  destruct (Z.abs_spec (W - Y)) as [[_ ->]|[_ ->]]; lia.
Qed.

Lemma scale_forth n r X h T A B U Y W F g :
  0 < n -> 0 < U -> 0 < F -> X = 2 * n * h -> X * A * U = Y * F -> r * T * B * U = W * F -> Y = n * g ->
  32 * Z.abs (W - Y) <= 15 * g -> 16 * Z.abs (r * T * B - X * A) <= 15 * h * A.
Proof.
  intros Hn HU HF HX H1 H2 HY H.
  apply (Z.mul_le_mono_nonneg_r _ _ (n * F)) in H; [|apply Z.mul_nonneg_nonneg; lia].
  apply (Z.mul_le_mono_pos_r _ _ (2 * n * U)); [apply Z.mul_pos_pos; lia|].
  replace (15 * h * A * (2 * n * U)) with (15 * (X * A * U)) by (rewrite HX; ring). rewrite H1, HY.
  replace (15 * g * (n * F)) with (15 * (n * g * F)) in H by ring. eapply Z.le_trans; [|exact H].
  replace (16 * Z.abs (r * T * B - X * A) * (2 * n * U)) with (32 * n * (Z.abs (r * T * B - X * A) * U)) by ring.
  rewrite <- (Z.abs_eq U) at 1 by lia. rewrite <- Z.abs_mul, Z.mul_sub_distr_r, H1, H2, <- Z.mul_sub_distr_r, Z.abs_mul.
  rewrite (Z.abs_eq F) by lia. apply Z.eq_le_incl. ring.
Qed.

Lemma pow_cancel_facts n e e2 s s' d p q : 0 <= s -> 0 <= s' -> s - s' = e - 1 -> n * 2 ^ s = d * 2 ^ s' ->
  -1000 <= e2 <= 1140 -> 0 <= e + e2 - 1075 ->
  n * 2 ^ (e + e2 - 1075) * (p * 2 ^ 1264) * 2 ^ 2000 = d * p * 2 ^ (e2 + 2190) /\
  2 ^ 64 * (q * 2 ^ (e2 + 1200)) * 2 ^ 2000 = q * 2 ^ 1074 * 2 ^ (e2 + 2190).
Proof.
  intros Hs Hs' HE HV He2 Hsh. split.
  - apply (Z.mul_cancel_r _ _ (2 ^ s')); [apply Z.pow_nonzero; lia|].
    transitivity (n * p * (2 ^ (e + e2 - 1075) * 2 ^ 1264 * 2 ^ 2000 * 2 ^ s')); [generalize (2 ^ 1264) (2 ^ 2000); intros; ring|].
    transitivity (d * 2 ^ s' * p * 2 ^ (e2 + 2190)); [|ring]. rewrite <- HV.
    transitivity (n * p * (2 ^ s * 2 ^ (e2 + 2190))); [|ring].
    f_equal. rewrite <- !Z.pow_add_r by lia. f_equal. lia.
  - transitivity (q * (2 ^ 64 * 2 ^ (e2 + 1200) * 2 ^ 2000)); [generalize (2 ^ 2000); intros; ring|].
    rewrite <- (Z.mul_assoc q). f_equal. rewrite <- !Z.pow_add_r by lia. f_equal. lia.
Qed.

Lemma value_range i g : 0 <= i < 633 -> 0 < g < infinity -> bound_at i <= g -> (i = 632 \/ g < bound_at (i + 1)) ->
  10 ^ 17 * (ne i * 2 ^ 1074) <= dbl g * pe i < 10 ^ 18 * (ne i * 2 ^ 1074).
Proof.
  intros Hi Hg H1 H2. pose proof (put_entry_spec i Hi) as (_ & _ & Hb & _ & _ & L & _). cbv zeta in *.
  split.
  - rewrite Z.mul_assoc. eapply Z.le_trans; [exact L|]. apply Z.mul_le_mono_nonneg_r; [pose proof (pe_pos i); lia|].
    apply dbl_mono; lia.
  - destruct H2 as [->|H2].
    + assert (K : dbl g < dbl infinity) by (apply dbl_lt; lia). rewrite dbl_infinity in K.
      eapply Z.lt_le_trans; [apply Z.mul_lt_mono_pos_r; [apply pe_pos|exact K]|]. apply Z.leb_le. vm_compute. reflexivity.
    + destruct (Z.eq_dec i 632) as [->|D]; [exfalso|].
      { change (bound_at (632 + 1)) with 0 in H2. lia. }
      pose proof (put_entry_spec (i + 1) ltac:(lia)) as (_ & _ & Hb' & _ & _ & _ & R). cbv zeta in *.
      destruct R as [R|R]; [lia|].
      assert (K : dbl g <= dbl (bound_at (i + 1) - 1)) by (apply dbl_mono; lia).
      pose proof (pe_next i) as PN. pose proof (pe_pos i) as P1. pose proof (pe_pos (i + 1)) as P2.
      pose proof (ne_pos i) as N1. pose proof (ne_pos (i + 1)) as N2.
      set (a := pe i) in *. set (a' := pe (i + 1)) in *. set (c := ne i) in *. set (c' := ne (i + 1)) in *.
      set (U := 2 ^ 1074) in *. set (x := dbl g) in *. set (y := dbl (bound_at (i + 1) - 1)) in *.
      clearbody a a' c c' U x y. clear - K R PN P1 P2 N1 N2.
      assert (Q : x * a' < 10 ^ 17 * c' * U) by (assert (x * a' <= y * a') by (apply Z.mul_le_mono_nonneg_r; lia); lia).
      apply (Z.mul_lt_mono_pos_r c'); [exact N2|].
      replace (x * a * c') with (x * (a * c')) by ring. rewrite PN.
      replace (x * (10 * a' * c)) with (10 * c * (x * a')) by ring.
      replace (10 ^ 18 * (c * U) * c') with (10 * c * (10 ^ 17 * c' * U)) by ring.
      apply Z.mul_lt_mono_pos_l; [lia|exact Q].
Qed.

Definition tries : list Z := [100000000; 10000; 100; 100; 10].
Lemma frexp10_raw bits : 0 <= bits < 2 ^ 64 -> 0 < magnitude bits < infinity ->
  exists i mn mx, frexp10_17 bits =
      (let r := shorten tries mn (mx - mn) (mn + (mx - mn) / 2) in
       if 10 ^ 18 <=? r then Ok (Frexp (f_cls (split_double bits)) (minus_bit bits) (i + 1 - 341) (r / 10))
       else Ok (Frexp (f_cls (split_double bits)) (minus_bit bits) (i - 341) r)) /\
    finite_nonzero (split_double bits) = true /\ 0 <= i < 633 /\
    0 < mn <= mx /\ mx - mn < 450 /\ mn <= 10 ^ 18 /\ 10 ^ 17 <= mx /\
    10 ^ 17 * (ne i * 2 ^ 1074) <= dbl (magnitude bits) * pe i /\
    (forall r, mn <= r <= mx -> within_half r (i - 341) (magnitude bits)) /\
    (forall G, 2 ^ 52 <= magnitude bits ->
       32 * Z.abs (G * ne i * 2 ^ 1074 - dbl (magnitude bits) * pe i)
         <= 15 * ((dbl (magnitude bits + 1) - dbl (magnitude bits)) * pe i) -> mn <= G <= mx).
Proof.
  intros Hb Hm. destruct (split_finite bits Hb Hm) as (n & HF). cbv zeta in HF.
  destruct HF as (HC & HS & _ & HL & Hn & He & HV & Hsub & Hnor).
  unfold frexp10_17. rewrite HC, HS, HL. cbn [negb].
  assert (HB : Z.land bits (2 ^ 63 - 1) = magnitude bits) by (rewrite land_mask by lia; reflexivity). rewrite HB.
  set (f := split_double bits) in *. set (e := f_exp f) in *. fold (lo_of e) (hi_of e).
  destruct (split_spacing bits n e Hm Hn Hsub Hnor) as (HR & HG & HG2).
  set (g := magnitude bits) in *.
  destruct (search_found e g He HR) as (i & -> & Hi & Hi1 & Hi2 & Hsh). cbn [obind].
  replace (i + 1 - 1) with i by lia. rewrite entry_nth by exact Hi.
  pose proof (put_entry_spec i Hi) as (Hmm & He2 & _ & HA & Hst & _ & _). cbv zeta in *.
  pose proof (value_range i g Hi Hm Hi1 Hi2) as HVR.
  replace ((e + exp2_at i - 1075 <? 1) || (63 <? e + exp2_at i - 1075)) with false by (clear - Hsh; lia).
  destruct HV as (s & s' & Hs & Hs' & HE & HV).
  destruct (pow_cancel_facts n e (exp2_at i) s s' (dbl g) (pe i) (ne i) Hs Hs' ltac:(lia) HV He2 ltac:(lia)) as [F1 F2].
  set (sh := e + exp2_at i - 1075) in *. set (mm := mant_at i) in *.
  assert (HBp : 0 < ne i * 2 ^ (exp2_at i + 1200)) by (apply Z.mul_pos_pos; [apply ne_pos|apply pow2_pos; lia]).
  assert (HU : 0 < 2 ^ 2000) by (apply pow2_pos; lia). assert (HFp : 0 < 2 ^ (exp2_at i + 2190)) by (apply pow2_pos; lia).
  set (F := 2 ^ (exp2_at i + 2190)) in *. set (B := ne i * 2 ^ (exp2_at i + 1200)) in *.
  set (A := pe i * 2 ^ 1264) in *. set (U := 2 ^ 2000) in *. set (S := 2 ^ 1074) in *. clearbody F B A U.
  assert (HV2 : 10 ^ 17 * 2 ^ 64 * B <= n * 2 ^ sh * A < 10 ^ 18 * 2 ^ 64 * B).
  { destruct HVR as [V1 V2]. apply (Z.mul_le_mono_nonneg_r _ _ F) in V1; [|lia]. apply (Z.mul_lt_mono_pos_r F) in V2; [|exact HFp].
    rewrite <- F1 in *. rewrite <- (Z.mul_assoc (10 ^ 17)), <- F2 in V1. rewrite <- (Z.mul_assoc (10 ^ 18)), <- F2 in V2.
    split.
    - apply (Z.mul_le_mono_pos_r _ _ U); [exact HU|]. rewrite !Z.mul_assoc in *. exact V1.
    - apply (Z.mul_lt_mono_pos_r U); [exact HU|]. rewrite !Z.mul_assoc in *. exact V2. }
  destruct (write_core n sh mm A B Hn Hsh Hmm HBp HA Hst HV2) as (G1 & G2 & G3 & G4 & G5 & G6 & G7 & G8).
  destruct (pow_range sh Hsh) as [E2 Hh].
  rewrite Z.shiftl_mul_pow2 by lia. 
  rewrite (u64_small (n * 2 ^ sh)) by (clear - G5 G6 Hh; lia).
  set (X := n * 2 ^ sh) in *. set (h := 2 ^ (sh - 1)) in *.
  assert (HX : X = 2 * n * h) by (unfold X; rewrite E2; ring). clearbody X h.
  rewrite (u64_small (X - h)), (u64_small (X + h)) by (clear - G5 G6 Hh; lia). unfold mulh128.
  set (mn := (X - h) * mm / 2 ^ 64 + 1) in *. set (mx := (X + h) * (mm - 1) / 2 ^ 64) in *. clearbody mn mx.
  rewrite (u64_small mn), (u64_small (mx - mn)) by (clear - G1 G2 G3; lia).
  rewrite (u64_small (mn + (mx - mn) / 2)).
  2:{ pose proof (Z.div_pos (mx - mn) 2 ltac:(clear - G1; lia) ltac:(lia)).
      pose proof (Z.div_le_upper_bound (mx - mn) 2 (mx - mn) ltac:(lia) ltac:(clear - G1; lia)). clear - H H0 G1 G2 G3. lia. }
  exists i, mn, mx. split; [reflexivity|]. split; [reflexivity|]. split; [exact Hi|]. split; [exact G1|].
  split; [exact G2|]. split; [exact G3|]. split; [exact G4|]. split; [exact (proj1 HVR)|].
  assert (F3 : forall r, r * 2 ^ 64 * B * U = r * ne i * S * F).
  { intros r. transitivity (r * (2 ^ 64 * B * U)); [ring|]. rewrite F2. ring. }
  split.
  - intros r Hr. specialize (G7 r Hr).
    pose proof (scale_back n r X h (2 ^ 64) A B U (dbl g * pe i) (r * ne i * S) F ltac:(clear - Hn; lia) HU HFp HX F1 (F3 r) G7) as K.
    unfold within_half. replace (- (i - 341)) with (341 - i) by lia. fold (pe i) (ne i).
    apply (Z.mul_lt_mono_pos_r n); [clear - Hn; lia|]. eapply Z.lt_le_trans; [exact K|].
    replace ((dbl (g + 1) - dbl g) * pe i * n) with (n * (dbl (g + 1) - dbl g) * pe i) by ring.
    apply Z.mul_le_mono_nonneg_r; [pose proof (pe_pos i); lia|exact HG].
  - intros G Hg HN. apply G8.
    apply (scale_forth n G X h (2 ^ 64) A B U (dbl g * pe i) (G * ne i * S) F ((dbl (g + 1) - dbl g) * pe i));
      [clear - Hn; lia|exact HU|exact HFp|exact HX|exact F1|exact (F3 G)| |exact HN].
    rewrite (HG2 Hg) at 1. ring.
Qed.
Lemma centre_in mn mx : mn <= mx -> mn <= mn + (mx - mn) / 2 <= mx /\
  mn + mx - 1 <= 2 * (mn + (mx - mn) / 2) <= mn + mx.
Proof.
  intros H. pose proof (Z.div_mod (mx - mn) 2 ltac:(lia)). pose proof (Z.mod_pos_bound (mx - mn) 2 ltac:(lia)). lia.
Qed.
Lemma digits_range mn mx c : 0 < mn <= mx -> mx - mn < 450 -> mn <= 10 ^ 18 -> 10 ^ 17 <= mx -> mn <= c <= mx ->
  mn <= shorten tries mn (mx - mn) c <= mx /\ 10 ^ 17 <= shorten tries mn (mx - mn) c <= 10 ^ 18.
Proof.
  intros H1 H2 H3 H4 Hc.
  pose proof (shorten_in mn (mx - mn) ltac:(lia) ltac:(lia) ltac:(lia) tries c ltac:(lia)) as HI.
  pose proof (shorten_round mn (mx - mn) c (10 ^ 17) ltac:(cbn; auto) ltac:(lia) ltac:(lia) ltac:(lia)) as S17.
  pose proof (shorten_round mn (mx - mn) c (10 ^ 18) ltac:(cbn; auto) ltac:(lia) ltac:(lia) ltac:(lia)) as S18.
  fold tries in S17, S18. set (r := shorten tries mn (mx - mn) c) in *. clearbody r.
  split; [lia|]. split.
  - destruct (Z_lt_ge_dec r (10 ^ 17)) as [C|C]; [rewrite S17 in C; lia|lia].
  - destruct (Z_lt_ge_dec (10 ^ 18) r) as [C|C]; [rewrite S18 in C; lia|lia].
Qed.
Lemma frexp10_ok bits : 0 <= bits < 2 ^ 64 -> 0 < magnitude bits < infinity ->
  exists r E, frexp10_17 bits = Ok (Frexp (f_cls (split_double bits)) (minus_bit bits) E r) /\
    finite_nonzero (split_double bits) = true /\ 10 ^ 17 <= r < 10 ^ 18 /\ -341 <= E <= 292 /\
    within_half r E (magnitude bits).
Proof.
  intros Hb Hm. destruct (frexp10_raw bits Hb Hm) as (i & mn & mx & E & HC & Hi & G1 & G2 & G3 & G4 & _ & G7 & _).
  rewrite E, HC. clear E HC. destruct (centre_in mn mx ltac:(lia)) as [Hc _].
  destruct (digits_range mn mx _ G1 G2 G3 G4 Hc) as [R1 R2]. cbv zeta.
  set (r := shorten tries mn (mx - mn) (mn + (mx - mn) / 2)) in *. clearbody r. specialize (G7 r R1).
  destruct (10 ^ 18 <=? r) eqn:EC.
  - assert (r = 10 ^ 18) by lia. subst r. exists (10 ^ 17), (i + 1 - 341).
    split; [reflexivity|]. split; [reflexivity|]. split; [lia|]. split; [lia|].
    eapply within_same; [|exact G7]. exists 1, 0. repeat split; lia.
  - exists r, (i - 341). split; [reflexivity|]. split; [reflexivity|]. split; [lia|]. split; [lia|]. exact G7.
Qed.
