From Verif Require Import Base Monad SortModel SortSpec ValueModel ValueSpec ValueProofs RoundModel RoundSpec.
Open Scope Z_scope.

(* ---- a finite real is x / 2^k ---- *)
Definition scaled (r : real) (x k : Z) : Prop :=
  match r with
  | RFin s m e => if 0 <=? e then x = signed s (m * 2 ^ e) /\ k = 0 else x = signed s m /\ k = - e
  | _ => False
  end.
Lemma signed_mul s m p : signed s (m * p) = signed s m * p.
Proof. destruct s; cbn; lia. Qed.
Lemma scaled_num r x k q : scaled r x k -> finite r q -> 0 <= k /\ (q == inject_Z x * pow2 (- k))%Q.
Proof.
  destruct r as [|s|s m e]; cbn; try contradiction. unfold finite. cbn. intros H E.
  assert (Q1 : q = (inject_Z (signed s m) * pow2 e)%Q) by congruence. rewrite Q1. clear E Q1.
  destruct (Z.leb_spec 0 e); destruct H as [-> ->]; (split; [lia|]).
  - rewrite signed_mul, inject_Z_mult, <- pow2_Z by lia. change (pow2 (- 0)) with 1%Q. now rewrite Qmult_1_r.
  - now rewrite Z.opp_involutive.
Qed.
Lemma cmp_Z x k y : 0 <= k -> Qcompare (inject_Z x * pow2 (- k)) (inject_Z y) = (x ?= y * 2 ^ k).
Proof.
  intros K. rewrite <- (fin_cmp_exact x (- k) y). rewrite (fin_cmp_scale x (- k) y 0 (- k)) by lia.
  replace (- k - - k) with 0 by lia. replace (0 - - k) with k by lia. now rewrite Z.pow_0_r, Z.mul_1_r.
Qed.
Lemma q_le r x k q y : scaled r x k -> finite r q -> (q <= inject_Z y)%Q <-> x <= y * 2 ^ k.
Proof.
  intros S F. destruct (scaled_num _ _ _ _ S F) as [K E]. rewrite E, Qle_alt, cmp_Z by exact K. now rewrite Z.compare_le_iff.
Qed.
Lemma q_lt r x k q y : scaled r x k -> finite r q -> (q < inject_Z y)%Q <-> x < y * 2 ^ k.
Proof.
  intros S F. destruct (scaled_num _ _ _ _ S F) as [K E]. rewrite E, Qlt_alt, cmp_Z by exact K. now rewrite Z.compare_lt_iff.
Qed.
Lemma q_ge r x k q y : scaled r x k -> finite r q -> (inject_Z y <= q)%Q <-> y * 2 ^ k <= x.
Proof.
  intros S F. split; intros H.
  - destruct (Z.le_gt_cases (y * 2 ^ k) x) as [L|L]; [exact L|]. apply (proj2 (q_lt _ _ _ _ _ S F)) in L.
    exfalso. exact (Qlt_not_le _ _ L H).
  - apply Qnot_lt_le. intros L. apply (proj1 (q_lt _ _ _ _ _ S F)) in L. lia.
Qed.
Lemma q_gt r x k q y : scaled r x k -> finite r q -> (inject_Z y < q)%Q <-> y * 2 ^ k < x.
Proof.
  intros S F. split; intros H.
  - destruct (Z.lt_ge_cases (y * 2 ^ k) x) as [L|L]; [exact L|]. apply (proj2 (q_le _ _ _ _ _ S F)) in L.
    exfalso. exact (Qlt_not_le _ _ H L).
  - apply Qnot_le_lt. intros L. apply (proj1 (q_le _ _ _ _ _ S F)) in L. lia.
Qed.
(* twice the number *)
Lemma q2 r x k q : scaled r x k -> finite r q ->
  forall y, ((inject_Z 2 * q < inject_Z y)%Q <-> 2 * x < y * 2 ^ k) /\ ((inject_Z 2 * q <= inject_Z y)%Q <-> 2 * x <= y * 2 ^ k) /\
            ((inject_Z y < inject_Z 2 * q)%Q <-> y * 2 ^ k < 2 * x) /\ ((inject_Z y <= inject_Z 2 * q)%Q <-> y * 2 ^ k <= 2 * x).
Proof.
  intros S F y. destruct (scaled_num _ _ _ _ S F) as [K E].
  assert (E2 : (inject_Z 2 * q == inject_Z (2 * x) * pow2 (- k))%Q).
  { rewrite E, inject_Z_mult. now rewrite Qmult_assoc. }
  pose proof (cmp_Z (2 * x) k y K) as C.
  assert (A : (inject_Z 2 * q < inject_Z y)%Q <-> 2 * x < y * 2 ^ k) by (rewrite E2, Qlt_alt, C; now rewrite Z.compare_lt_iff).
  assert (B : (inject_Z 2 * q <= inject_Z y)%Q <-> 2 * x <= y * 2 ^ k) by (rewrite E2, Qle_alt, C; now rewrite Z.compare_le_iff).
  split; [exact A|]. split; [exact B|]. split; split; intros H.
  - destruct (Z.lt_ge_cases (y * 2 ^ k) (2 * x)) as [L|L]; [exact L|]. apply B in L. exfalso. exact (Qlt_not_le _ _ H L).
  - apply Qnot_le_lt. intros L. apply B in L. lia.
  - destruct (Z.le_gt_cases (y * 2 ^ k) (2 * x)) as [L|L]; [exact L|]. apply A in L. exfalso. exact (Qlt_not_le _ _ L H).
  - apply Qnot_lt_le. intros L. apply A in L. lia.
Qed.

(* ---- rounding x / 2^k in integers ---- *)
Definition zrounds (d : mode) (x p n : Z) : Prop :=
  match d with
  | Down => n * p <= x < (n + 1) * p
  | Up => (n - 1) * p < x <= n * p
  | Toward_zero => (0 <= x -> n * p <= x < (n + 1) * p) /\ (x <= 0 -> (n - 1) * p < x <= n * p)
  | Nearest => (0 <= x -> (2 * n - 1) * p <= 2 * x < (2 * n + 1) * p) /\ (x <= 0 -> (2 * n - 1) * p < 2 * x <= (2 * n + 1) * p)
  end.
Lemma rounds_Z d r x k q n : scaled r x k -> finite r q -> rounds d q n <-> zrounds d x (2 ^ k) n.
Proof.
  intros S F. pose proof (q2 _ _ _ _ S F) as T.
  assert (G0 : (0 <= q)%Q <-> 0 <= x) by (pose proof (q_ge _ _ _ _ 0 S F) as H; rewrite Z.mul_0_l in H; exact H).
  assert (L0 : (q <= 0)%Q <-> x <= 0) by (pose proof (q_le _ _ _ _ 0 S F) as H; rewrite Z.mul_0_l in H; exact H).
  destruct d; cbn [rounds zrounds].
  - destruct (T (2 * n - 1)) as (_ & _ & -> & ->). destruct (T (2 * n + 1)) as (-> & -> & _ & _). now rewrite G0, L0.
  - now rewrite (q_ge _ _ _ _ n S F), (q_lt _ _ _ _ (n + 1) S F).
  - now rewrite (q_gt _ _ _ _ (n - 1) S F), (q_le _ _ _ _ n S F).
  - now rewrite (q_ge _ _ _ _ n S F), (q_lt _ _ _ _ (n + 1) S F), (q_gt _ _ _ _ (n - 1) S F), (q_le _ _ _ _ n S F), G0, L0.
Qed.
Lemma zrounds_unique d x p n n' : 0 < p -> zrounds d x p n -> zrounds d x p n' -> n = n'.
Proof.
  intros P. assert (M : forall a b, a * p < (b + 1) * p -> a <= b) by (intros a b H; apply Z.mul_lt_mono_pos_r in H; lia).
  assert (D : forall y n n', n * p <= y < (n + 1) * p -> n' * p <= y < (n' + 1) * p -> n = n').
  { intros y a b [A1 A2] [B1 B2]. assert (a <= b) by (apply M; lia). assert (b <= a) by (apply M; lia). lia. }
  assert (U : forall y n n', (n - 1) * p < y <= n * p -> (n' - 1) * p < y <= n' * p -> n = n').
  { intros y a b [A1 A2] [B1 B2]. assert (a - 1 <= b - 1) by (apply M; replace (b - 1 + 1) with b by lia; lia).
    assert (b - 1 <= a - 1) by (apply M; replace (a - 1 + 1) with a by lia; lia). lia. }
  destruct d; cbn [zrounds].
  - intros [A1 A2] [B1 B2]. destruct (Z.le_ge_cases 0 x) as [H|H].
    + specialize (A1 H). specialize (B1 H). apply (D ((2 * x + p)) (2 * n) (2 * n')) || idtac.
      assert (2 * n - 1 <= 2 * n') by (apply M; lia). assert (2 * n' - 1 <= 2 * n) by (apply M; lia). lia.
    + specialize (A2 H). specialize (B2 H).
      assert (2 * n - 1 <= 2 * n') by (apply M; lia). assert (2 * n' - 1 <= 2 * n) by (apply M; lia). lia.
  - apply D.
  - apply U.
  - intros [A1 A2] [B1 B2]. destruct (Z.le_ge_cases 0 x) as [H|H]; [exact (D _ _ _ (A1 H) (B1 H))|exact (U _ _ _ (A2 H) (B2 H))].
Qed.

Lemma scaled_exists r q : finite r q -> exists x k, scaled r x k /\ 0 <= k.
Proof.
  destruct r as [|s|s m e]; unfold finite; cbn; try discriminate. intros _.
  destruct (Z.leb_spec 0 e); eexists; eexists; (split; [split; reflexivity|lia]).
Qed.
Lemma rounds_unique d r q n n' : finite r q -> rounds d q n -> rounds d q n' -> n = n'.
Proof.
  intros F A B. destruct (scaled_exists _ _ F) as (x & k & S & K).
  apply (rounds_Z d _ _ _ _ n S F) in A. apply (rounds_Z d _ _ _ _ n' S F) in B.
  refine (zrounds_unique d x (2 ^ k) n n' _ A B). apply Z.pow_pos_nonneg; lia.
Qed.

(* ---- the functions ---- *)
Lemma f_of_fin d s m e : is_double (RFin s m e) -> exists m' e' n x k,
  f_of d (RFin s m e) = RFin s m' e' /\ is_double (RFin s m' e') /\ 0 <= e' /\ n = signed s (m' * 2 ^ e') /\
  scaled (RFin s m e) x k /\ zrounds d x (2 ^ k) n.
Proof.
  intros [M E]. destruct (Z.leb_spec 0 e) as [L|L].
  - exists m, e, (signed s (m * 2 ^ e)), (signed s (m * 2 ^ e)), 0.
    assert (L' : (0 <=? e) = true) by (apply Z.leb_le; exact L).
    repeat split; try lia.
    + destruct d; cbn [f_of f_round f_floor f_ceil f_trunc]; now rewrite L'.
    + cbn [scaled]. rewrite L'. split; reflexivity.
    + rewrite Z.pow_0_r. destruct d; cbn [zrounds]; lia.
  - assert (L' : (0 <=? e) = false) by (apply Z.leb_gt; exact L).
    set (p := 2 ^ (- e)). assert (P : 2 <= p) by (unfold p; change 2 with (2 ^ 1) at 1; apply Z.pow_le_mono_r; lia).
    pose proof (Z.div_mod m p ltac:(lia)) as DM. pose proof (Z.mod_pos_bound m p ltac:(lia)) as R.
    set (a := m / p) in *. set (b := m mod p) in *.
    assert (A : 0 <= a) by (unfold a; apply Z.div_pos; lia).
    assert (A1 : a + 1 < 2 ^ 53).
    { assert (a <= m / 2) by (unfold a; apply Z.div_le_compat_l; lia).
      assert (m / 2 < 2 ^ 52) by (apply Z.div_lt_upper_bound; lia). lia. }
    assert (H : forall m', f_of d (RFin s m e) = RFin s m' 0 -> (m' = a \/ m' = a + 1) -> zrounds d (signed s m) p (signed s m') ->
      exists m' e' n x k,
      f_of d (RFin s m e) = RFin s m' e' /\ is_double (RFin s m' e') /\ 0 <= e' /\ n = signed s (m' * 2 ^ e') /\
      scaled (RFin s m e) x k /\ zrounds d x (2 ^ k) n).
    { intros m' H1 H2 H3. exists m', 0, (signed s m'), (signed s m), (- e).
      split; [exact H1|]. split; [cbn [is_double]; lia|]. split; [lia|]. split; [now rewrite Z.pow_0_r, Z.mul_1_r|].
      split; [cbn [scaled]; rewrite L'; split; reflexivity|exact H3]. }
    assert (K : exists m', f_of d (RFin s m e) = RFin s m' 0 /\ (m' = a \/ m' = a + 1) /\ zrounds d (signed s m) p (signed s m')).
    { destruct d; cbn [f_of f_round f_floor f_ceil f_trunc]; rewrite L'; fold p; fold a; fold b.
      - destruct (Z.leb_spec p (2 * b)).
        + exists (a + 1). split; [reflexivity|]. split; [now right|]. destruct s; cbn [signed zrounds]; nia.
        + exists a. split; [reflexivity|]. split; [now left|]. destruct s; cbn [signed zrounds]; nia.
      - destruct s; destruct (Z.eqb_spec b 0); cbn [negb andb];
          [exists a|exists (a + 1)|exists a|exists a]; (split; [reflexivity|]); (split; [auto|]); cbn [signed zrounds]; nia.
      - destruct s; destruct (Z.eqb_spec b 0); cbn [negb andb];
          [exists a|exists a|exists a|exists (a + 1)]; (split; [reflexivity|]); (split; [auto|]); cbn [signed zrounds]; nia.
      - exists a. split; [reflexivity|]. split; [now left|]. destruct s; cbn [signed zrounds]; nia. }
    destruct K as (m' & K1 & K2 & K3). exact (H m' K1 K2 K3).
Qed.

Lemma round_ok d r : is_double r -> numeric_round d (VReal r) = Ok (VReal (f_of d r)) /\ is_double (f_of d r) /\
  negative (f_of d r) = negative r /\
  (forall q, finite r q -> exists n q', finite (f_of d r) q' /\ (q' == inject_Z n)%Q /\ rounds d q n) /\
  ((forall q, ~ finite r q) -> f_of d r = r).
Proof.
  intros W. split; [reflexivity|]. destruct r as [|s|s m e].
  - assert (E : f_of d RNan = RNan) by (destruct d; reflexivity). rewrite E. repeat split. intros q H. discriminate H.
  - assert (E : f_of d (RInf s) = RInf s) by (destruct d; reflexivity). rewrite E. repeat split. intros q H. discriminate H.
  - destruct (f_of_fin d s m e W) as (m' & e' & n & x & k & E & W' & E0 & N & S & Z). rewrite E.
    split; [exact W'|]. split; [reflexivity|]. split.
    + intros q F. exists n, (inject_Z (signed s m') * pow2 e')%Q. split; [reflexivity|]. split.
      * rewrite N, signed_mul, inject_Z_mult, <- pow2_Z by exact E0. reflexivity.
      * apply (rounds_Z d _ _ _ _ n S F). exact Z.
    + intros H. exfalso. exact (H _ eq_refl).
Qed.

Lemma iround_ok d r : is_double r ->
  (forall q n, finite r q -> rounds d q n -> numeric_iround d (VReal r) = if is_int64b n then Ok (VInt n) else Throw) /\
  ((forall q, ~ finite r q) -> numeric_iround d (VReal r) = Throw).
Proof.
  intros W. destruct r as [|s|s m e].
  - split; [intros q n H; discriminate H|]. intros _. destruct d; reflexivity.
  - split; [intros q n H; discriminate H|]. intros _. destruct d; reflexivity.
  - split; [|intros H; exfalso; exact (H _ eq_refl)]. intros q n F R.
    destruct (f_of_fin d s m e W) as (m' & e' & n' & x & k & E & W' & E0 & N & S & Z).
    assert (n = n') as -> by (refine (rounds_unique d _ _ _ _ F R _); now apply (rounds_Z d _ _ _ _ n' S F)).
    cbn [numeric_iround]. rewrite E. cbn [safe_double_to_int64]. apply Z.leb_le in E0. rewrite E0, <- N.
    destruct (is_int64b n'); reflexivity.
Qed.
Lemma rounds_exists d r q : is_double r -> finite r q -> exists n, rounds d q n.
Proof. intros W F. destruct (round_ok d r W) as (_ & _ & _ & H & _). destruct (H q F) as (n & _ & _ & _ & R). now exists n. Qed.
Lemma f_of_twice d r : f_of d (f_of d r) = f_of d r.
Proof.
  assert (T : forall s m, f_of d (RFin s m 0) = RFin s m 0) by (intros s m; destruct d; reflexivity).
  assert (H : f_of d r = r \/ exists s m, f_of d r = RFin s m 0).
  { destruct r as [|s|s m e]; destruct d; try (left; reflexivity); cbn [f_of]; unfold f_round, f_floor, f_ceil, f_trunc;
      (destruct (0 <=? e); [left; reflexivity|right]);
      try match goal with |- context [if ?b then RFin _ _ _ else _] => destruct b end; eexists; eexists; reflexivity. }
  destruct H as [H|(s & m & H)]; rewrite H; [exact H|apply T].
Qed.

(* ---- absolute values ---- *)
Lemma abs_int n : is_int64 n -> numeric_abs (VInt n) = if is_int64b (- n) then Ok (VInt (Z.abs n)) else Throw.
Proof.
  intros H. cbn [numeric_abs]. destruct (Z.eqb_spec n (- 2 ^ 63)) as [->|N]; [reflexivity|].
  replace (is_int64b (- n)) with true; [reflexivity|]. symmetry. apply is_int64b_spec.
  unfold is_int64 in *. destruct H. unfold int64_min, int64_max in *. lia.
Qed.

Lemma abs_real r : numeric_abs (VReal r) = Ok (VReal match r with RNan => RNan | RInf _ => RInf false | RFin _ m e => RFin false m e end).
Proof. reflexivity. Qed.
Lemma abs_real_ok r : exists r', numeric_abs (VReal r) = Ok (VReal r') /\
  (is_double r -> is_double r') /\ negative r' <> Some true /\
  (forall q, is_double r -> finite r q -> exists q', finite r' q' /\ (q' == (if Qlt_le_dec q 0 then - q else q))%Q) /\
  (r = RNan <-> r' = RNan) /\ ((exists s, r = RInf s) <-> exists s, r' = RInf s).
Proof.
  eexists. split; [apply abs_real|]. destruct r as [|s|s m e].
  - repeat split; try discriminate; intros [s H]; discriminate H.
  - repeat split; try discriminate; eexists; reflexivity.
  - split; [exact (fun H => H)|]. split; [discriminate|]. split.
    + intros q [M _] F. eexists. split; [reflexivity|].
      assert (Q1 : q = (inject_Z (signed s m) * pow2 e)%Q) by (unfold finite in F; cbn in F; congruence).
      pose proof (pow2_pos e) as P.
      assert (G : (0 <= inject_Z m * pow2 e)%Q).
      { apply Qmult_le_0_compat; [change 0%Q with (inject_Z 0); rewrite <- Zle_Qle; lia|apply Qlt_le_weak, P]. }
      rewrite Q1. cbn [signed]. destruct s; cbn [signed].
      * assert (N : (inject_Z (- m) * pow2 e == - (inject_Z m * pow2 e))%Q) by (rewrite inject_Z_opp; ring).
        destruct (Qlt_le_dec _ 0) as [L|L].
        -- rewrite N. ring.
        -- rewrite N in L |- *. set (w := (inject_Z m * pow2 e)%Q) in *.
           assert (W0 : (w <= 0)%Q) by (apply Qopp_le_compat in L; rewrite Qopp_involutive in L; exact L).
           assert (W1 : (w == 0)%Q) by (apply Qle_antisym; assumption). rewrite W1. reflexivity.
      * destruct (Qlt_le_dec _ 0) as [L|L]; [|reflexivity]. exfalso. exact (Qlt_not_le _ _ L G).
    + split; (split; [intros H|intros H]); try discriminate H; destruct H as [t H]; discriminate H.
Qed.
