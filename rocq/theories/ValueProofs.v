From Verif Require Import Base Monad SortModel SortSpec ValueModel ValueSpec.
Open Scope Z_scope.

(* ---- finite numbers ---- *)
Lemma fin_cmp_scale x ex y ey g : g <= ex -> g <= ey ->
  fin_cmp x ex y ey = (x * 2 ^ (ex - g) ?= y * 2 ^ (ey - g)).
Proof.
  intros H1 H2. unfold fin_cmp. set (e := Z.min ex ey).
  replace (ex - g) with ((ex - e) + (e - g)) by lia. replace (ey - g) with ((ey - e) + (e - g)) by lia.
  rewrite !Z.pow_add_r, !Z.mul_assoc by lia.
  assert (P : 0 < 2 ^ (e - g)) by (apply Z.pow_pos_nonneg; lia).
  set (p := 2 ^ (e - g)) in *. apply Zmult_compare_compat_r. lia.
Qed.
Lemma pow2_pos e : (0 < pow2 e)%Q.
Proof.
  assert (P : forall k, (0 < Qpower_positive (2 # 1) k)%Q).
  { intros k. assert (H : (Qpower_positive (2 # 1) k == inject_Z (2 ^ Zpos k))%Q).
    { rewrite Zpower_Qpower by lia. reflexivity. }
    rewrite H. rewrite <- (Qmult_1_r 0). change (0 * 1)%Q with (inject_Z 0). rewrite <- Zlt_Qlt. apply Z.pow_pos_nonneg; lia. }
  unfold pow2. destruct e; cbn; [reflexivity|apply P|apply Qinv_lt_0_compat, P].
Qed.
Lemma pow2_add a b : (pow2 (a + b) == pow2 a * pow2 b)%Q.
Proof. unfold pow2. apply Qpower_plus. intros H. discriminate. Qed.
Lemma pow2_Z e : 0 <= e -> (pow2 e == inject_Z (2 ^ e))%Q.
Proof. intros H. unfold pow2. rewrite Zpower_Qpower by lia. reflexivity. Qed.
Lemma Qcompare_scale p q r : (0 < r)%Q -> Qcompare (p * r) (q * r) = Qcompare p q.
Proof.
  intros H. destruct (Qcompare_spec p q) as [E|L|G].
  - apply Qeq_alt. rewrite E. reflexivity.
  - apply Qlt_alt. apply Qmult_lt_r; auto.
  - apply Qgt_alt. apply Qmult_lt_r; auto.
Qed.
Lemma Qcompare_Z x y : Qcompare (inject_Z x) (inject_Z y) = (x ?= y).
Proof. unfold Qcompare, inject_Z. cbn. rewrite !Z.mul_1_r. reflexivity. Qed.
Lemma fin_cmp_Q x ex y ey : fin_cmp x ex y ey = Qcompare (inject_Z x * pow2 ex) (inject_Z y * pow2 ey).
Proof.
  unfold fin_cmp. set (e := Z.min ex ey).
  assert (E : forall z f, e <= f -> (inject_Z z * pow2 f == inject_Z (z * 2 ^ (f - e)) * pow2 e)%Q).
  { intros z f Hf. rewrite inject_Z_mult, <- pow2_Z by lia. rewrite <- Qmult_assoc, <- pow2_add.
    replace (f - e + e) with f by lia. reflexivity. }
  rewrite (E x ex), (E y ey) by (unfold e; lia).
  rewrite Qcompare_scale by apply pow2_pos. symmetry. apply Qcompare_Z.
Qed.
Lemma real_cmp_num a b x y : num_of (VReal a) = Some x -> num_of (VReal b) = Some y -> real_cmp a b = num_cmp x y.
Proof.
  destruct a as [|[]|s m e], b as [|[]|t n f]; cbn; intros Ha Hb; injection Ha as <-; injection Hb as <-; cbn; try reflexivity.
  rewrite fin_cmp_Q. reflexivity.
Qed.

(* ---- conversion rounding down ---- *)
Lemma fin_cmp_exact x ex y : fin_cmp x ex y 0 = Qcompare (inject_Z x * pow2 ex) (inject_Z y).
Proof.
  rewrite fin_cmp_Q. apply Qcompare_comp; [reflexivity|]. unfold pow2. cbn. ring.
Qed.

Record down_spec (n : Z) (s : bool) (m e d : Z) : Prop := {
  ds_double : is_double (RFin s m e);
  ds_e : 0 <= e;
  ds_val : signed s m * 2 ^ e = d;
  ds_le : d <= n;
  ds_max : forall x ex, - 2 ^ 53 < x < 2 ^ 53 -> fin_cmp x ex d 0 = Gt -> fin_cmp x ex n 0 = Gt;
  ds_range : is_int64 n -> is_int64 d }.

Lemma down_ok n : Z.abs n <= 2 ^ 63 -> exists s m e d, int_to_real_down n = RFin s m e /\ down_spec n s m e d.
Proof.
  intros Hn. unfold int_to_real_down.
  destruct (Z.ltb_spec (Z.abs n) (2 ^ 53)) as [S|B].
  - exists (n <? 0), (Z.abs n), 0, n. split; [reflexivity|]. constructor; auto; try (cbn; lia).
    unfold signed. change (2 ^ 0) with 1. destruct (Z.ltb_spec n 0); lia.
  - cbv zeta. set (k := Z.log2 (Z.abs n) - 52).
    assert (L : 2 ^ (k + 52) <= Z.abs n < 2 ^ (k + 53)).
    { pose proof (Z.log2_spec (Z.abs n) ltac:(lia)) as L. replace (k + 52) with (Z.log2 (Z.abs n)) by (unfold k; lia).
      replace (k + 53) with (Z.succ (Z.log2 (Z.abs n))) by (unfold k; lia). exact L. }
    assert (K1 : 53 <= Z.log2 (Z.abs n)) by (apply Z.log2_le_pow2; lia).
    assert (K2 : Z.log2 (Z.abs n) <= 63) by (change 63 with (Z.log2 (2 ^ 63)); apply Z.log2_le_mono; lia).
    assert (Hk : 1 <= k <= 11) by (unfold k; lia). clearbody k. clear K1 K2.
    set (p := 2 ^ k) in *. assert (Hp : 2 <= p).
    { unfold p. replace k with (1 + (k - 1)) by lia. rewrite Z.pow_add_r by lia.
      assert (0 < 2 ^ (k - 1)) by (apply Z.pow_pos_nonneg; lia). lia. }
    rewrite !Z.pow_add_r in L by lia. fold p in L.
    set (q := n / p).
    assert (Q : p * q <= n < p * q + p).
    { unfold q. pose proof (Z.div_mod n p ltac:(lia)). pose proof (Z.mod_pos_bound n p ltac:(lia)). lia. }
    assert (PQ : 0 <= n -> 2 ^ 52 <= q).
    { intros N. assert (2 ^ 52 < q + 1) by (apply (Z.mul_lt_mono_pos_l p); lia). lia. }
    assert (MAX : forall x ex, - 2 ^ 53 < x < 2 ^ 53 -> fin_cmp x ex (p * q) 0 = Gt -> fin_cmp x ex n 0 = Gt).
    { intros x ex Hx.
      destruct (Z.ltb_spec ex 0).
      - rewrite !(fin_cmp_scale _ _ _ _ ex) by lia. rewrite Z.sub_diag, Z.pow_0_r, Z.mul_1_r.
        assert (PG : 0 < 2 ^ (0 - ex)) by (apply Z.pow_pos_nonneg; lia). set (G := 2 ^ (0 - ex)) in *. clearbody G.
        rewrite !Z.compare_gt_iff. intros HD. destruct (Z.ltb_spec n 0).
        + assert (n * G <= n * 1) by (apply Z.mul_le_mono_nonpos_l; lia). lia.
        + exfalso. specialize (PQ ltac:(assumption)).
          assert (p * q * 1 <= p * q * G) by (apply Z.mul_le_mono_nonneg_l; [apply Z.mul_nonneg_nonneg|]; lia).
          
          assert (2 * 2 ^ 52 <= p * q) by (apply Z.mul_le_mono_nonneg; lia). lia.
      - rewrite !(fin_cmp_scale _ _ _ _ 0) by lia. rewrite !Z.sub_0_r, Z.pow_0_r, !Z.mul_1_r.
        rewrite !Z.compare_gt_iff. intros HD.
        destruct (Z.leb_spec k ex).
        + replace ex with (k + (ex - k)) in * by lia. rewrite Z.pow_add_r in * by lia. fold p in HD |- *.
          set (r := 2 ^ (ex - k)) in *. clearbody r. replace (x * (p * r)) with (p * (x * r)) in * by ring.
          set (y := x * r) in *. clearbody y. assert (q < y) by (apply (Z.mul_lt_mono_pos_l p); lia).
          assert (p * (q + 1) <= p * y) by (apply Z.mul_le_mono_nonneg_l; lia). lia.
        + (* 2^ex <= p/2 *)
          assert (P2 : 2 * 2 ^ ex <= p).
          { unfold p. replace k with (1 + (k - 1)) by lia. rewrite Z.pow_add_r by lia.
            assert (2 ^ ex <= 2 ^ (k - 1)) by (apply Z.pow_le_mono_r; lia). lia. }
          assert (0 < 2 ^ ex) by (apply Z.pow_pos_nonneg; lia). set (r := 2 ^ ex) in *. clearbody r.
          destruct (Z.ltb_spec n 0).
          * assert ((- 2 ^ 53) * r < x * r) by (apply Z.mul_lt_mono_pos_r; lia). lia.
          * exfalso. specialize (PQ ltac:(assumption)).
            assert (p * 2 ^ 52 <= p * q) by (apply Z.mul_le_mono_nonneg_l; lia).
            assert (x * r < 2 ^ 53 * r) by (apply Z.mul_lt_mono_pos_r; lia). lia. }
    assert (RNG : is_int64 n -> is_int64 (p * q)).
    { unfold is_int64, int64_min, int64_max. intros R. split; [|lia].
      assert (PD : p * 2 ^ (63 - k) = 2 ^ 63) by (unfold p; rewrite <- Z.pow_add_r by lia; f_equal; lia).
      set (h := 2 ^ (63 - k)) in *. clearbody h.
      assert (- h - 1 < q) by (apply (Z.mul_lt_mono_pos_l p); lia).
      assert (p * - h <= p * q) by (apply Z.mul_le_mono_nonneg_l; lia). lia. }
    destruct (Z.ltb_spec (Z.abs q) (2 ^ 53)) as [QS|QB].
    + exists (n <? 0), (Z.abs q), k, (p * q). split; [reflexivity|]. constructor; auto; try lia.
      * cbn. lia.
      * fold p. unfold signed. destruct (Z.ltb_spec n 0).
        -- assert (q < 0) by nia. lia.
        -- assert (0 <= q) by nia. lia.
    + assert (q = - 2 ^ 53).
      { destruct (Z.ltb_spec n 0); nia. }
      exists (n <? 0), (Z.abs q / 2), (k + 1), (p * q). split; [reflexivity|]. constructor; auto; try lia.
      * cbn. replace (Z.abs q) with (2 ^ 53) by lia. change (2 ^ 53 / 2) with (2 ^ 52). lia.
      * replace (Z.abs q) with (2 ^ 53) by lia. change (2 ^ 53 / 2) with (2 ^ 52). rewrite Z.pow_add_r by lia. fold p.
        unfold signed. destruct (Z.ltb_spec n 0); [lia|nia].
Qed.

Lemma of_cmp c : match c with Lt => Less | Eq => Equal | Gt => Greater end = of_comparison c.
Proof. destruct c; reflexivity. Qed.

(* three ways to compare with d <= n instead of n *)
Lemma down_real_to_int n s m e d : is_int64 n -> down_spec n s m e d -> real_to_int (RFin s m e) = Ok d.
Proof.
  intros Hn D. unfold real_to_int. destruct (Z.leb_spec 0 e); [|pose proof (ds_e _ _ _ _ _ D); lia].
  replace (signed s (m * 2 ^ e)) with d.
  - pose proof (ds_range _ _ _ _ _ D Hn) as R. apply is_int64b_spec in R. rewrite R. reflexivity.
  - rewrite <- (ds_val _ _ _ _ _ D). unfold signed. destruct s; lia.
Qed.
Lemma down_cmp n s m e d x ex : down_spec n s m e d -> fin_cmp x ex (signed s m) e = fin_cmp x ex d 0.
Proof.
  intros D. pose proof (ds_e _ _ _ _ _ D) as E. pose proof (ds_val _ _ _ _ _ D) as V.
  rewrite (fin_cmp_scale x ex (signed s m) e (Z.min ex 0)), (fin_cmp_scale x ex d 0 (Z.min ex 0)) by lia.
  f_equal. rewrite <- V. rewrite <- Z.mul_assoc, <- Z.pow_add_r by lia. do 2 f_equal; lia.
Qed.
Lemma fin_cmp_antisym x ex y ey : fin_cmp y ey x ex = CompOpp (fin_cmp x ex y ey).
Proof. unfold fin_cmp. rewrite Z.min_comm, <- Z.compare_antisym. reflexivity. Qed.

Lemma down_exact n s m e d x ex : - 2 ^ 53 < x < 2 ^ 53 -> down_spec n s m e d ->
  match fin_cmp x ex d 0 with
  | Lt => fin_cmp x ex n 0 = Lt
  | Gt => fin_cmp x ex n 0 = Gt
  | Eq => fin_cmp x ex n 0 = (if d =? n then Eq else Lt)
  end.
Proof.
  intros Hx D. destruct (fin_cmp x ex d 0) eqn:C.
  3:{ apply (ds_max _ _ _ _ _ D); auto. }
  all: pose proof (ds_le _ _ _ _ _ D) as L.
  all: rewrite (fin_cmp_scale x ex d 0 (Z.min ex 0)) in C by lia; rewrite (fin_cmp_scale x ex n 0 (Z.min ex 0)) by lia.
  all: assert (P : 0 < 2 ^ (0 - Z.min ex 0)) by (apply Z.pow_pos_nonneg; lia); set (G := 2 ^ (0 - Z.min ex 0)) in *.
  - rewrite Z.compare_eq_iff in C. rewrite C. destruct (Z.eqb_spec d n) as [->|N]; [apply Z.compare_refl|].
    apply Z.compare_lt_iff. nia.
  - rewrite Z.compare_lt_iff in *. nia.
Qed.

Lemma double_bound s m e : is_double (RFin s m e) -> - 2 ^ 53 < signed s m < 2 ^ 53.
Proof. cbn. unfold signed. destruct s; lia. Qed.

Lemma compare_with_int_ok v n : wf_value v -> is_int64 n ->
  compare_with_int v n = Ok (match num_of v with Some x => num_cmp x (NQ (inject_Z n)) | None => Unordered end).
Proof.
  intros W Hn. destruct v; try reflexivity.
  - cbn. rewrite Qcompare_Z. reflexivity.
  - cbn [compare_with_int]. destruct (down_ok n) as (s & m & e & d & E & D); [unfold is_int64, int64_min, int64_max in Hn; lia|].
    rewrite E, (down_real_to_int n s m e d Hn D). cbn [obind].
    destruct r as [|neg|s' m' e']; [reflexivity|destruct neg; reflexivity|].
    cbn [real_cmp]. rewrite (down_cmp n s m e d _ _ D).
    pose proof (down_exact n s m e d (signed s' m') e' (double_bound _ _ _ W) D) as X.
    cbn [num_of num_cmp]. rewrite <- fin_cmp_exact.
    destruct (fin_cmp (signed s' m') e' d 0); rewrite X; try reflexivity.
    destruct (d =? n); reflexivity.
Qed.
Lemma compare_with_real_ok v r y : wf_value v -> is_double r -> num_of (VReal r) = Some y ->
  compare_with_real v r = Ok (match num_of v with Some x => num_cmp x y | None => Unordered end).
Proof.
  intros W Hr Hy. destruct v; try reflexivity.
  - cbn [compare_with_real]. cbn in W. destruct (down_ok n) as (s & m & e & d & E & D); [unfold is_int64, int64_min, int64_max in W; lia|].
    rewrite E, (down_real_to_int n s m e d W D). cbn [obind].
    destruct r as [|neg|s' m' e']; cbn in Hy; injection Hy as <-; [reflexivity|destruct neg; reflexivity|].
    cbn [real_cmp]. rewrite fin_cmp_antisym, (down_cmp n s m e d _ _ D).
    pose proof (down_exact n s m e d (signed s' m') e' (double_bound _ _ _ Hr) D) as X.
    cbn [num_of num_cmp]. rewrite <- Qcompare_antisym, <- fin_cmp_exact.
    destruct (fin_cmp (signed s' m') e' d 0); rewrite X; try reflexivity.
    destruct (d =? n); reflexivity.
  - cbn [compare_with_real]. destruct (num_of (VReal r0)) eqn:Ex; [|destruct r0; discriminate].
    rewrite (real_cmp_num _ _ _ _ Ex Hy). reflexivity.
Qed.

(* ---- the comparison machine ---- *)
Section ValueInd.
Variable P : value -> Prop.
Hypothesis HNull : P VNull.
Hypothesis HBool : forall b, P (VBool b).
Hypothesis HInt : forall n, P (VInt n).
Hypothesis HReal : forall r, P (VReal r).
Hypothesis HStr : forall s, P (VStr s).
Hypothesis HOpaque : forall i, P (VOpaque i).
Hypothesis HFunc : forall i, P (VFunc i).
Hypothesis HArr : forall l, Forall P l -> P (VArr l).
Hypothesis HObj : forall l, Forall (fun kx => P (snd kx)) l -> P (VObj l).
Fixpoint value_ind' (v : value) : P v :=
  match v with
  | VNull => HNull | VBool b => HBool b | VInt n => HInt n | VReal r => HReal r
  | VStr s => HStr s | VOpaque i => HOpaque i | VFunc i => HFunc i
  | VArr l => HArr l ((fix go l : Forall P l :=
      match l with [] => Forall_nil _ | x :: t => Forall_cons x (value_ind' x) (go t) end) l)
  | VObj l => HObj l ((fix go l : Forall (fun kx => P (snd kx)) l :=
      match l with [] => Forall_nil _ | x :: t => Forall_cons x (value_ind' (snd x)) (go t) end) l)
  end.
End ValueInd.

Lemma bytes_cmp_lex a : forall b, bytes_cmp a b = lex (fun p q => of_comparison (p ?= q)) a b.
Proof.
  induction a as [|x a IH]; intros [|y b]; cbn; try reflexivity. destruct (x ?= y); cbn; auto.
Qed.

Definition runs_to (a b : value) : Prop := exists n, forall f stack,
  cmp_at (n + f) a b stack =
    match vcmp a b with Equal => cmp_next (cmp_at f) stack | c => Some (Ok c) end.

Lemma vcmp_left_num a b x : num_of a = None -> num_of b = Some x -> vcmp a b = Unordered.
Proof.
  intros Ha Hb.
  assert (V : vcmp a b = match a, b with
    | VNull, VNull => Equal
    | VBool x, VBool y => bool_cmp x y
    | VStr x, VStr y => lex (fun p q => of_comparison (p ?= q)%Z) x y
    | VArr x, VArr y => lex vcmp x y
    | _, _ => Unordered end).
  { destruct a; cbn [vcmp]; rewrite ?Ha, ?Hb; try reflexivity; cbn in Ha; try discriminate;
     try (destruct r; discriminate). }
  rewrite V. destruct b; cbn in Hb; try discriminate; destruct a; cbn in Ha; try discriminate; reflexivity.
Qed.
Lemma vcmp_num a b x y : num_of a = Some x -> num_of b = Some y -> vcmp a b = num_cmp x y.
Proof. destruct a; intros Ha Hb; cbn [vcmp]; rewrite Ha, Hb; reflexivity. Qed.

Lemma len_cmp_app {A} (p a q b : list A) : length p = length q -> len_cmp (p ++ a) (q ++ b) = len_cmp a b.
Proof.
  intros H. unfold len_cmp. rewrite !app_length, H.
  destruct (Nat.ltb_spec (length q + length a) (length q + length b)), (Nat.ltb_spec (length a) (length b)); try lia; auto.
  destruct (Nat.ltb_spec (length q + length b) (length q + length a)), (Nat.ltb_spec (length b) (length a)); try lia; auto.
Qed.

(* comparing the elements after the current ones *)
Lemma next_runs l : Forall (fun x => forall b, wf_value x -> wf_value b -> runs_to x b) l ->
  forall m, Forall wf_value l -> Forall wf_value m ->
  forall A B px py x y, A = px ++ x :: l -> B = py ++ y :: m -> length px = length py -> exists n, forall f stack,
  cmp_next (cmp_at (n + f)) (((A, x :: l), (B, y :: m)) :: stack) =
    match lex vcmp l m with Equal => cmp_next (cmp_at f) stack | c => Some (Ok c) end.
Proof.
  induction 1 as [|x' l Hx _ IH]; intros m Wl Wm A B px py x y EA EB L.
  - exists 0%nat. intros f stack. cbn [Nat.add cmp_next]. rewrite EA, EB, len_cmp_app by exact L.
    destruct m; reflexivity.
  - destruct m as [|y' m].
    + exists 0%nat. intros f stack. cbn [Nat.add cmp_next]. rewrite EA, EB, len_cmp_app by exact L. reflexivity.
    + inversion_clear Wl as [|? ? W1 W2]. inversion_clear Wm as [|? ? W3 W4].
      destruct (Hx y' W1 W3) as [n1 H1].
      destruct (IH m W2 W4 A B (px ++ [x]) (py ++ [y]) x' y') as [n2 H2].
      { rewrite EA, <- app_assoc. reflexivity. }
      { rewrite EB, <- app_assoc. reflexivity. }
      { rewrite !app_length, L. reflexivity. }
      exists (n1 + n2)%nat. intros f stack. cbn [cmp_next]. rewrite <- Nat.add_assoc, H1. cbn [lex].
      destruct (vcmp x' y'); try reflexivity. apply H2.
Qed.

Lemma wf_arr l : wf_value (VArr l) <-> Forall wf_value l.
Proof.
  induction l as [|x l IH]; cbn; [split; auto|]. split.
  - intros [H1 H2]. constructor; [exact H1|apply IH; exact H2].
  - intros H. inversion_clear H. split; [assumption|apply IH; assumption].
Qed.
Lemma num_of_real r : exists x, num_of (VReal r) = Some x.
Proof. destruct r; eexists; reflexivity. Qed.

Lemma runs_int a n : wf_value a -> is_int64 n -> runs_to a (VInt n).
Proof.
  intros Wa Wn. exists 1%nat. intros f stack.
  assert (E : cmp_at (1 + f) a (VInt n) stack =
    match compare_with_int a n with Ok Equal => cmp_next (cmp_at f) stack | c => Some c end)
    by (destruct a; cbn [cmp_at Nat.add]; destruct (compare_with_int _ _) as [[]| |]; reflexivity).
  rewrite E, compare_with_int_ok by assumption.
  destruct (num_of a) eqn:N.
  - rewrite (vcmp_num a (VInt n) n0 (NQ (inject_Z n))) by (assumption || reflexivity). destruct (num_cmp _ _); reflexivity.
  - rewrite (vcmp_left_num a (VInt n) (NQ (inject_Z n))) by (assumption || reflexivity). reflexivity.
Qed.
Lemma runs_real a r : wf_value a -> is_double r -> runs_to a (VReal r).
Proof.
  intros Wa Wn. exists 1%nat. intros f stack.
  assert (E : cmp_at (1 + f) a (VReal r) stack =
    match compare_with_real a r with Ok Equal => cmp_next (cmp_at f) stack | c => Some c end)
    by (destruct a; cbn [cmp_at Nat.add]; destruct (compare_with_real _ _) as [[]| |]; reflexivity).
  destruct (num_of_real r) as [y Hy].
  rewrite E, (compare_with_real_ok a r y) by assumption.
  destruct (num_of a) eqn:N.
  - rewrite (vcmp_num a (VReal r) n y) by assumption. destruct (num_cmp _ _); reflexivity.
  - rewrite (vcmp_left_num a (VReal r) y) by assumption. reflexivity.
Qed.

Lemma runs a : forall b, wf_value a -> wf_value b -> runs_to a b.
Proof.
  induction a as [|b0|n|r|s|i|i|l IHl|l _] using value_ind'; intros b W1 W2; destruct b as [|b'|n'|r'|s'|i'|i'|l'|l'];
    try (apply runs_int; assumption); try (apply runs_real; assumption);
    try (exists 1%nat; intros f stack; reflexivity);
    try (exists 1%nat; intros f stack; destruct r; reflexivity).
  - exists 1%nat. intros f stack. destruct b0, b'; reflexivity.
  - exists 1%nat. intros f stack. cbn [cmp_at Nat.add vcmp num_of]. rewrite bytes_cmp_lex. destruct (lex _ s s'); reflexivity.
  - apply wf_arr in W1. apply wf_arr in W2.
    destruct l as [|x l], l' as [|y l']; try (exists 1%nat; intros f stack; reflexivity).
    inversion_clear IHl as [|? ? Hx Hl]. inversion_clear W1 as [|? ? Wx Wl]. inversion_clear W2 as [|? ? Wy Wm].
    destruct (Hx y Wx Wy) as [n1 H1].
    destruct (next_runs l Hl l' Wl Wm (x :: l) (y :: l') [] [] x y eq_refl eq_refl eq_refl) as [n2 H2].
    exists (1 + (n1 + n2))%nat. intros f stack.
    change (cmp_at (1 + (n1 + n2) + f) (VArr (x :: l)) (VArr (y :: l')) stack)
      with (cmp_at (n1 + n2 + f) x y (((x :: l, x :: l), (y :: l', y :: l')) :: stack)).
    rewrite <- Nat.add_assoc, H1. cbn [vcmp num_of lex].
    destruct (vcmp x y); try reflexivity. apply H2.
Qed.

(* ---- the result ---- *)
Lemma compare_partial_ok a b : wf_value a -> wf_value b ->
  exists n, forall fuel, (n <= fuel)%nat -> compare_partial fuel a b = Some (Ok (vcmp a b)).
Proof.
  intros W1 W2. destruct (runs a b W1 W2) as [n H]. exists n. intros fuel L.
  unfold compare_partial. replace fuel with (n + (fuel - n))%nat by lia. rewrite H.
  destruct (vcmp a b); reflexivity.
Qed.
Lemma compare_total_ok a b : wf_value a -> wf_value b ->
  exists n, forall fuel, (n <= fuel)%nat ->
    compare_total fuel a b = Some (if cmp_eqb (vcmp a b) Unordered then Throw else Ok (vcmp a b)).
Proof.
  intros W1 W2. destruct (compare_partial_ok a b W1 W2) as [n H]. exists n. intros fuel L.
  unfold compare_total. rewrite H by exact L. destruct (vcmp a b); reflexivity.
Qed.

(* ---- laws of the order ---- *)
Lemma num_flip x y : num_cmp y x = flip (num_cmp x y).
Proof.
  destruct x as [|[]|p], y as [|[]|q]; cbn; try reflexivity.
  rewrite <- (Qcompare_antisym p q). destruct (Qcompare p q); reflexivity.
Qed.
Lemma num_equal_l x y z : num_cmp x y = Equal -> num_cmp x z = num_cmp y z.
Proof.
  destruct x as [|[]|p], y as [|[]|q]; cbn; try discriminate; try reflexivity.
  intros E. assert (p == q)%Q as Q by (apply Qeq_alt; destruct (Qcompare p q); [reflexivity|discriminate|discriminate]).
  destruct z as [|[]|r]; try reflexivity. f_equal. apply Qcompare_comp; [exact Q|reflexivity].
Qed.
Lemma num_less_trans x y z : num_cmp x y = Less -> num_cmp y z = Less -> num_cmp x z = Less.
Proof.
  destruct x as [|[]|p], y as [|[]|q], z as [|[]|r]; cbn; try discriminate; try reflexivity.
  intros H1 H2.
  assert (p < q)%Q by (apply Qlt_alt; destruct (Qcompare p q); [discriminate|reflexivity|discriminate]).
  assert (q < r)%Q by (apply Qlt_alt; destruct (Qcompare q r); [discriminate|reflexivity|discriminate]).
  assert (E : (p ?= r)%Q = Lt) by (apply Qlt_alt; eapply Qlt_trans; eassumption). rewrite E. reflexivity.
Qed.

Section LexLaws.
Context {A : Type}.
Variable cmp : A -> A -> compare.
Lemma lex_flip a : Forall (fun x => forall y, cmp y x = flip (cmp x y)) a -> forall b, lex cmp b a = flip (lex cmp a b).
Proof.
  induction 1 as [|x a Hx Ha IH]; intros [|y b]; cbn; try reflexivity.
  rewrite Hx. destruct (cmp x y); cbn; auto.
Qed.
Lemma lex_equal_l a : Forall (fun x => forall y z, cmp x y = Equal -> cmp x z = cmp y z) a ->
  forall b c, lex cmp a b = Equal -> lex cmp a c = lex cmp b c.
Proof.
  induction 1 as [|x a Hx Ha IH]; intros [|y b] c; cbn; try discriminate; [reflexivity|].
  destruct (cmp x y) eqn:E; try discriminate. intros L. destruct c as [|z c]; [reflexivity|].
  cbn. rewrite (Hx y z E). destruct (cmp y z); auto.
Qed.
Lemma lex_less_trans a :
  Forall (fun x => (forall y z, cmp x y = Equal -> cmp x z = cmp y z) /\
                   (forall y z, cmp x y = Less -> cmp y z = Equal -> cmp x z = Less) /\
                   (forall y z, cmp x y = Less -> cmp y z = Less -> cmp x z = Less)) a ->
  forall b c, lex cmp a b = Less -> lex cmp b c = Less -> lex cmp a c = Less.
Proof.
  induction 1 as [|x a (H1 & H2 & H3) Ha IH]; intros [|y b] [|z c]; cbn; try discriminate; [reflexivity|].
  destruct (cmp x y) eqn:E; try discriminate; destruct (cmp y z) eqn:F; try discriminate; intros L1 L2.
  - rewrite (H3 y z E F). reflexivity.
  - rewrite (H2 y z E F). reflexivity.
  - rewrite (H1 y z E), F. reflexivity.
  - rewrite (H1 y z E), F. eauto.
Qed.
Lemma lex_refl a : Forall (fun x => cmp x x = Equal) a -> lex cmp a a = Equal.
Proof. induction 1 as [|x a Hx Ha IH]; cbn; [reflexivity|]. rewrite Hx. exact IH. Qed.
End LexLaws.

Lemma vcmp_right_num a b x : num_of a = Some x -> num_of b = None -> vcmp a b = Unordered.
Proof. intros Ha Hb. destruct a; cbn in Ha; try discriminate; cbn [vcmp]; rewrite Hb; destruct b; try discriminate; try reflexivity; destruct r; reflexivity. Qed.

Lemma zflip x y : of_comparison (y ?= x) = flip (of_comparison (x ?= y)).
Proof. rewrite (Z.compare_antisym x y). destruct (x ?= y); reflexivity. Qed.
Lemma zequal x y z : of_comparison (x ?= y) = Equal -> of_comparison (x ?= z) = of_comparison (y ?= z).
Proof. destruct (Z.compare_spec x y); cbn; try discriminate. intros _. subst. reflexivity. Qed.
Lemma zless x y z : of_comparison (x ?= y) = Less -> of_comparison (y ?= z) = Less -> of_comparison (x ?= z) = Less.
Proof.
  destruct (Z.compare_spec x y); cbn; try discriminate. destruct (Z.compare_spec y z); cbn; try discriminate.
  intros _ _. destruct (Z.compare_spec x z); cbn; auto; lia.
Qed.

Lemma vcmp_flip a : forall b, vcmp b a = flip (vcmp a b).
Proof.
  induction a as [|b0|n|r|s|i|i|l IHl|l _] using value_ind'; intros b;
    destruct (num_of b) as [y|] eqn:Nb;
    match goal with |- vcmp b ?a = _ =>
      destruct (num_of a) as [x|] eqn:Na;
      [ try (rewrite (vcmp_num _ _ _ _ Nb Na), (vcmp_num _ _ _ _ Na Nb); apply num_flip);
        try (rewrite (vcmp_left_num _ _ _ Nb Na), (vcmp_right_num _ _ _ Na Nb); reflexivity)
      | try (rewrite (vcmp_right_num _ _ _ Nb Na), (vcmp_left_num _ _ _ Na Nb); reflexivity)]
    end; try (destruct r; discriminate); try discriminate;
    destruct b as [|b'|n'|r'|s'|i'|i'|l'|l']; try discriminate; try reflexivity; try (destruct r'; discriminate).
  - destruct b0, b'; reflexivity.
  - cbn. apply lex_flip. apply Forall_forall. intros p _ q. apply zflip.
  - cbn. apply lex_flip. exact IHl.
Qed.

Lemma vcmp_equal_l a : forall b c, vcmp a b = Equal -> vcmp a c = vcmp b c.
Proof.
  induction a as [|b0|n|r|s|i|i|l IHl|l _] using value_ind'; intros b c E;
  match goal with |- vcmp ?a c = _ =>
    destruct (num_of a) as [x|] eqn:Na; destruct (num_of b) as [y|] eqn:Nb;
    [ destruct (num_of c) as [z|] eqn:Nc;
      [ rewrite (vcmp_num _ _ _ _ Na Nc), (vcmp_num _ _ _ _ Nb Nc); apply num_equal_l; rewrite <- (vcmp_num _ _ _ _ Na Nb); exact E
      | rewrite (vcmp_right_num _ _ _ Na Nc), (vcmp_right_num _ _ _ Nb Nc); reflexivity ]
    | rewrite (vcmp_right_num _ _ _ Na Nb) in E; discriminate
    | rewrite (vcmp_left_num _ _ _ Na Nb) in E; discriminate
    | ]
  end; try discriminate; destruct b as [|b'|n'|r'|s'|i'|i'|l'|l']; try discriminate; try (destruct r; discriminate);
  try (destruct r'; discriminate);
  (destruct (num_of c) as [z|] eqn:Nc;
   [ rewrite ?(vcmp_left_num _ _ _ Na Nc), ?(vcmp_left_num _ _ _ Nb Nc); reflexivity|]); try reflexivity.
  - destruct b0, b'; try discriminate; reflexivity.
  - destruct c; try discriminate; try reflexivity.
    cbn in *. revert E. apply lex_equal_l. apply Forall_forall. intros p _ q t. apply zequal.
  - destruct c; try discriminate; try reflexivity.
    cbn in *. revert E. apply lex_equal_l. exact IHl.
Qed.
Lemma vcmp_equal_sym a b : vcmp a b = Equal -> vcmp b a = Equal.
Proof. intros E. rewrite vcmp_flip, E. reflexivity. Qed.
Lemma vcmp_equal_r a b c : vcmp b c = Equal -> vcmp a b = vcmp a c.
Proof. intros E. rewrite (vcmp_flip b a), (vcmp_flip c a). f_equal. apply vcmp_equal_l. exact E. Qed.

Lemma vcmp_less_trans a : forall b c, vcmp a b = Less -> vcmp b c = Less -> vcmp a c = Less.
Proof.
  induction a as [|b0|n|r|s|i|i|l IHl|l _] using value_ind'; intros b c E F;
  match goal with |- vcmp ?a c = _ =>
    destruct (num_of a) as [x|] eqn:Na; destruct (num_of b) as [y|] eqn:Nb; destruct (num_of c) as [z|] eqn:Nc;
    try (rewrite (vcmp_right_num _ _ _ Na Nb) in E; discriminate);
    try (rewrite (vcmp_left_num _ _ _ Na Nb) in E; discriminate);
    try (rewrite (vcmp_right_num _ _ _ Nb Nc) in F; discriminate);
    try (rewrite (vcmp_left_num _ _ _ Nb Nc) in F; discriminate);
    try (rewrite (vcmp_num _ _ _ _ Na Nc); apply (num_less_trans x y z);
         [rewrite <- (vcmp_num _ _ _ _ Na Nb); exact E|rewrite <- (vcmp_num _ _ _ _ Nb Nc); exact F])
  end; try discriminate; destruct b as [|b'|n'|r'|s'|i'|i'|l'|l']; try discriminate; try (destruct r; discriminate);
  try (destruct r'; discriminate); destruct c as [|b2|n2|r2|s2|i2|i2|l2|l2]; try discriminate; try (destruct r2; discriminate).
  - destruct b0, b', b2; try discriminate; reflexivity.
  - cbn in *. revert E F. apply lex_less_trans. apply Forall_forall. intros p _. repeat split; intros q t.
    + apply zequal.
    + intros H1 H2. destruct (Z.compare_spec q t); try discriminate. subst. exact H1.
    + apply zless.
  - cbn in *. revert E F. apply lex_less_trans. eapply Forall_impl; [|exact IHl].
    intros p Hp. repeat split; intros q t.
    + apply vcmp_equal_l.
    + intros H1 H2. rewrite <- (vcmp_equal_r p q t H2). exact H1.
    + apply Hp.
Qed.

Lemma vcmp_refl a : plain a = true -> vcmp a a = Equal.
Proof.
  induction a as [|b0|n|r|s|i|i|l IHl|l _] using value_ind'; cbn; intros H; try discriminate; try reflexivity.
  - destruct b0; reflexivity.
  - rewrite Qcompare_Z, Z.compare_refl. reflexivity.
  - destruct r as [|[]|]; try discriminate; try reflexivity. cbn.
    assert (E : forall q, (q ?= q)%Q = Eq) by (intros q; apply Qeq_alt; reflexivity). rewrite E. reflexivity.
  - apply lex_refl. apply Forall_forall. intros p _. rewrite Z.compare_refl. reflexivity.
  - apply lex_refl. rewrite forallb_forall in H. apply Forall_forall. intros x Hx.
    rewrite Forall_forall in IHl. apply IHl; auto.
Qed.

(* ---- the laws for the code ---- *)
Lemma compares_iff a b c : wf_value a -> wf_value b -> compares a b c <-> vcmp a b = c.
Proof.
  intros W1 W2. destruct (compare_partial_ok a b W1 W2) as [n H]. split.
  - intros [n' H']. specialize (H (n + n')%nat ltac:(lia)). specialize (H' (n + n')%nat ltac:(lia)).
    rewrite H in H'. injection H'. auto.
  - intros <-. exists n. exact H.
Qed.
Lemma compares_total a b : wf_value a -> wf_value b -> exists c, compares a b c.
Proof. intros W1 W2. exists (vcmp a b). apply compares_iff; auto. Qed.
Lemma compares_vcmp a b : wf_value a -> wf_value b -> compares a b (vcmp a b).
Proof. intros W1 W2. apply compares_iff; auto. Qed.
Lemma compares_num a b x y : wf_value a -> wf_value b -> num_of a = Some x -> num_of b = Some y -> compares a b (num_cmp x y).
Proof. intros W1 W2 Ha Hb. apply compares_iff; auto. apply vcmp_num; auto. Qed.
Lemma compares_swap a b c : wf_value a -> wf_value b -> compares a b c -> compares b a (flip c).
Proof. intros W1 W2. rewrite !compares_iff by auto. intros <-. apply vcmp_flip. Qed.
Lemma compares_refl a : wf_value a -> plain a = true -> compares a a Equal.
Proof. intros W1 P. apply compares_iff; auto. apply vcmp_refl, P. Qed.
Lemma compares_equal_trans a b c r : wf_value a -> wf_value b -> wf_value c ->
  compares a b Equal -> compares b c r -> compares a c r.
Proof. intros W1 W2 W3. rewrite !compares_iff by auto. intros E <-. apply vcmp_equal_l. exact E. Qed.
Lemma compares_less_irrefl a : wf_value a -> ~ compares a a Less.
Proof.
  intros W. rewrite compares_iff by auto. intros E. pose proof (vcmp_flip a a) as F. rewrite E in F. discriminate.
Qed.
Lemma compares_less_trans a b c : wf_value a -> wf_value b -> wf_value c ->
  compares a b Less -> compares b c Less -> compares a c Less.
Proof. intros W1 W2 W3. rewrite !compares_iff by auto. apply vcmp_less_trans. Qed.
