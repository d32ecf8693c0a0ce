(* Shared by the proofs about copy-on-write containers: lists, owners of a
   block, results of statements. *)
From Verif Require Import Base Monad Lists SeqModel.

Lemma set_nth_length {A} (l : list A) i x : length (set_nth l i x) = length l.
Proof.
  revert i; induction l as [|y l IH]; intros [|i]; cbn; auto.
Qed.
Lemma nth_set_same {A} (l : list A) i x : (i < length l)%nat -> nth_error (set_nth l i x) i = Some x.
Proof.
  revert i; induction l as [|y l IH]; intros [|i]; cbn; intros H; try lia; auto.
  apply IH; lia.
Qed.
Lemma nth_set_other {A} (l : list A) i j x : i <> j -> nth_error (set_nth l i x) j = nth_error l j.
Proof.
  revert i j; induction l as [|y l IH]; intros [|i] [|j] H; cbn; auto; try lia.
Qed.
Lemma nth_set {A} (l : list A) i j x : (i < length l)%nat ->
  nth_error (set_nth l i x) j = if (i =? j)%nat then Some x else nth_error l j.
Proof.
  intros H; destruct (Nat.eqb_spec i j) as [<-|Hn];
    [apply nth_set_same; exact H|apply nth_set_other; exact Hn].
Qed.
Lemma nth_lt {A} (l : list A) i x : nth_error l i = Some x -> (i < length l)%nat.
Proof. intros H; apply nth_error_Some; congruence. Qed.
Lemma nth_snoc {A} (l : list A) x i :
  nth_error (l ++ [x]) i =
  if (i <? length l)%nat then nth_error l i else if (i =? length l)%nat then Some x else None.
Proof.
  destruct (Nat.ltb_spec i (length l)) as [H|H].
  - apply nth_error_app1; exact H.
  - rewrite nth_error_app2 by exact H.
    destruct (Nat.eqb_spec i (length l)) as [->|Hn].
    + rewrite Nat.sub_diag; reflexivity.
    + destruct (i - length l)%nat as [|k] eqn:E; [lia|]; cbn; destruct k; reflexivity.
Qed.

Definition hit (s : nat) (x : option nat) : Z :=
  match x with Some s' => if (s' =? s)%nat then 1 else 0 | None => 0 end.

Fixpoint occ (l : list (option nat)) (s : nat) : Z :=
  match l with [] => 0 | x :: t => hit s x + occ t s end.

Lemma hit_nonneg s x : 0 <= hit s x <= 1.
Proof. destruct x as [t|]; cbn; [destruct (t =? s)%nat|]; lia. Qed.
Lemma hit_self s : hit s (Some s) = 1.
Proof. cbn; rewrite Nat.eqb_refl; reflexivity. Qed.
Lemma hit_zero s x : hit s x = 0 -> x <> Some s.
Proof. intros H E; subst x; rewrite hit_self in H; lia. Qed.

Lemma occ_nonneg l s : 0 <= occ l s.
Proof. induction l as [|o l IH]; cbn; [lia|]; pose proof (hit_nonneg s o); lia. Qed.

(* outcome of a statement: not undefined, and if it throws then Q *)
Definition res {A} (r : outcome A) (P : A -> Prop) (Q : Prop) : Prop :=
  match r with Ok a => P a | Throw => Q | UB => False end.
Lemma res_bind {A B} (r : outcome A) (f : A -> outcome B) P P' Q :
  res r P Q -> (forall a, P a -> res (f a) P' Q) -> res (obind r f) P' Q.
Proof. destruct r; cbn; auto. Qed.
Lemma res_ok {A} (r : outcome A) a (P : A -> Prop) Q : r = Ok a -> P a -> res r P Q.
Proof. intros ->; cbn; auto. Qed.


Lemma set_nth_same {A} (l : list A) i x : nth_error l i = Some x -> set_nth l i x = l.
Proof.
  revert i; induction l as [|y l IH]; intros [|i]; cbn; intros H; try discriminate.
  - congruence.
  - rewrite IH by exact H; reflexivity.
Qed.
Lemma set_nth_snoc {A} (l : list A) x y : set_nth (l ++ [x]) (length l) y = l ++ [y].
Proof. induction l as [|z l IH]; cbn; [reflexivity|rewrite IH; reflexivity]. Qed.

Lemma lor_le a b : 0 <= a -> 0 <= b -> a <= Z.lor a b /\ 0 <= Z.lor a b <= a + b.
Proof.
  intros Ha Hb.
  assert (Hsum : forall u w, Z.land u w = 0 -> Z.lor u w = u + w).
  { intros u w H; rewrite Z.add_nocarry_lxor by exact H; symmetry; apply Z.lxor_lor; exact H. }
  assert (E1 : Z.lor a b = a + Z.ldiff b a).
  { rewrite <- Hsum.
    - apply Z.bits_inj'; intros n Hn; rewrite !Z.lor_spec, Z.ldiff_spec.
      destruct (Z.testbit a n), (Z.testbit b n); reflexivity.
    - apply Z.bits_inj'; intros n Hn; rewrite Z.land_spec, Z.ldiff_spec, Z.bits_0.
      destruct (Z.testbit a n), (Z.testbit b n); reflexivity. }
  assert (E2 : b = Z.land b a + Z.ldiff b a).
  { rewrite <- Hsum.
    - apply Z.bits_inj'; intros n Hn; rewrite Z.lor_spec, Z.land_spec, Z.ldiff_spec.
      destruct (Z.testbit a n), (Z.testbit b n); reflexivity.
    - apply Z.bits_inj'; intros n Hn; rewrite !Z.land_spec, Z.ldiff_spec, Z.bits_0.
      destruct (Z.testbit a n), (Z.testbit b n); reflexivity. }
  assert (0 <= Z.ldiff b a) by (apply Z.ldiff_nonneg; auto).
  assert (0 <= Z.land b a) by (apply Z.land_nonneg; auto).
  lia.
Qed.


Lemma set_nth_twice {A} (l : list A) i x y : set_nth (set_nth l i x) i y = set_nth l i y.
Proof. revert i; induction l as [|z l IH]; intros [|i]; cbn; auto; f_equal; apply IH. Qed.

Lemma res_weaken {A} (r : outcome A) (P P' : A -> Prop) (Q Q' : Prop) :
  res r P Q -> (forall a, P a -> P' a) -> (Q -> Q') -> res r P' Q'.
Proof. destruct r; cbn; auto. Qed.

(* ---- ownership ---- *)
Definition osth (o : option (option nat)) : option nat := match o with Some o => o | None => None end.
Fixpoint owners (l : list (option (option nat))) (s : nat) : Z :=
  match l with [] => 0 | o :: t => hit s (osth o) + owners t s end.

Lemma owners_nonneg (l : list (option (option nat))) s : 0 <= owners l s.
Proof. induction l as [|o l IH]; cbn; [lia|]; pose proof (hit_nonneg s (osth o)); lia. Qed.
Lemma owners_app a b s : owners (a ++ b) s = owners a s + owners b s.
Proof. induction a as [|o a IH]; cbn; [lia|]; rewrite IH; lia. Qed.
Lemma owners_set (l : list (option (option nat))) h o o' s : nth_error l h = Some o ->
  owners (set_nth l h o') s = owners l s - hit s (osth o) + hit s (osth o').
Proof.
  revert h; induction l as [|y l IH]; intros [|h]; cbn; intros H; try discriminate.
  - injection H as ->; lia.
  - rewrite (IH _ H); lia.
Qed.
Lemma owners_one (l : list (option (option nat))) h o s : nth_error l h = Some o -> hit s (osth o) <= owners l s.
Proof.
  revert h; induction l as [|y l IH]; intros [|h]; cbn; intros H; try discriminate.
  - injection H as ->; pose proof (owners_nonneg l s); lia.
  - specialize (IH _ H); pose proof (hit_nonneg s (osth y)); lia.
Qed.
Lemma owners_two (l : list (option (option nat))) h o h' o' s : h <> h' -> nth_error l h = Some o -> nth_error l h' = Some o' ->
  hit s (osth o) + hit s (osth o') <= owners l s.
Proof.
  revert h h'; induction l as [|y l IH]; intros [|h] [|h'] Hne; cbn; intros H H'; try discriminate;
    try (exfalso; apply Hne; reflexivity).
  - injection H as ->; pose proof (owners_one l h' o' s H'); lia.
  - injection H' as ->; pose proof (owners_one l h o s H); lia.
  - specialize (IH h h' ltac:(lia) H H'); pose proof (hit_nonneg s (osth y)); lia.
Qed.
Lemma owners_pos (l : list (option (option nat))) s : 0 < owners l s -> In (Some (Some s)) l.
Proof.
  induction l as [|o l IH]; cbn; intros H; [lia|].
  destruct (Z.eq_dec (hit s (osth o)) 0) as [E|E]; [right; apply IH; lia|left].
  destruct o as [[t|]|]; cbn in E; try lia.
  destruct (Nat.eqb_spec t s); [congruence|lia].
Qed.
