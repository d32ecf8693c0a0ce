From Coq Require Import Permutation.
From Verif Require Import Base Monad ScopeModel ScopeProofs1 CollectModel CollectSpec.

Lemma switch_perm : forall {A} (e b l bs : list A), Permutation ((e ++ l) ++ b ++ bs) (e ++ b ++ l ++ bs).
Proof.
  intros. rewrite <- app_assoc. apply Permutation_app_head. rewrite !app_assoc. apply Permutation_app_tail. apply Permutation_app_comm.
Qed.
Lemma perm_app3 : forall {A} (a b x y : list A), Permutation (a ++ b) (x ++ y) -> forall c, Permutation (c ++ a ++ b) (c ++ x ++ y).
Proof. intros. apply Permutation_app_head. assumption. Qed.

Lemma collect_held :
  (forall e, plain_e true e -> Permutation (collect_e e) (held_e e)) /\
  (forall xs, plain_a true xs -> Permutation (collect_a xs) (held_a xs)) /\
  (forall s, plain_s true s -> Permutation (collect_s s) (held_s s)) /\
  (forall l, plain_l true l -> Permutation (collect_l l) (held_l l)) /\
  (forall l, plain_k true l -> Permutation (collect_labels l ++ collect_bodies l) (held_k l)).
Proof.
  apply code_all_ind; simpl; intros; auto;
    repeat match goal with H : _ /\ _ |- _ => destruct H end;
    try (repeat apply Permutation_app; auto; fail).
  - repeat apply Permutation_app; auto. rewrite (H9 eq_refl). simpl. auto.
  - eapply Permutation_trans; [apply switch_perm|]. repeat apply Permutation_app; auto.
  - eapply Permutation_trans; [|apply Permutation_app; [apply H; auto | apply H0; auto]].
    rewrite !app_assoc. apply Permutation_app_tail. apply Permutation_app_comm.
Qed.
Lemma rod_held :
  (forall e, plain_e false e -> Permutation (rod_e e) (held_e e)) /\
  (forall xs, plain_a false xs -> Permutation (rod_a xs) (held_a xs)) /\
  (forall s, plain_s false s -> Permutation (rod_s s) (held_s s)) /\
  (forall l, plain_l false l -> Permutation (rod_l l) (held_l l)) /\
  (forall l, plain_k false l -> Permutation (rod_labels l ++ rod_bodies l) (held_k l)).
Proof.
  apply code_all_ind; simpl; intros; auto;
    repeat match goal with H : _ /\ _ |- _ => destruct H end;
    try (repeat apply Permutation_app; auto; fail).
  - apply (proj1 (proj2 (proj2 (proj2 collect_held)))); auto.
  - apply (proj1 collect_held); auto.
  - eapply Permutation_trans; [apply switch_perm|]. repeat apply Permutation_app; auto.
  - eapply Permutation_trans; [|apply Permutation_app; [apply H; auto | apply H0; auto]].
    rewrite !app_assoc. apply Permutation_app_tail. apply Permutation_app_comm.
Qed.

(* Nothing is found that is not held, and nothing more often than it is held. *)
Definition sub {A} (a b : list A) : Prop := exists r, Permutation (a ++ r) b.
Lemma sub_refl : forall {A} (a : list A), sub a a.
Proof. intros. exists []. rewrite app_nil_r. auto. Qed.
Lemma sub_app : forall {A} (a b c d : list A), sub a b -> sub c d -> sub (a ++ c) (b ++ d).
Proof.
  intros A a b c d (r & P) (s & Q). exists (r ++ s). rewrite <- P, <- Q.
  rewrite <- !app_assoc. apply Permutation_app_head. rewrite !app_assoc. apply Permutation_app_tail. apply Permutation_app_comm.
Qed.
Lemma sub_perm : forall {A} (a a' b : list A), Permutation a a' -> sub a' b -> sub a b.
Proof. intros A a a' b P (r & Q). exists r. rewrite P. auto. Qed.
Lemma sub_skip : forall {A} (a b c : list A), sub a c -> sub a (b ++ c).
Proof.
  intros A a b c (r & P). exists (b ++ r). rewrite <- P. rewrite !app_assoc. apply Permutation_app_tail. apply Permutation_app_comm.
Qed.
Lemma collect_sub :
  (forall e, sub (collect_e e) (held_e e)) /\
  (forall xs, sub (collect_a xs) (held_a xs)) /\
  (forall s, sub (collect_s s) (held_s s)) /\
  (forall l, sub (collect_l l) (held_l l)) /\
  (forall l, sub (collect_labels l ++ collect_bodies l) (held_k l)).
Proof.
  apply code_all_ind; simpl; intros; auto using sub_refl;
    try (repeat apply sub_app; auto; fail).
  - repeat apply sub_app; auto. apply sub_skip. auto.
  - eapply sub_perm; [apply switch_perm|]. repeat apply sub_app; auto.
  - eapply sub_perm; [|apply sub_app; [apply H | apply H0]].
    rewrite !app_assoc. apply Permutation_app_tail. apply Permutation_app_comm.
Qed.
Lemma rod_sub :
  (forall e, sub (rod_e e) (held_e e)) /\
  (forall xs, sub (rod_a xs) (held_a xs)) /\
  (forall s, sub (rod_s s) (held_s s)) /\
  (forall l, sub (rod_l l) (held_l l)) /\
  (forall l, sub (rod_labels l ++ rod_bodies l) (held_k l)).
Proof.
  apply code_all_ind; simpl; intros; auto using sub_refl;
    try (repeat apply sub_app; auto; fail).
  - apply collect_sub.
  - apply collect_sub.
  - eapply sub_perm; [apply switch_perm|]. repeat apply sub_app; auto.
  - eapply sub_perm; [|apply sub_app; [apply H | apply H0]].
    rewrite !app_assoc. apply Permutation_app_tail. apply Permutation_app_comm.
Qed.

(* Code without such loops *)
Fixpoint still_e (inner : bool) (e : cexpr) : Prop :=
  match e with
  | CInt _ | CNull | CName _ => True
  | CFun _ b => still_l true b
  | CCall f xs => still_e inner f /\ still_a inner xs
  | CList xs => still_a inner xs
  | CSet a b | CAdd a b => still_e inner a /\ still_e inner b
  | CCond c a b => still_e inner c /\ still_e inner a /\ still_e inner b
  | COut e => still_e inner e
  end
with still_a (inner : bool) (xs : cargs) : Prop :=
  match xs with
  | BNil => True
  | BCons _ e xs => still_e inner e /\ still_a inner xs
  end
with still_s (inner : bool) (s : node) : Prop :=
  match s with
  | NExpr e | NVar _ _ e | NRef _ e | NThrow e | NReturn _ e => still_e inner e
  | NDefer e => still_e true e
  | NBlock b => still_l inner b
  | NIf e a b | NWhile e a b | NEach _ _ e a b | NDo a e b => still_e inner e /\ still_l inner a /\ still_l inner b
  | NSwitch e l => still_e inner e /\ still_k inner l
  | NFor _ _ i e st b c =>
    inner = false /\ still_e inner i /\ still_e inner e /\ still_e inner st /\ still_l inner b /\ still_l inner c
  | NTry b _ c => still_l inner b /\ still_l inner c
  | NVoid | NBreak | NContinue => True
  end
with still_l (inner : bool) (l : code) : Prop :=
  match l with
  | End => True
  | Then s l => still_s inner s /\ still_l inner l
  end
with still_k (inner : bool) (l : cases) : Prop :=
  match l with
  | JNil => True
  | JCase e _ b l => still_e inner e /\ still_l inner b /\ still_k inner l
  | JDefault _ b l => still_l inner b /\ still_k inner l
  end.

Lemma still_plain :
  (forall e i, still_e i e -> plain_e i e) /\ (forall xs i, still_a i xs -> plain_a i xs) /\
  (forall s i, still_s i s -> plain_s i s) /\ (forall l i, still_l i l -> plain_l i l) /\ (forall l i, still_k i l -> plain_k i l).
Proof.
  apply code_all_ind; simpl; intros; auto; repeat match goal with H : _ /\ _ |- _ => destruct H end; repeat split; auto.
  intros ->. discriminate.
Qed.
Lemma rebind_still :
  (forall e i d fs e', still_e i e -> rebind_e d fs e = Ok e' -> still_e i e') /\
  (forall e i d fs e', still_a i e -> rebind_a d fs e = Ok e' -> still_a i e') /\
  (forall e i d fs e', still_s i e -> rebind_s d fs e = Ok e' -> still_s i e') /\
  (forall e i d fs e', still_l i e -> rebind_l d fs e = Ok e' -> still_l i e') /\
  (forall e i d fs e', still_k i e -> rebind_k d fs e = Ok e' -> still_k i e').
Proof.
  apply code_all_ind; simpl; intros;
    repeat match goal with H : _ /\ _ |- _ => destruct H end; obinds;
    repeat match goal with H : Ok _ = Ok _ |- _ => injection H as <- end; simpl; auto;
    repeat split; eauto.
Qed.
Lemma still_app : forall i a b, still_l i a -> still_l i b -> still_l i (app a b).
Proof. induction a as [|s a IH]; simpl; intros b Ha Hb; auto. destruct Ha. auto. Qed.
Lemma gen_still :
  (forall e i cs, calm_e i e -> still_e i (gen_e cs e)) /\
  (forall xs i cs, calm_a i xs -> still_a i (gen_a cs xs)) /\
  (forall s i c cs na, calm_s i s -> still_l i (fst (fst (gen_s s c cs na)))) /\
  (forall l i c cs na, calm_l i l -> still_l i (fst (fst (gen_l l c cs na)))) /\
  (forall l i cb c cs, calm_k i l -> still_k i (gen_k l cb c cs)).
Proof.
  apply source_ind; simpl; intros; auto; repeat match goal with H : _ /\ _ |- _ => destruct H end; repeat split; auto.
  - destruct (flat b); simpl; auto.
  - specialize (H i c cs na H1). destruct (gen_s s c cs na) as [[k1 c1] na1]. simpl in H.
    destruct (back_terminates k1); simpl; auto. specialize (H0 i c1 cs na1 H2).
    destruct (gen_l l c1 cs na1) as [[k2 c2] na2]. simpl in *. apply still_app; auto.
  - specialize (H0 i cb (c :: cs) (Some []) H3). destruct (gen_l b cb (c :: cs) (Some [])) as [[k cb'] na]. simpl in *. auto.
  - specialize (H i cb (c :: cs) (Some []) H1). destruct (gen_l b cb (c :: cs) (Some [])) as [[k cb'] na]. simpl in *. auto.
Qed.
Lemma made_still : forall b c, calm_l false b -> made b c -> still_l false c.
Proof.
  intros b c H M. induction M.
  - apply gen_still. assumption.
  - eapply rebind_still; eauto.
Qed.
Lemma made_held : forall b c, calm_l false b -> made b c -> Permutation (rod_l c) (held_l c).
Proof. intros b c H M. apply rod_held. apply still_plain. eapply made_still; eauto. Qed.
