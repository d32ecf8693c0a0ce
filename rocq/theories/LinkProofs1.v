(* The circular list of the occupied buckets. *)
From Verif Require Import Base Monad Lists SeqModel CowBase HashModel HashProofs LinkModel.
From Coq Require Import Permutation.

Section Ring.
Context {K V : Type}.
Notation cell := (cell K V).
Notation set_prv := (@set_prv K V).
Notation set_nxt := (@set_nxt K V).
Notation view := (@view K V).

Definition nx (cs : list cell) (i : nat) : option nat := match nth_error cs i with Some c => nxt c | None => None end.
Definition pv (cs : list cell) (i : nat) : option nat := match nth_error cs i with Some c => prv c | None => None end.
Definition it (cs : list cell) (i : nat) : option (K * V) := match nth_error cs i with Some c => item c | None => None end.

Lemma at_ok (cs : list cell) i : (i < length cs)%nat ->
  exists c, at_ cs i = Ok c /\ nxt c = nx cs i /\ prv c = pv cs i /\ item c = it cs i.
Proof.
  intros H. unfold at_, nx, pv, it. destruct (nth_error cs i) as [c|] eqn:E; [eauto|].
  apply nth_error_None in E; lia.
Qed.
Lemma upd_nxt (cs : list cell) i f v : (i < length cs)%nat -> (forall c, f c = set_nxt c v) ->
  exists cs', upd cs i f = Ok cs' /\ length cs' = length cs /\
    (forall j, nx cs' j = if (j =? i)%nat then v else nx cs j) /\
    (forall j, pv cs' j = pv cs j) /\ (forall j, it cs' j = it cs j).
Proof.
  intros H Hf. unfold upd, at_. destruct (nth_error cs i) as [c|] eqn:E; [|apply nth_error_None in E; lia].
  cbn [obind]. eexists; split; [reflexivity|]. split; [apply set_nth_length|].
  unfold nx, pv, it. repeat split; intros j; rewrite nth_set by exact H; rewrite ?(Nat.eqb_sym j i);
    destruct (Nat.eqb_spec i j) as [->|]; try reflexivity; rewrite ?E, Hf; reflexivity.
Qed.
Lemma upd_prv (cs : list cell) i f v : (i < length cs)%nat -> (forall c, f c = set_prv c v) ->
  exists cs', upd cs i f = Ok cs' /\ length cs' = length cs /\
    (forall j, pv cs' j = if (j =? i)%nat then v else pv cs j) /\
    (forall j, nx cs' j = nx cs j) /\ (forall j, it cs' j = it cs j).
Proof.
  intros H Hf. unfold upd, at_. destruct (nth_error cs i) as [c|] eqn:E; [|apply nth_error_None in E; lia].
  cbn [obind]. eexists; split; [reflexivity|]. split; [apply set_nth_length|].
  unfold nx, pv, it. repeat split; intros j; rewrite nth_set by exact H; rewrite ?(Nat.eqb_sym j i);
    destruct (Nat.eqb_spec i j) as [->|]; try reflexivity; rewrite ?E, Hf; reflexivity.
Qed.
Lemma upd_item (cs : list cell) i x : (i < length cs)%nat ->
  exists cs', upd cs i (fun c => set_item c x) = Ok cs' /\ length cs' = length cs /\
    (forall j, it cs' j = if (j =? i)%nat then Some x else it cs j) /\
    (forall j, nx cs' j = nx cs j) /\ (forall j, pv cs' j = pv cs j).
Proof.
  intros H. unfold upd, at_. destruct (nth_error cs i) as [c|] eqn:E; [|apply nth_error_None in E; lia].
  cbn [obind]. eexists; split; [reflexivity|]. split; [apply set_nth_length|].
  unfold nx, pv, it. repeat split; intros j; rewrite nth_set by exact H; rewrite ?(Nat.eqb_sym j i);
    destruct (Nat.eqb_spec i j) as [->|]; try reflexivity; rewrite ?E; reflexivity.
Qed.

Lemma attach_ok (cs : list cell) q h x : (q < length cs)%nat -> (h < length cs)%nat -> q <> h ->
  nx cs h = Some x -> (x < length cs)%nat -> x <> q ->
  exists cs', attach cs q h = Ok cs' /\ length cs' = length cs /\
    (forall j, nx cs' j = if (j =? h)%nat then Some q else if (j =? q)%nat then Some x else nx cs j) /\
    (forall j, pv cs' j = if (j =? x)%nat then Some q else if (j =? q)%nat then Some h else pv cs j) /\
    (forall j, it cs' j = it cs j).
Proof.
  intros Hq Hh Hne Hx Hxl Hxq. unfold attach.
  destruct (upd_prv cs q (fun c => set_prv c (Some h)) (Some h) Hq ltac:(reflexivity)) as (c1 & E1 & L1 & P1 & N1 & I1).
  rewrite E1; cbn [obind].
  destruct (at_ok c1 h ltac:(lia)) as (a & Ea & Na & _). rewrite Ea; cbn [obind].
  rewrite N1, Hx in Na. rewrite Na.
  destruct (upd_nxt c1 q (fun c => set_nxt c (Some x)) (Some x) ltac:(lia) ltac:(reflexivity)) as (c2 & E2 & L2 & N2 & P2 & I2).
  rewrite E2; cbn [obind].
  destruct (at_ok c2 q ltac:(lia)) as (b & Eb & _ & Pb & _). rewrite Eb; cbn [obind].
  rewrite P2, P1, Nat.eqb_refl in Pb. rewrite Pb; cbn [deref obind].
  destruct (upd_nxt c2 h (fun c => set_nxt c (Some q)) (Some q) ltac:(lia) ltac:(reflexivity)) as (c3 & E3 & L3 & N3 & P3 & I3).
  rewrite E3; cbn [obind].
  destruct (at_ok c3 q ltac:(lia)) as (d & Ed & Nd & _). rewrite Ed; cbn [obind].
  rewrite N3, N2, Nat.eqb_refl, (proj2 (Nat.eqb_neq _ _) Hne) in Nd. rewrite Nd; cbn [deref obind].
  destruct (upd_prv c3 x (fun c => set_prv c (Some q)) (Some q) ltac:(lia) ltac:(reflexivity)) as (c4 & E4 & L4 & P4 & N4 & I4).
  exists c4. split; [exact E4|]. split; [lia|].
  split; [|split]; intros j.
  - rewrite N4, N3, N2, N1. reflexivity.
  - rewrite P4, P3, P2, P1. reflexivity.
  - rewrite I4, I3, I2, I1. reflexivity.
Qed.
Lemma detach_ok (cs : list cell) q a b : (q < length cs)%nat -> (a < length cs)%nat -> (b < length cs)%nat ->
  pv cs q = Some a -> nx cs q = Some b -> a <> q -> b <> q ->
  exists cs', detach cs q = Ok cs' /\ length cs' = length cs /\
    (forall j, nx cs' j = if (j =? q)%nat then None else if (j =? a)%nat then Some b else nx cs j) /\
    (forall j, pv cs' j = if (j =? q)%nat then None else if (j =? b)%nat then Some a else pv cs j) /\
    (forall j, it cs' j = it cs j).
Proof.
  intros Hq Ha Hb Hp Hn Haq Hbq. unfold detach.
  destruct (at_ok cs q Hq) as (c & Ec & Nc & Pc & _). rewrite Ec; cbn [obind].
  rewrite Pc, Hp; cbn [deref obind]. rewrite Nc, Hn.
  destruct (upd_nxt cs a (fun x => set_nxt x (Some b)) (Some b) Ha ltac:(reflexivity)) as (c1 & E1 & L1 & N1 & P1 & I1).
  rewrite E1; cbn [obind].
  destruct (at_ok c1 q ltac:(lia)) as (d & Ed & Nd & Pd & _). rewrite Ed; cbn [obind].
  assert (Hqa : (q =? a)%nat = false) by (apply Nat.eqb_neq; congruence).
  rewrite N1, Hqa, Hn in Nd. rewrite Nd; cbn [deref obind]. rewrite P1, Hp in Pd. rewrite Pd.
  destruct (upd_prv c1 b (fun x => set_prv x (Some a)) (Some a) ltac:(lia) ltac:(reflexivity)) as (c2 & E2 & L2 & P2 & N2 & I2).
  rewrite E2; cbn [obind].
  destruct (upd_prv c2 q (fun x => set_prv x None) None ltac:(lia) ltac:(reflexivity)) as (c3 & E3 & L3 & P3 & N3 & I3).
  rewrite E3; cbn [obind].
  destruct (upd_nxt c3 q (fun x => set_nxt x None) None ltac:(lia) ltac:(reflexivity)) as (c4 & E4 & L4 & N4 & P4 & I4).
  exists c4. split; [exact E4|]. split; [lia|].
  split; [|split]; intros j.
  - rewrite N4, N3, N2, N1. reflexivity.
  - rewrite P4, P3, P2, P1. reflexivity.
  - rewrite I4, I3, I2, I1. reflexivity.
Qed.

(* from a through l to h *)
Fixpoint chain (cs : list cell) (a : nat) (l : list nat) (h : nat) : Prop :=
  match l with
  | [] => nx cs a = Some h /\ pv cs h = Some a
  | b :: l => nx cs a = Some b /\ pv cs b = Some a /\ chain cs b l h
  end.
Lemma chain_frame cs cs' : forall l a h,
  (forall i, i = a \/ In i l -> nx cs' i = nx cs i) ->
  (forall i, i = h \/ In i l -> pv cs' i = pv cs i) ->
  chain cs a l h -> chain cs' a l h.
Proof.
  induction l as [|b l IH]; cbn [chain]; intros a h Hn Hp H.
  - rewrite Hn, Hp by auto. exact H.
  - destruct H as (H1 & H2 & H3). rewrite Hn, Hp by (cbn; auto). split; [exact H1|]. split; [exact H2|].
    apply IH; [| |exact H3]; intros i Hi; [apply Hn|apply Hp]; cbn; intuition congruence.
Qed.
Lemma chain_split cs : forall l1 a b l2 h,
  chain cs a (l1 ++ b :: l2) h <-> chain cs a l1 b /\ chain cs b l2 h.
Proof.
  induction l1 as [|x l1 IH]; intros a b l2 h; cbn [app chain]; [tauto|]. rewrite IH. tauto.
Qed.

Record ring (cs : list cell) (n : nat) (order : list nat) : Prop := {
  r_len : length cs = S n;
  r_nodup : NoDup order;
  r_lt : forall p, In p order -> (p < n)%nat;
  r_chain : chain cs n order n;
  r_occ : forall p, (p < n)%nat -> nx cs p <> None -> In p order;
  r_item : forall p, In p order -> it cs p <> None }.

Lemma ring_head cs n order : ring cs n order -> head cs = n.
Proof. intros H. unfold head. rewrite (r_len _ _ _ H). reflexivity. Qed.
Lemma view_length cs n order : ring cs n order -> length (view cs) = n.
Proof.
  intros H. unfold LinkModel.view. rewrite map_length, firstn_length, (ring_head _ _ _ H), (r_len _ _ _ H). lia.
Qed.
Lemma chain_nx cs : forall l a h p, chain cs a l h -> In p (a :: l) -> nx cs p <> None.
Proof.
  induction l as [|b l IH]; cbn [chain]; intros a h p H [->|Hp].
  - destruct H; congruence.
  - contradiction.
  - destruct H; congruence.
  - destruct H as (_ & _ & H). exact (IH _ _ _ H Hp).
Qed.
Lemma nth_firstn {A} : forall (l : list A) n p, nth_error (firstn n l) p = if (p <? n)%nat then nth_error l p else None.
Proof.
  induction l as [|x l IH]; intros [|n] [|p]; cbn [firstn nth_error]; auto.
  - destruct (_ <? _)%nat; reflexivity.
  - exact (IH n p).
Qed.
Lemma nth_error_ext {A} : forall l l' : list A, (forall p, nth_error l p = nth_error l' p) -> l = l'.
Proof.
  induction l as [|x l IH]; intros [|y l'] H; auto; try (specialize (H 0%nat); discriminate).
  f_equal; [specialize (H 0%nat); cbn in H; congruence|]. apply IH. intros p. exact (H (S p)).
Qed.
Lemma nth_view cs p : nth_error (view cs) p =
  if (p <? head cs)%nat then option_map (@bucket_of K V) (nth_error cs p) else None.
Proof.
  unfold LinkModel.view. rewrite nth_error_map, nth_firstn. destruct (p <? head cs)%nat; reflexivity.
Qed.
Lemma view_in cs n order p : ring cs n order -> In p order ->
  exists kv, it cs p = Some kv /\ nth_error (view cs) p = Some (Some kv).
Proof.
  intros H Hp. pose proof (r_lt _ _ _ H _ Hp) as Hlt. pose proof (r_item _ _ _ H _ Hp) as Hi.
  destruct (it cs p) as [kv|] eqn:E; [|congruence]. exists kv. split; [reflexivity|].
  rewrite nth_view, (ring_head _ _ _ H), (proj2 (Nat.ltb_lt _ _) Hlt).
  pose proof (chain_nx _ _ _ _ p (r_chain _ _ _ H) (or_intror Hp)) as Hn.
  unfold it in E. unfold nx in Hn. destruct (nth_error cs p) as [c|]; [|discriminate].
  cbn. unfold bucket_of. destruct (nxt c) eqn:En; [f_equal; exact E|congruence].
Qed.
Lemma view_out cs n order p : ring cs n order -> (p < n)%nat -> ~ In p order ->
  nth_error (view cs) p = Some None.
Proof.
  intros H Hp Hni. rewrite nth_view, (ring_head _ _ _ H), (proj2 (Nat.ltb_lt _ _) Hp).
  destruct (nth_error cs p) as [c|] eqn:E; [|apply nth_error_None in E; rewrite (r_len _ _ _ H) in E; lia].
  cbn. unfold bucket_of. destruct (nxt c) as [y|] eqn:En; [|reflexivity].
  exfalso. apply Hni, (r_occ _ _ _ H _ Hp). unfold nx. rewrite E, En. discriminate.
Qed.
Lemma view_iff cs n order p kv : ring cs n order -> nth_error (view cs) p = Some (Some kv) ->
  In p order /\ it cs p = Some kv.
Proof.
  intros H E. assert (Hp : (p < n)%nat) by (rewrite <- (view_length _ _ _ H); eapply nth_lt; exact E).
  destruct (in_dec Nat.eq_dec p order) as [Hin|Hni].
  - destruct (view_in _ _ _ _ H Hin) as (kv' & E1 & E2). split; [exact Hin|congruence].
  - rewrite (view_out _ _ _ _ H Hp Hni) in E. discriminate.
Qed.
(* two lists of buckets with the same links and values *)
Lemma view_ext (cs cs' : list cell) : length cs' = length cs ->
  forall b : list (bucket K V), length b = head cs ->
  (forall p, (p < head cs)%nat -> nth_error b p = Some (match nx cs' p with Some _ => it cs' p | None => None end)) ->
  view cs' = b.
Proof.
  intros Hl b Hb H. apply nth_error_ext. intros p. rewrite nth_view.
  assert (Hh : head cs' = head cs) by (unfold head; congruence). rewrite Hh.
  destruct (Nat.ltb_spec p (head cs)) as [Hp|Hp].
  - rewrite (H p Hp). unfold nx, it, bucket_of.
    destruct (nth_error cs' p) as [c|] eqn:E; [reflexivity|].
    apply nth_error_None in E. unfold head in Hp. lia.
  - symmetry. apply nth_error_None. lia.
Qed.
Lemma view_at cs n order p : ring cs n order -> (p < n)%nat ->
  nth_error (view cs) p = Some (match nx cs p with Some _ => it cs p | None => None end).
Proof.
  intros H Hp. rewrite nth_view, (ring_head _ _ _ H), (proj2 (Nat.ltb_lt _ _) Hp).
  unfold nx, it, bucket_of. destruct (nth_error cs p) as [c|] eqn:E; [reflexivity|].
  apply nth_error_None in E. rewrite (r_len _ _ _ H) in E. lia.
Qed.

(* a value is put into a free bucket *)
Lemma ring_attach cs n order q kv : ring cs n order -> (q < n)%nat -> ~ In q order -> 
  exists c1 cs', upd cs q (fun c => set_item c kv) = Ok c1 /\ head c1 = n /\ attach c1 q n = Ok cs' /\
    ring cs' n (q :: order) /\ view cs' = set_nth (view cs) q (Some kv).
Proof.
  intros H Hq Hni. pose proof H as [Hl Hnd Hlt Hc Ho Hi].
  destruct (upd_item cs q kv ltac:(lia)) as (c1 & E1 & L1 & I1 & N1 & P1).
  set (x := match order with [] => n | y :: _ => y end).
  assert (Hx : nx c1 n = Some x) by (rewrite N1; unfold x; destruct order; apply Hc).
  assert (Hxl : (x <= n)%nat).
  { unfold x; destruct order as [|y l]; [lia|]. apply Nat.lt_le_incl, Hlt. left; reflexivity. }
  assert (Hxq : x <> q).
  { unfold x; destruct order as [|y l]; [lia|]. intros ->. apply Hni. left; reflexivity. }
  destruct (attach_ok c1 q n x) as (cs' & E2 & L2 & N2 & P2 & I2); try lia; try assumption.
  assert (Hh1 : head c1 = n) by (unfold head; rewrite L1, Hl; reflexivity).
  exists c1, cs'. split; [exact E1|]. split; [exact Hh1|]. split; [exact E2|].
  assert (Hqn : (q =? n)%nat = false) by (apply Nat.eqb_neq; lia).
  assert (Hnq : (n =? q)%nat = false) by (apply Nat.eqb_neq; lia).
  split.
  - split.
    + lia.
    + constructor; assumption.
    + intros p [<-|Hp]; auto.
    + cbn [chain]. rewrite N2, Nat.eqb_refl. split; [reflexivity|].
      rewrite P2, (proj2 (Nat.eqb_neq q x)) by congruence. rewrite Nat.eqb_refl. split; [reflexivity|].
      assert (Hnq' : nx cs' q = Some x) by (rewrite N2, Hqn, Nat.eqb_refl; reflexivity).
      assert (Hpx : pv cs' x = Some q) by (rewrite P2, Nat.eqb_refl; reflexivity).
      destruct order as [|y l]; cbn [chain]; [split; [exact Hnq'|exact Hpx]|].
      change x with y in *. split; [exact Hnq'|]. split; [exact Hpx|].
      cbn [chain] in Hc. destruct Hc as (_ & _ & Hc).
      apply NoDup_cons_iff in Hnd. destruct Hnd as [Hy Hl'].
      apply (chain_frame cs); [| |exact Hc].
      * intros i Hi'. assert (Hin : In i (y :: l)) by (cbn; intuition congruence).
        pose proof (Hlt _ Hin). rewrite N2, (proj2 (Nat.eqb_neq i n)) by lia.
        rewrite (proj2 (Nat.eqb_neq i q)) by (intros ->; contradiction). apply N1.
      * intros i Hi'. rewrite P2. pose proof (Hlt y (or_introl eq_refl)).
        rewrite (proj2 (Nat.eqb_neq i y)) by (destruct Hi' as [->|Hi']; [lia|intros ->; contradiction]).
        rewrite (proj2 (Nat.eqb_neq i q)) by (destruct Hi' as [->|Hi']; [lia|intros ->; apply Hni; right; exact Hi']).
        apply P1.
    + intros p Hp Hn. rewrite N2 in Hn. destruct (Nat.eqb_spec p n) as [|_]; [lia|].
      destruct (Nat.eqb_spec p q) as [->|]; [left; reflexivity|]. rewrite N1 in Hn. right. auto.
    + intros p [<-|Hp]; rewrite I2, I1.
      * rewrite Nat.eqb_refl. discriminate.
      * destruct (p =? q)%nat; [discriminate|auto].
  - apply (view_ext cs); [lia|rewrite set_nth_length, (view_length _ _ _ H), (ring_head _ _ _ H); reflexivity|].
    intros p Hp. rewrite (ring_head _ _ _ H) in Hp.
    rewrite nth_set by (rewrite (view_length _ _ _ H); exact Hq).
    rewrite N2, (proj2 (Nat.eqb_neq p n)) by lia. rewrite I2, I1, (Nat.eqb_sym p q).
    destruct (Nat.eqb_spec q p) as [->|]; [reflexivity|].
    rewrite (view_at _ _ _ _ H Hp), N1. reflexivity.
Qed.
(* a bucket is emptied *)
Lemma ring_detach cs n l1 p l2 : ring cs n (l1 ++ p :: l2) ->
  exists cs', detach cs p = Ok cs' /\ ring cs' n (l1 ++ l2) /\ view cs' = set_nth (view cs) p None.
Proof.
  intros H. pose proof H as [Hl Hnd Hlt Hc Ho Hi].
  apply chain_split in Hc. destruct Hc as [Hc1 Hc2].
  assert (Hpn : (p < n)%nat) by (apply Hlt, in_or_app; right; left; reflexivity).
  assert (Hnp : ~ In p (l1 ++ l2)) by (apply NoDup_remove_2; exact Hnd).
  assert (Hnd' : NoDup (l1 ++ l2)) by (eapply NoDup_remove_1; exact Hnd).
  assert (Ha : exists a, pv cs p = Some a /\ (a = n /\ l1 = [] \/ exists l, l1 = l ++ [a] /\ chain cs n l a)).
  { destruct l1 as [|z l _] using rev_ind.
    - exists n. cbn [chain] in Hc1. destruct Hc1; auto.
    - apply chain_split in Hc1. destruct Hc1 as [Hc0 [Hc1 Hc3]]. exists z. split; [exact Hc3|right; eauto]. }
  assert (Hb : exists b, nx cs p = Some b /\ (b = n /\ l2 = [] \/ exists l, l2 = b :: l /\ chain cs b l n)).
  { destruct l2 as [|z l].
    - exists n. cbn [chain] in Hc2. destruct Hc2; auto.
    - cbn [chain] in Hc2. destruct Hc2 as (Hc0 & _ & Hc3). exists z. split; [exact Hc0|right; eauto]. }
  destruct Ha as (a & Epa & Ha), Hb as (b & Enb & Hb).
  assert (Hain : a = n \/ In a l1) by (destruct Ha as [[]|(l & -> & _)]; [auto|right; apply in_or_app; right; left; reflexivity]).
  assert (Hbin : b = n \/ In b l2) by (destruct Hb as [[]|(l & -> & _)]; [auto|right; left; reflexivity]).
  assert (Hal : (a <= n)%nat) by (destruct Hain as [->|Hain]; [lia|apply Nat.lt_le_incl, Hlt, in_or_app; left; exact Hain]).
  assert (Hbl : (b <= n)%nat) by (destruct Hbin as [->|Hbin]; [lia|apply Nat.lt_le_incl, Hlt, in_or_app; right; right; exact Hbin]).
  assert (Hap : a <> p) by (destruct Hain as [->|Hain]; [lia|intros ->; apply Hnp, in_or_app; left; exact Hain]).
  assert (Hbp : b <> p) by (destruct Hbin as [->|Hbin]; [lia|intros ->; apply Hnp, in_or_app; right; exact Hbin]).
  destruct (detach_ok cs p a b) as (cs' & E & L & N & P & I); try lia; try assumption.
  exists cs'. split; [exact E|]. split; [split|].
  - lia.
  - exact Hnd'.
  - intros q Hq. apply Hlt. rewrite in_app_iff in *. cbn. tauto.
  - assert (Hab : nx cs' a = Some b) by (rewrite N, (proj2 (Nat.eqb_neq _ _) Hap), Nat.eqb_refl; reflexivity).
    assert (Hba : pv cs' b = Some a) by (rewrite P, (proj2 (Nat.eqb_neq _ _) Hbp), Nat.eqb_refl; reflexivity).
    assert (Hsafe : forall i, i <> p -> i <> a -> nx cs' i = nx cs i).
    { intros i H1 H2. rewrite N, (proj2 (Nat.eqb_neq _ _) H1), (proj2 (Nat.eqb_neq _ _) H2). reflexivity. }
    assert (Hsafe2 : forall i, i <> p -> i <> b -> pv cs' i = pv cs i).
    { intros i H1 H2. rewrite P, (proj2 (Nat.eqb_neq _ _) H1), (proj2 (Nat.eqb_neq _ _) H2). reflexivity. }
    (* what comes before *)
    assert (HA : forall i, In i l1 -> In i l2 -> False).
    { clear - Hnd'. induction l1 as [|y l1 IH]; intros i H1 H2; [contradiction|].
      cbn in Hnd'. inversion Hnd' as [|? ? Hy Hn]; subst. destruct H1 as [->|H1].
      - apply Hy, in_or_app; right; exact H2.
      - exact (IH Hn i H1 H2). }
    assert (Hn1 : ~ In n l1) by (intros Hx; assert (Hy : In n (l1 ++ p :: l2)) by (apply in_or_app; left; exact Hx); apply Hlt in Hy; lia).
    assert (Hn2 : ~ In n l2) by (intros Hx; assert (Hy : In n (l1 ++ p :: l2)) by (apply in_or_app; right; right; exact Hx); apply Hlt in Hy; lia).
    assert (HL : forall l, l1 = l ++ [a] -> chain cs n l a -> chain cs' n l a).
    { intros l El Hch. assert (Hla : ~ In a l).
      { intros Hx. subst l1. rewrite <- app_assoc in Hnd'. apply NoDup_remove_2 in Hnd'.
        apply Hnd', in_or_app; left; exact Hx. }
      assert (Hll : forall i, In i l -> In i l1) by (intros i Hx; subst l1; apply in_or_app; left; exact Hx).
      assert (Ha1 : In a l1) by (subst l1; apply in_or_app; right; left; reflexivity).
      apply (chain_frame cs); [| |exact Hch].
      - intros i [->|Hx]; apply Hsafe; try lia.
        + intros ->. contradiction.
        + intros ->. apply Hnp, in_or_app; left; auto.
        + intros ->. contradiction.
      - intros i [->|Hx]; apply Hsafe2; try assumption.
        + intros <-. destruct Hbin as [->|Hx]; [contradiction|exact (HA _ Ha1 Hx)].
        + intros ->. apply Hnp, in_or_app; left; auto.
        + intros ->. destruct Hbin as [->|Hy]; [apply Hn1; auto|exact (HA _ (Hll _ Hx) Hy)]. }
    assert (HR : forall l, l2 = b :: l -> chain cs b l n -> chain cs' b l n).
    { intros l El Hch. assert (Hlb : ~ In b l).
      { intros Hx. subst l2. apply NoDup_remove_2 in Hnd'. apply Hnd', in_or_app; right; exact Hx. }
      assert (Hll : forall i, In i l -> In i l2) by (intros i Hx; subst l2; right; exact Hx).
      assert (Hb2 : In b l2) by (subst l2; left; reflexivity).
      apply (chain_frame cs); [| |exact Hch].
      - intros i [->|Hx]; apply Hsafe; try assumption.
        + intros ->. destruct Hain as [->|Hx]; [contradiction|exact (HA _ Hx Hb2)].
        + intros ->. apply Hnp, in_or_app; right; auto.
        + intros ->. destruct Hain as [->|Hy]; [apply Hn2; auto|exact (HA _ Hy (Hll _ Hx))].
      - intros i [->|Hx]; apply Hsafe2; try lia.
        + intros ->. contradiction.
        + intros ->. apply Hnp, in_or_app; right; auto.
        + intros ->. contradiction. }
    destruct Ha as [[-> ->]|(l & El & Hch)], Hb as [[-> ->]|(l' & El' & Hch')].
    + cbn [app chain]. auto.
    + rewrite El'. cbn [app chain]. split; [exact Hab|]. split; [exact Hba|]. apply HR; assumption.
    + rewrite app_nil_r, El. apply chain_split. split; [apply HL; assumption|]. cbn [chain]. auto.
    + rewrite El, El', <- app_assoc. cbn [app]. apply chain_split. split; [apply HL; assumption|].
      cbn [chain]. split; [exact Hab|]. split; [exact Hba|]. apply HR; assumption.
  - intros q Hq Hn. rewrite N in Hn. destruct (Nat.eqb_spec q p) as [|Hne]; [congruence|].
    assert (Hin : In q (l1 ++ p :: l2)).
    { apply Ho; [exact Hq|]. destruct (Nat.eqb_spec q a) as [->|]; [|exact Hn].
      destruct Hain as [->|Hain]; [lia|].
      apply (chain_nx _ _ _ _ a (r_chain _ _ _ H)). right. apply in_or_app; left; exact Hain. }
    rewrite in_app_iff in *. cbn in Hin. intuition congruence.
  - intros q Hq. rewrite I. apply Hi. rewrite in_app_iff in *. cbn. tauto.
  - apply (view_ext cs); [lia|rewrite set_nth_length, (view_length _ _ _ H), (ring_head _ _ _ H); reflexivity|].
    intros q Hq. rewrite (ring_head _ _ _ H) in Hq.
    rewrite nth_set by (rewrite (view_length _ _ _ H); exact Hpn).
    rewrite N, I, (Nat.eqb_sym q p).
    destruct (Nat.eqb_spec p q) as [->|]; [reflexivity|].
    rewrite (view_at _ _ _ _ H Hq). destruct (Nat.eqb_spec q a) as [->|]; [|reflexivity].
    assert (Hx : nx cs a <> None).
    { destruct Hain as [->|Hain]; [lia|].
      apply (chain_nx _ _ _ _ a (r_chain _ _ _ H)). right. apply in_or_app; left; exact Hain. }
    destruct (nx cs a); [reflexivity|congruence].
Qed.
End Ring.
