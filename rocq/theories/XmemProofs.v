From Verif Require Import Base XmemModel XmemSpec.
From Coq Require Import Lia.

(* ---- sizes ---- *)
Lemma pool_ok : forall s, 0 <= s <= 2 ^ 63 ->
  exists i, pool_for_size s = Ok (i, 2 ^ i) /\ 5 <= i < 64 /\ s <= 2 ^ i /\ (i = 5 \/ 2 ^ (i - 1) < s).
Proof.
  intros s Hs. unfold pool_for_size. rewrite Z.gtb_ltb. destruct (32 <? s) eqn:E.
  - apply Z.ltb_lt in E. unfold lzcnt64. replace (s - 1 =? 0) with false by (symmetry; apply Z.eqb_neq; lia).
    assert (Hl : 5 <= Z.log2 (s - 1)) by (apply Z.log2_le_pow2; lia).
    assert (Hu : Z.log2 (s - 1) < 63) by (apply Z.log2_lt_pow2; lia).
    destruct (Z.log2_spec (s - 1) ltac:(lia)) as [H1 H2].
    set (k := Z.log2 (s - 1)) in *. replace (64 - (63 - k)) with (k + 1) by lia.
    replace (k + 1 <? 64) with true by (symmetry; apply Z.ltb_lt; lia).
    replace (Z.succ k) with (k + 1) in H2 by lia.
    replace (s <=? 2 ^ (k + 1)) with true by (symmetry; apply Z.leb_le; lia).
    exists (k + 1). split; [reflexivity|]. split; [lia|]. split; [lia|]. right.
    replace (k + 1 - 1) with k by lia. lia.
  - apply Z.ltb_ge in E. exists 5. split; [reflexivity|]. split; [lia|]. split; [change (2 ^ 5) with 32; lia|auto].
Qed.
Lemma pool_unique : forall s i, 0 <= s -> 5 <= i < 64 -> s <= 2 ^ i -> (i = 5 \/ 2 ^ (i - 1) < s) ->
  pool_for_size s = Ok (i, 2 ^ i).
Proof.
  intros s i Hs Hi Hle Hgt.
  assert (Hm : 2 ^ i <= 2 ^ 63) by (apply Z.pow_le_mono_r; lia).
  destruct (pool_ok s ltac:(lia)) as [j [Hj [Hj1 [Hj2 Hj3]]]].
  assert (i = j).
  { destruct (Z.lt_trichotomy i j) as [H|[H|H]]; [|assumption|].
    - destruct Hj3 as [->|Hj3]; [lia|]. assert (2 ^ i <= 2 ^ (j - 1)) by (apply Z.pow_le_mono_r; lia). lia.
    - destruct Hgt as [->|Hgt]; [lia|]. assert (2 ^ j <= 2 ^ (i - 1)) by (apply Z.pow_le_mono_r; lia). lia. }
  subst. assumption.
Qed.
Definition req_ok (r : req) : Prop :=
  0 <= r_elem r /\ 0 <= r_count r /\ 5 <= r_pool r < 64 /\ r_size r = 2 ^ r_pool r
  /\ r_elem r * r_count r <= r_size r /\ (r_pool r = 5 \/ 2 ^ (r_pool r - 1) < r_elem r * r_count r).
Definition final_count (r : req) : Z := if r_elem r >? 1 then r_size r / r_elem r else r_size r.

Lemma final_ok : forall r, req_ok r ->
  0 <= final_count r /\ r_elem r * final_count r <= r_size r
  /\ (0 < r_elem r -> r_count r <= final_count r)
  /\ pool_for_size ((r_elem r * final_count r) mod 2 ^ 64) = Ok (r_pool r, 2 ^ r_pool r).
Proof.
  intros r [He [Hc [Hp [Hs [Hle Hgt]]]]]. unfold final_count. rewrite Z.gtb_ltb.
  assert (Hpos : 0 < r_size r) by (rewrite Hs; apply Z.pow_pos_nonneg; lia).
  assert (Hb : r_size r <= 2 ^ 63) by (rewrite Hs; apply Z.pow_le_mono_r; lia).
  assert (Hm : forall x, 0 <= x <= r_size r -> (r_pool r = 5 \/ 2 ^ (r_pool r - 1) < x) ->
    pool_for_size (x mod 2 ^ 64) = Ok (r_pool r, 2 ^ r_pool r)).
  { intros x Hx Hg. rewrite Z.mod_small by lia. apply pool_unique; lia. }
  destruct (1 <? r_elem r) eqn:E.
  - apply Z.ltb_lt in E. assert (H0 : 0 <= r_size r / r_elem r) by (apply Z.div_pos; lia).
    assert (H1 : r_elem r * (r_size r / r_elem r) <= r_size r) by (apply Z.mul_div_le; lia).
    assert (H2 : r_count r <= r_size r / r_elem r) by (apply Z.div_le_lower_bound; lia).
    split; [assumption|]. split; [assumption|]. split; [auto|]. apply Hm; [nia|].
    destruct Hgt as [Hgt|Hgt]; [auto|]. right. nia.
  - apply Z.ltb_ge in E. assert (Hcase : r_elem r = 0 \/ r_elem r = 1) by lia.
    destruct Hcase as [He0|He1].
    + rewrite He0 in *. split; [lia|]. split; [lia|]. split; [lia|]. apply Hm; [lia|].
      destruct Hgt as [Hgt|Hgt]; [auto|]. exfalso.
      assert (0 < 2 ^ (r_pool r - 1)) by (apply Z.pow_pos_nonneg; lia). lia.
    + rewrite He1 in *. split; [lia|]. split; [lia|]. split; [lia|]. apply Hm; [lia|].
      destruct Hgt as [Hgt|Hgt]; [auto|]. right. lia.
Qed.

(* ---- linked lists ---- *)
Fixpoint chain (nx : Z -> Z) (h : Z) (l : list Z) : Prop :=
  match l with
  | [] => h = 0
  | a :: l => h = a /\ a <> 0 /\ chain nx (nx a) l
  end.
Lemma chain_ext : forall nx nx' l h, (forall a, In a l -> nx' a = nx a) -> chain nx h l -> chain nx' h l.
Proof.
  intros nx nx' l. induction l as [|a l IH]; intros h He H; [exact H|].
  destruct H as [H1 [H2 H3]]. split; [assumption|]. split; [assumption|].
  rewrite He by (left; reflexivity). apply IH; [|assumption]. intros b Hb. apply He. right. assumption.
Qed.
Lemma chain_list_at : forall c l h, chain (nxt c) h l <-> list_at c h l.
Proof.
  intros c l. induction l as [|a l IH]; intros h; split; intros H.
  - simpl in H. subst. constructor.
  - inversion H; subst. reflexivity.
  - destruct H as [-> [H1 H2]]. constructor; [assumption|]. apply IH. assumption.
  - inversion H; subst. split; [reflexivity|]. split; [assumption|]. apply IH. assumption.
Qed.
Lemma chain_null : forall nx l, chain nx 0 l -> l = [].
Proof. intros nx [|a l] H; [reflexivity|]. destruct H as [H1 [H2 _]]. congruence. Qed.
Lemma chain_cons : forall nx h l, chain nx h l -> h <> 0 -> exists r, l = h :: r /\ chain nx (nx h) r.
Proof.
  intros nx h [|a l] H Hh; [contradiction|]. destruct H as [<- [_ H]]. exists l. auto.
Qed.

(* ---- who owns a block ---- *)
Inductive place : Type := Nowhere | Pool (i : Z) | Thr (t : nat) | User.

Definition sized (sy : Z -> option Z) (i : Z) (l : list Z) : Prop := Forall (fun a => sy a = Some (2 ^ i)) l.

(* what a thread has: the blocks [l] *)
Definition has (nx : Z -> Z) (sy : Z -> option Z) (q : pc) (l : list Z) : Prop :=
  match q with
  | Idle => l = []
  | CXchg i => l = []
  | AXchg r opt => l = [] /\ req_ok r /\ opt <> bypass_cache
  | ANew r => l = [] /\ req_ok r
  | ANext r b | ARest r b => chain nx b l /\ b <> 0 /\ req_ok r /\ sized sy (r_pool r) l
  | APut r b n | ALink r b n =>
      exists l', l = b :: l' /\ b <> 0 /\ chain nx n l' /\ req_ok r /\ sized sy (r_pool r) l
  | AHand r b => l = [b] /\ req_ok r /\ sized sy (r_pool r) l
  | Del (KAlloc r b) p =>
      exists l', l = b :: l' /\ chain nx p l' /\ req_ok r /\ sized sy (r_pool r) l
  | Del2 (KAlloc r b) p n =>
      exists l', l = b :: p :: l' /\ chain nx n l' /\ req_ok r /\ sized sy (r_pool r) l
  | Del _ p => chain nx p l
  | Del2 _ p n => exists l', l = p :: l' /\ chain nx n l'
  | FNull i b _ | FLoad i b | FStore i b _ | FCas i b | FTake i b =>
      l = [b] /\ b <> 0 /\ 5 <= i < 64 /\ sized sy i l
  | FLink i b v => exists l', l = b :: l' /\ b <> 0 /\ chain nx v l'
  end.

Definition pool_inv (c : config) (o : Z -> place) (i : Z) : Prop :=
  exists l, NoDup l /\ (forall a, In a l <-> o a = Pool i) /\ chain (nxt c) (head c i) l
    /\ sized (sys c) i l /\ (l <> [] -> 5 <= i < 64).
Definition thr_inv (c : config) (o : Z -> place) (t : nat) : Prop :=
  exists l, NoDup l /\ (forall a, In a l <-> o a = Thr t) /\ has (nxt c) (sys c) (thr c t) l.
Definition entry_ok (sy : Z -> option Z) (f : info) : Prop :=
  exists r, req_ok r /\ sy (i_data f) = Some (r_size r) /\ i_size f = r_elem r
    /\ i_count f = final_count r /\ i_wanted f = r_count r.
Definition live_inv (c : config) (o : Z -> place) : Prop :=
  NoDup (map i_data (live c)) /\ (forall a, In a (map i_data (live c)) <-> o a = User)
  /\ Forall (entry_ok (sys c)) (live c).
Definition inv (c : config) : Prop := exists o,
  (forall a, sys c a <> None <-> o a <> Nowhere) /\ o 0 = Nowhere
  /\ (forall i, pool_inv c o i) /\ (forall t, thr_inv c o t) /\ live_inv c o.

(* the blocks at a place are as they were *)
Definition keeps (c : config) (o : Z -> place) (c' : config) (o' : Z -> place) (p : place) : Prop :=
  forall a, (o a = p <-> o' a = p) /\ (o a = p -> nxt c' a = nxt c a /\ sys c' a = sys c a).

Lemma sized_ext : forall sy sy' i l, (forall a, In a l -> sy' a = sy a) -> sized sy i l -> sized sy' i l.
Proof.
  intros sy sy' i l He H. unfold sized in *. rewrite Forall_forall in *. intros a Ha. rewrite He by assumption. auto.
Qed.
Lemma has_ext : forall nx sy nx' sy' q l, (forall a, In a l -> nx' a = nx a /\ sy' a = sy a) ->
  has nx sy q l -> has nx' sy' q l.
Proof.
  intros nx sy nx' sy' q l He H.
  assert (Hc : forall l' h, incl l' l -> chain nx h l' -> chain nx' h l').
  { intros l' h Hi. apply chain_ext. intros a Ha. apply He. auto. }
  assert (Hz : forall i, sized sy i l -> sized sy' i l).
  { intros i. apply sized_ext. intros a Ha. apply He. assumption. }
  destruct q; simpl in *; try exact H.
  - destruct H as [H1 [H2 [H3 H4]]]. split; [apply Hc; [apply incl_refl|assumption]|auto].
  - destruct H as [l' [-> [H1 [H2 [H3 H4]]]]]. exists l'. split; [reflexivity|]. split; [assumption|].
    split; [apply Hc; [apply incl_tl, incl_refl|assumption]|auto].
  - destruct H as [l' [-> [H1 [H2 [H3 H4]]]]]. exists l'. split; [reflexivity|]. split; [assumption|].
    split; [apply Hc; [apply incl_tl, incl_refl|assumption]|auto].
  - destruct H as [H1 [H2 [H3 H4]]]. split; [apply Hc; [apply incl_refl|assumption]|auto].
  - destruct H as [H1 [H2 H3]]. auto.
  - destruct k; [|apply Hc; [apply incl_refl|assumption]|apply Hc; [apply incl_refl|assumption]].
    destruct H as [l' [-> [H2 [H3 H4]]]]. exists l'. split; [reflexivity|].
    split; [apply Hc; [apply incl_tl, incl_refl|assumption]|auto].
  - destruct k.
    + destruct H as [l' [-> [H2 [H3 H4]]]]. exists l'. split; [reflexivity|].
      split; [apply Hc; [apply incl_tl, incl_tl, incl_refl|assumption]|auto].
    + destruct H as [l' [-> H2]]. exists l'. split; [reflexivity|]. apply Hc; [apply incl_tl, incl_refl|assumption].
    + destruct H as [l' [-> H2]]. exists l'. split; [reflexivity|]. apply Hc; [apply incl_tl, incl_refl|assumption].
  - destruct H as [H1 [H2 [H3 H4]]]. auto.
  - destruct H as [H1 [H2 [H3 H4]]]. auto.
  - destruct H as [H1 [H2 [H3 H4]]]. auto.
  - destruct H as [H1 [H2 [H3 H4]]]. auto.
  - destruct H as [H1 [H2 [H3 H4]]]. auto.
  - destruct H as [l' [-> [H2 H3]]]. exists l'. split; [reflexivity|]. split; [assumption|].
    apply Hc; [apply incl_tl, incl_refl|assumption].
Qed.

Lemma pool_keep : forall c o c' o' i, keeps c o c' o' (Pool i) -> head c' i = head c i ->
  pool_inv c o i -> pool_inv c' o' i.
Proof.
  intros c o c' o' i Hk Hh [l [H1 [H2 [H3 [H4 H5]]]]].
  assert (He : forall a, In a l -> nxt c' a = nxt c a /\ sys c' a = sys c a).
  { intros a Ha. apply H2 in Ha. apply (Hk a). assumption. }
  exists l. split; [assumption|]. split; [intros a; rewrite H2; apply Hk|].
  split; [rewrite Hh; eapply chain_ext; [|exact H3]; intros a Ha; apply He; assumption|].
  split; [|assumption]. eapply sized_ext; [|exact H4]. intros a Ha. apply He. assumption.
Qed.
Lemma thr_keep : forall c o c' o' t, keeps c o c' o' (Thr t) -> thr c' t = thr c t ->
  thr_inv c o t -> thr_inv c' o' t.
Proof.
  intros c o c' o' t Hk Hh [l [H1 [H2 H3]]]. exists l. split; [assumption|].
  split; [intros a; rewrite H2; apply Hk|]. rewrite Hh. eapply has_ext; [|exact H3].
  intros a Ha. apply H2 in Ha. apply (Hk a). assumption.
Qed.
Lemma live_keep : forall c o c' o', keeps c o c' o' User -> live c' = live c ->
  live_inv c o -> live_inv c' o'.
Proof.
  intros c o c' o' Hk Hl [H1 [H2 H3]]. unfold live_inv. rewrite Hl. split; [assumption|].
  split; [intros a; rewrite H2; apply Hk|]. rewrite Forall_forall in *. intros f Hf.
  destruct (H3 f Hf) as [r [Hr [Hs Hx]]]. exists r. split; [assumption|]. split; [|assumption].
  rewrite <- Hs. apply (Hk (i_data f)). apply H2. apply in_map. assumption.
Qed.

(* a step that moves no block *)
Lemma inv_local : forall c o c' t,
  (forall a, sys c a <> None <-> o a <> Nowhere) -> o 0 = Nowhere ->
  (forall i, pool_inv c o i) -> (forall t, thr_inv c o t) -> live_inv c o ->
  sys c' = sys c -> head c' = head c -> live c' = live c ->
  (forall t', t' <> t -> thr c' t' = thr c t') ->
  (forall a, o a <> Thr t -> nxt c' a = nxt c a) ->
  thr_inv c' o t -> inv c'.
Proof.
  intros c o c' t H1 H2 H3 H4 H5 Hs Hh Hl Ht Hn H6.
  assert (Hk : forall p, p <> Thr t -> keeps c o c' o p).
  { intros p Hp a. split; [tauto|]. intros Ha. split; [apply Hn; congruence|rewrite Hs; reflexivity]. }
  exists o. split; [intros a; rewrite Hs; apply H1|]. split; [assumption|].
  split; [|split].
  - intros i. eapply pool_keep; [apply Hk; discriminate|rewrite Hh; reflexivity|apply H3].
  - intros t'. destruct (Nat.eq_dec t' t) as [->|Hne]; [assumption|].
    eapply thr_keep; [apply Hk; congruence|apply Ht; assumption|apply H4].
  - eapply live_keep; [apply Hk; discriminate|assumption|assumption].
Qed.

Lemma nupd_eq : forall B (f : nat -> B) x v, nupd f x v x = v.
Proof. intros. unfold nupd. rewrite Nat.eqb_refl. reflexivity. Qed.
Lemma nupd_ne : forall B (f : nat -> B) x v y, y <> x -> nupd f x v y = f y.
Proof. intros. unfold nupd. apply Nat.eqb_neq in H. rewrite H. reflexivity. Qed.
Lemma zupd_eq : forall B (f : Z -> B) x v, zupd f x v x = v.
Proof. intros. unfold zupd. rewrite Z.eqb_refl. reflexivity. Qed.
Lemma zupd_ne : forall B (f : Z -> B) x v y, y <> x -> zupd f x v y = f y.
Proof. intros. unfold zupd. apply Z.eqb_neq in H. rewrite H. reflexivity. Qed.

Lemma remove_nth_in : forall B (l : list B) k f, nth_error l k = Some f ->
  forall x, In x l <-> x = f \/ In x (remove_nth k l).
Proof.
  induction l as [|y l IH]; intros k f H x; [destruct k; discriminate|]. destruct k as [|k]; simpl in *.
  - injection H as ->. intuition.
  - rewrite (IH _ _ H). intuition.
Qed.
Lemma remove_nth_map : forall B C (g : B -> C) (l : list B) k, map g (remove_nth k l) = remove_nth k (map g l).
Proof. induction l as [|y l IH]; intros [|k]; simpl; try reflexivity. f_equal. apply IH. Qed.
Lemma remove_nth_nodup : forall B (l : list B) k f, NoDup l -> nth_error l k = Some f ->
  NoDup (remove_nth k l) /\ ~ In f (remove_nth k l).
Proof.
  induction l as [|y l IH]; intros k f Hn H; [destruct k; discriminate|]. inversion Hn; subst.
  destruct k as [|k]; simpl in *.
  - injection H as ->. auto.
  - destruct (IH _ _ H3 H) as [Ha Hb]. split.
    + constructor; [|assumption]. intros Hin. apply H2. apply (remove_nth_in _ _ _ _ H). auto.
    + intros [->|Hin]; [|auto]. apply H2. apply nth_error_In in H. assumption.
Qed.
Lemma map_nth_error' : forall B C (g : B -> C) l k f, nth_error l k = Some f -> nth_error (map g l) k = Some (g f).
Proof. intros. apply map_nth_error. assumption. Qed.

Definition place_eqb (p q : place) : bool :=
  match p, q with
  | Nowhere, Nowhere | User, User => true
  | Pool i, Pool j => i =? j
  | Thr s, Thr t => Nat.eqb s t
  | _, _ => false
  end.
Lemma place_eqb_eq : forall p q, place_eqb p q = true <-> p = q.
Proof.
  intros [|i|s|] [|j|t|]; simpl; try (split; congruence).
  - rewrite Z.eqb_eq. split; congruence.
  - rewrite Nat.eqb_eq. split; congruence.
Qed.

(* a step that gives block [b] of one place to another *)
Definition give (o : Z -> place) (b : Z) (p : place) : Z -> place := zupd o b p.
Lemma give_eq : forall o b p, give o b p b = p.
Proof. intros. apply zupd_eq. Qed.
Lemma give_ne : forall o b p a, a <> b -> give o b p a = o a.
Proof. intros. apply zupd_ne. assumption. Qed.
(* the pool of size [i] and thread [t] exchange blocks: [l] for the thread, the
   rest of what they had for the pool *)
Definition memb (a : Z) (l : list Z) : bool := existsb (Z.eqb a) l.
Lemma memb_in : forall a l, memb a l = true <-> In a l.
Proof.
  intros a l. unfold memb. rewrite existsb_exists. split.
  - intros [x [H1 H2]]. apply Z.eqb_eq in H2. subst. assumption.
  - intros H. exists a. split; [assumption|apply Z.eqb_refl].
Qed.
Definition swap (o : Z -> place) (i : Z) (lp : list Z) (t : nat) (lt : list Z) : Z -> place :=
  fun a => if memb a lp then Pool i else if memb a lt then Thr t else o a.
