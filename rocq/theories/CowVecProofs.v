From Verif Require Import Base Monad Lists SeqModel SeqProofs CowBase CowVecModel CowVecSpec.

Section Proofs.
Context {A : Type}.
Implicit Types (m : mem A) (v : values A) (l xs : list A).

(* ---- lists ---- *)
Lemma upd_set v h x : (h < length v)%nat -> upd v h x = set_nth v h x.
Proof.
  unfold upd; revert h; induction v as [|y v IH]; intros [|h]; cbn; intros H; try lia; auto.
  f_equal; apply IH; lia.
Qed.
Lemma val_nth v h x : val v h = Some x -> nth_error v h = Some (Some x).
Proof. unfold val; destruct (nth_error v h) as [[y|]|]; congruence. Qed.
Lemma nth_mid {B} (a : list B) x b : nth_error (a ++ x :: b) (length a) = Some x.
Proof. rewrite nth_error_app2, Nat.sub_diag by lia; reflexivity. Qed.
Lemma set_mid {B} (a : list B) x y b : set_nth (a ++ x :: b) (length a) y = a ++ y :: b.
Proof. induction a as [|z a IH]; cbn; [reflexivity|f_equal; exact IH]. Qed.
Lemma repeat_snoc {B} (x : B) n t : repeat x n ++ x :: t = repeat x (S n) ++ t.
Proof. induction n as [|n IH]; cbn; [reflexivity|f_equal; exact IH]. Qed.

(* ---- blocks ---- *)
Definition full (e : nat) l (k : nat) : list (cell A) := repeat Raw e ++ map Val l ++ repeat Raw k.
Definition Blk (n : Z) (e : nat) l (k : nat) : storage A :=
  Storage n (e + length l) e (full e l k).
(* elements between nskip and nelem and nowhere else *)
Definition sane (b : storage A) : Prop :=
  exists a mid k, data b = repeat Raw a ++ mid ++ repeat Raw k /\ Forall (fun c => c <> Raw) mid /\
    nskip b = a /\ nelem b = (a + length mid)%nat.
Lemma all_val l : Forall (fun c : cell A => c <> Raw) (map Val l).
Proof. induction l; cbn; constructor; auto; discriminate. Qed.
Lemma all_moved n : Forall (fun c : cell A => c <> Raw) (repeat Moved n).
Proof. induction n; cbn; constructor; auto; discriminate. Qed.
Lemma all_raw n : Forall (fun c : cell A => c = Raw) (repeat Raw n).
Proof. induction n; cbn; constructor; auto. Qed.
Lemma sane_blk n e l k : sane (Blk n e l k).
Proof. exists e, (map Val l), k; cbn; rewrite map_length; repeat split; apply all_val. Qed.
Lemma sane_moved n i k : sane (Storage n i 0 (repeat Moved i ++ repeat Raw k)).
Proof. exists 0%nat, (repeat Moved i), k; cbn; rewrite repeat_length; repeat split; apply all_moved. Qed.
Lemma destroy_ok a mid rest : Forall (fun c : cell A => c <> Raw) mid ->
  destroy_from (length mid) a (repeat Raw a ++ mid ++ rest) = Ok (repeat Raw a ++ repeat Raw (length mid) ++ rest).
Proof.
  revert rest; induction mid as [|c mid IH] using rev_ind; intros rest H; [reflexivity|].
  apply Forall_app in H as [H Hc]; inversion Hc as [|c' ? Hc1 _]; subst c'.
  rewrite app_length; cbn [length]; rewrite Nat.add_1_r; cbn [destroy_from].
  assert (E : repeat Raw a ++ (mid ++ [c]) ++ rest = (repeat Raw a ++ mid) ++ c :: rest)
    by (rewrite <- !app_assoc; reflexivity).
  assert (El : (a + length mid)%nat = length (repeat (@Raw A) a ++ mid)) by (rewrite app_length, repeat_length; reflexivity).
  rewrite E, El, nth_mid, set_mid, <- app_assoc, (IH (Raw :: rest) H), repeat_snoc.
  destruct c; [congruence|reflexivity|reflexivity].
Qed.
Lemma sane_destroy b : sane b ->
  exists d, destroy_from (nelem b - nskip b) (nskip b) (data b) = Ok d /\ Forall (fun c => c = Raw) d.
Proof.
  intros (a & mid & k & Ed & Hm & -> & ->); rewrite Ed.
  replace (a + length mid - a)%nat with (length mid) by lia.
  eexists; split; [apply destroy_ok; exact Hm|].
  apply Forall_app; split; [apply all_raw|apply Forall_app; split; apply all_raw].
Qed.

Definition heap_ok m (ex : list (option nat)) : Prop :=
  forall s, match nth_error (blocks m) s with
            | Some (Live b) => nref b = owners (objs m) s + occ ex s /\ 0 < nref b /\ sane b
            | Some (Gone d) => owners (objs m) s + occ ex s = 0 /\ Forall (fun c => c = Raw) d
            | None => owners (objs m) s + occ ex s = 0
            end.
Definition fine m (o : option (option nat)) (x : option (list A)) : Prop :=
  match o, x with
  | Some None, Some l => l = []
  | Some (Some s), Some l => exists n k, nth_error (blocks m) s = Some (Live (Blk n 0 l k))
  | None, None => True
  | _, _ => False
  end.
(* vectors have their values, except for the one in [hole] *)
Definition vals m v (hole : option nat) : Prop :=
  length (objs m) = length v /\
  forall h o x, Some h <> hole -> nth_error (objs m) h = Some o -> nth_error v h = Some x ->
    fine m o x.
Definition good m v (ex : list (option nat)) (hole : option nat) : Prop :=
  heap_ok m ex /\ vals m v hole.
Definition mine m (s : nat) (hole : option nat) : Prop :=
  forall h, Some h <> hole -> nth_error (objs m) h <> Some (Some (Some s)).
Definition live m (s : nat) (b : storage A) : Prop := nth_error (blocks m) s = Some (Live b).
(* memory keeps its blocks, apart from counts *)
Definition keeps m m' : Prop :=
  objs m' = objs m /\
  forall s n ne ns d, live m s (Storage n ne ns d) -> exists n', live m' s (Storage n' ne ns d).

Lemma good_hole m v ex hole : good m v ex None -> good m v ex hole.
Proof.
  intros [Hh [Hl Hv]]; split; [exact Hh|split; [exact Hl|]].
  intros h o x _; apply Hv; discriminate.
Qed.
Lemma good_none m v ex hole : good m v ex hole -> good m v (None :: ex) hole.
Proof. intros H; exact H. Qed.
Lemma fine_keeps m m' o x : keeps m m' -> fine m o x -> fine m' o x.
Proof.
  intros [_ Hk]; destruct o as [[s|]|], x as [l|]; cbn; auto.
  intros (n & k & Hb); destruct (Hk _ _ _ _ _ Hb) as [n' Hb']; exists n', k; exact Hb'.
Qed.
Lemma keeps_refl m : keeps m m.
Proof. split; [reflexivity|]; eauto. Qed.

Lemma block_live m s b : live m s b -> block m s = Ok b.
Proof. unfold live, block; intros ->; reflexivity. Qed.

Lemma good_view m v ex h l : good m v ex None -> val v h = Some l ->
  exists o, nth_error (objs m) h = Some (Some o) /\ nth_error v h = Some (Some l) /\
    obj m h = Ok o /\
    match o with
    | None => l = []
    | Some s => exists n k, live m s (Blk n 0 l k) /\ 0 < n /\
        (n = 1 -> mine m s (Some h) /\ occ ex s = 0)
    end.
Proof.
  intros [Hh [Hl Hv]] E; apply val_nth in E.
  pose proof (nth_lt _ _ _ E) as Hlt; rewrite <- Hl in Hlt.
  destruct (nth_error (objs m) h) as [o|] eqn:Eo; [|apply nth_error_None in Eo; lia].
  specialize (Hv h o (Some l) ltac:(discriminate) Eo E).
  destruct o as [o|]; [|destruct Hv].
  exists o; split; [reflexivity|split; [exact E|split; [unfold obj; rewrite Eo; reflexivity|]]].
  destruct o as [s|]; [|exact Hv].
  destruct Hv as (n & k & Hb); exists n, k; split; [exact Hb|].
  specialize (Hh s); rewrite Hb in Hh; cbn [nref Blk] in Hh; split; [lia|].
  pose proof (owners_one _ _ _ s Eo) as H1; cbn [osth] in H1; rewrite hit_self in H1.
  pose proof (occ_nonneg ex s) as He.
  intros ->; split; [|lia].
  intros h' Hn Ho'.
  pose proof (owners_two _ h _ h' _ s ltac:(congruence) Eo Ho') as H2; cbn [osth] in H2.
  rewrite hit_self in H2; lia.
Qed.

(* ---- elementary steps ---- *)
Lemma set_live m s b s' : live m s b ->
  forall b', nth_error (blocks (set_block m s b')) s' = if (s =? s')%nat then Some b' else nth_error (blocks m) s'.
Proof. intros H b'; cbn; apply nth_set; eapply nth_lt; exact H. Qed.

Lemma acquire_ok m v ex hole x : good m v ex hole ->
  (forall s, x = Some s -> exists b, live m s b) ->
  exists m', acquire m x = Ok m' /\ good m' v (x :: ex) hole /\ keeps m m'.
Proof.
  intros [Hh Hv] Ha; destruct x as [s|].
  2: { exists m; split; [reflexivity|split; [|apply keeps_refl]].
       split; [|exact Hv]; intros s; specialize (Hh s); cbn; exact Hh. }
  destruct (Ha s eq_refl) as [b Eb]; cbn [acquire]; rewrite (block_live _ _ _ Eb); cbn [obind].
  set (nb := Storage (nref b + 1) (nelem b) (nskip b) (data b)).
  assert (Hk : keeps m (set_block m s (Live nb))).
  { split; [reflexivity|]; intros s' n ne ns d Hd; unfold live.
    rewrite (set_live _ _ _ _ Eb); destruct (Nat.eqb_spec s s') as [E|Hn].
    - subst s'; unfold live in *; rewrite Eb in Hd; injection Hd as ->; eexists; reflexivity.
    - exists n; exact Hd. }
  eexists; split; [reflexivity|split; [|exact Hk]].
  split.
  - intros s'; specialize (Hh s'); rewrite (set_live _ _ _ _ Eb); cbn [objs set_block occ hit].
    unfold live in Eb; destruct (Nat.eqb_spec s s') as [E|Hn].
    + subst s'; rewrite Eb in Hh; cbn [nref nb]; split; [lia|split; [lia|]].
      destruct Hh as (_ & _ & (a & mid & k & H)); exists a, mid, k; exact H.
    + destruct (nth_error (blocks m) s') as [[b'|d]|]; [|split; [lia|apply Hh]|lia].
      split; [lia|split; [lia|apply Hh]].
  - destruct Hv as [Hl Hv]; split; [exact Hl|].
    intros h o x Hn Ho Hx; cbn in Ho; eapply fine_keeps; [apply Hk|]; eauto.
Qed.

Lemma release_ok m v ex hole x : good m v (x :: ex) hole ->
  exists m', release m x = Ok m' /\ good m' v ex hole.
Proof.
  intros [Hh [Hl Hv]]; destruct x as [s|].
  2: { exists m; split; [reflexivity|]; split; [|split; auto].
       intros s; specialize (Hh s); cbn in Hh; exact Hh. }
  pose proof (Hh s) as Hs; cbn [occ] in Hs; rewrite hit_self in Hs.
  pose proof (owners_nonneg (objs m) s) as Ho0; pose proof (occ_nonneg ex s) as He0.
  destruct (nth_error (blocks m) s) as [[b|d]|] eqn:Eb; [|lia|lia].
  cbn [release]; rewrite (block_live _ _ _ Eb); cbn [obind].
  destruct Hs as (Hn & Hp & Hs).
  destruct (Z.eqb_spec (nref b - 1) 0) as [Ez|Ez].
  - destruct (sane_destroy _ Hs) as (d & -> & Hd); cbn [obind].
    eexists; split; [reflexivity|]; split.
    + intros s'; specialize (Hh s'); rewrite (set_live _ _ _ _ Eb); cbn [objs set_block occ hit] in *.
      destruct (Nat.eqb_spec s s') as [E|Hne].
      * subst s'; split; [lia|exact Hd].
      * destruct (nth_error (blocks m) s') as [[b'|d']|]; [|split; [lia|apply Hh]|lia].
        split; [lia|split; [lia|apply Hh]].
    + split; [exact Hl|]; intros h o y Hne Ho Hy; cbn in Ho; specialize (Hv h o y Hne Ho Hy).
      destruct o as [[s'|]|], y as [l|]; cbn [fine] in *; auto.
      rewrite (set_live _ _ _ _ Eb); destruct (Nat.eqb_spec s s') as [E|Hne']; [|exact Hv].
      subst s'; pose proof (owners_one _ _ _ s Ho) as H1; cbn [osth] in H1; rewrite hit_self in H1; lia.
  - eexists; split; [reflexivity|]; split.
    + intros s'; specialize (Hh s'); rewrite (set_live _ _ _ _ Eb); cbn [objs set_block occ hit] in *.
      destruct (Nat.eqb_spec s s') as [E|Hne].
      * subst s'; cbn [nref]; split; [lia|split; [lia|]].
        destruct Hs as (a & mid & k & H); exists a, mid, k; exact H.
      * destruct (nth_error (blocks m) s') as [[b'|d']|]; [|split; [lia|apply Hh]|lia].
        split; [lia|split; [lia|apply Hh]].
    + split; [exact Hl|]; intros h o y Hne Ho Hy; cbn in Ho; specialize (Hv h o y Hne Ho Hy).
      destruct o as [[s'|]|], y as [l|]; cbn [fine] in *; auto.
      rewrite (set_live _ _ _ _ Eb); destruct (Nat.eqb_spec s s') as [E|Hne']; [|exact Hv].
      subst s'; destruct Hv as (n & k & Hb); rewrite Eb in Hb; injection Hb as ->.
      eexists _, k; reflexivity.
Qed.

Lemma fine_blocks m m' o x : blocks m' = blocks m -> fine m o x -> fine m' o x.
Proof. unfold fine; intros ->; auto. Qed.

Lemma set_obj_ok m v ex hole h o o' x : good m v (osth o' :: ex) hole ->
  hole = None \/ hole = Some h ->
  nth_error (objs m) h = Some o -> fine m o' x ->
  good (set_obj m h o') (set_nth v h x) (osth o :: ex) None.
Proof.
  intros [Hh [Hl Hv]] Hole Eo Hf; pose proof (nth_lt _ _ _ Eo) as Hlt; split.
  - intros s; specialize (Hh s); cbn [blocks objs set_obj occ] in *.
    rewrite (owners_set _ _ _ _ s Eo).
    destruct (nth_error (blocks m) s) as [[b|d]|]; [|split; [lia|apply Hh]|lia].
    split; [lia|split; [lia|apply Hh]].
  - split; [cbn; rewrite !set_nth_length; exact Hl|].
    intros h' p y _; cbn [objs set_obj].
    rewrite !nth_set by lia; destruct (Nat.eqb_spec h h') as [E|Hn].
    + intros [= <-] [= <-]; eapply fine_blocks; [|exact Hf]; reflexivity.
    + intros Hp Hy; assert (Hn2 : Some h' <> hole) by (destruct Hole; congruence).
      specialize (Hv h' p y Hn2 Hp Hy); eapply fine_blocks; [|exact Hv]; reflexivity.
Qed.
Lemma new_obj_ok m v ex o x : good m v (o :: ex) None -> fine m (Some o) (Some x) ->
  good (new_obj m o) (v ++ [Some x]) ex None.
Proof.
  intros [Hh [Hl Hv]] Hf; split.
  - intros s; specialize (Hh s); cbn [blocks objs new_obj occ] in *.
    rewrite owners_app; cbn [owners osth].
    destruct (nth_error (blocks m) s) as [[b|d]|]; [|split; [lia|apply Hh]|lia].
    split; [lia|split; [lia|apply Hh]].
  - split; [cbn; rewrite !app_length, Hl; reflexivity|].
    intros h p y _; cbn [objs new_obj]; rewrite !nth_snoc, Hl.
    destruct (Nat.ltb_spec h (length v)).
    + intros Hp Hy; specialize (Hv h p y ltac:(discriminate) Hp Hy).
      eapply fine_blocks; [|exact Hv]; reflexivity.
    + destruct (Nat.eqb_spec h (length v)); [|discriminate].
      intros [= <-] [= <-]; eapply fine_blocks; [|exact Hf]; reflexivity.
Qed.
Lemma set_two_ok m v ex h j o p o' p' x y : good m v ex None -> h <> j ->
  nth_error (objs m) h = Some o -> nth_error (objs m) j = Some p ->
  (forall s, hit s (osth o') + hit s (osth p') = hit s (osth o) + hit s (osth p)) ->
  fine m o' x -> fine m p' y ->
  good (set_obj (set_obj m j p') h o') (set_nth (set_nth v j y) h x) ex None.
Proof.
  intros [Hh [Hl Hv]] Hne Eo Ep Hs Hfo Hfp.
  pose proof (nth_lt _ _ _ Eo) as Hlt; pose proof (nth_lt _ _ _ Ep) as Hlt'; split.
  - intros s; specialize (Hh s); specialize (Hs s); cbn [blocks objs set_obj] in *.
    rewrite (owners_set _ h o), (owners_set _ _ _ _ s Ep)
      by (rewrite nth_set_other by lia; exact Eo).
    destruct (nth_error (blocks m) s) as [[b|d]|]; [|split; [lia|apply Hh]|lia].
    split; [lia|split; [lia|apply Hh]].
  - split; [cbn; rewrite !set_nth_length; exact Hl|].
    intros h' q z _; cbn [objs set_obj].
    rewrite !nth_set by (rewrite ?set_nth_length; lia).
    destruct (Nat.eqb_spec h h') as [Eh|Hn].
    + intros [= <-] [= <-]; eapply fine_blocks; [|exact Hfo]; reflexivity.
    + destruct (Nat.eqb_spec j h') as [Ej|Hn'].
      * intros [= <-] [= <-]; eapply fine_blocks; [|exact Hfp]; reflexivity.
      * intros Hp Hy; specialize (Hv h' q z ltac:(discriminate) Hp Hy).
        eapply fine_blocks; [|exact Hv]; reflexivity.
Qed.
Lemma with_ok m v ex hole s b b' : good m v ex hole -> live m s b -> nref b' = nref b -> sane b' ->
  b' = b \/ mine m s hole -> good (set_block m s (Live b')) v ex hole.
Proof.
  intros [Hh [Hl Hv]] Hb Hn Hs Hm; split.
  - intros s'; specialize (Hh s'); rewrite (set_live _ _ _ _ Hb); cbn [objs set_block].
    destruct (Nat.eqb_spec s s') as [E|Hne]; [|exact Hh].
    subst s'; unfold live in Hb; rewrite Hb in Hh; rewrite Hn; split; [lia|split; [lia|exact Hs]].
  - split; [exact Hl|]; intros h o x Hne Ho Hx; cbn in Ho; specialize (Hv h o x Hne Ho Hx).
    destruct o as [[s'|]|], x as [l|]; cbn [fine] in *; auto.
    rewrite (set_live _ _ _ _ Hb); destruct (Nat.eqb_spec s s') as [E|Hne']; [|exact Hv].
    subst s'; destruct Hm as [->|Hm]; [unfold live in Hb; rewrite Hb in Hv; exact Hv|].
    exfalso; exact (Hm h Hne Ho).
Qed.
(* change the elements of a vector that shares them with none *)
Lemma inplace_ok m v h s b b' k x y : good m v [] None -> nth_error (objs m) h = Some (Some (Some s)) ->
  nth_error v h = Some (Some x) ->
  live m s b -> nref b = 1 -> mine m s (Some h) -> b' = Blk 1 0 y k ->
  good (set_block m s (Live b')) (set_nth v h (Some y)) [] None.
Proof.
  intros Hg Eo Ev Hb H1 Hm ->.
  assert (Hg1 : good (set_block m s (Live (Blk 1 0 y k))) v [] (Some h)).
  { eapply with_ok; [apply good_hole; exact Hg|exact Hb|rewrite H1; reflexivity|apply sane_blk|right; exact Hm]. }
  destruct Hg1 as [Hh [Hl Hv]]; split; [exact Hh|split; [rewrite set_nth_length; exact Hl|]].
  intros h' o z _ Ho; rewrite nth_set by (eapply nth_lt; exact Ev).
  destruct (Nat.eqb_spec h h') as [E|Hne].
  - subst h'; cbn in Ho; rewrite Eo in Ho; injection Ho as <-; intros [= <-].
    exists 1, k; rewrite (set_live _ _ _ _ Hb), Nat.eqb_refl; reflexivity.
  - intros Hz; apply (Hv h' o z); [congruence|exact Ho|exact Hz].
Qed.

(* a new block *)
Lemma alloc_ok m v ex hole n e k : good m v ex hole ->
  let t := length (blocks m) in
  let m' := Mem (blocks m ++ [Live (Storage 1 e e (repeat Raw n))]) (objs m) in
  n = (e + k)%nat ->
  good m' v (Some t :: ex) hole /\ live m' t (Blk 1 e [] k) /\
  (forall s b, live m s b -> live m' s b).
Proof.
  intros Hg t m' ->.
  assert (Hb : live m' t (Blk 1 e [] k)).
  { unfold live, m', t; cbn [blocks]; rewrite nth_snoc, Nat.ltb_irrefl, Nat.eqb_refl.
    unfold Blk, full; cbn; rewrite Nat.add_0_r, repeat_app; reflexivity. }
  assert (Hk : forall s b, live m s b -> live m' s b).
  { unfold live, m'; cbn [blocks]; intros s b H; rewrite nth_error_app1; [exact H|eapply nth_lt; exact H]. }
  split; [|split; [exact Hb|exact Hk]].
  destruct Hg as [Hh [Hl Hv]]; split.
  - intros s'; pose proof (Hh s') as Hs'; destruct (Nat.eq_dec s' t) as [E|Hne].
    + subst s'; unfold live in Hb; rewrite Hb; cbn [nref Blk objs m' occ]; rewrite hit_self.
      assert (E : nth_error (blocks m) t = None) by (apply nth_error_None; unfold t; lia).
      rewrite E in Hs'; split; [lia|split; [lia|apply sane_blk]].
    + assert (E : nth_error (blocks m') s' = nth_error (blocks m) s').
      { unfold m'; cbn [blocks]; rewrite nth_snoc; fold t; destruct (Nat.ltb_spec s' t); [reflexivity|].
        destruct (Nat.eqb_spec s' t); [contradiction|]; symmetry; apply nth_error_None; unfold t in *; lia. }
      rewrite E; cbn [objs m' occ hit]; destruct (Nat.eqb_spec t s'); [congruence|].
      destruct (nth_error (blocks m) s') as [[b|d]|]; [|split; [lia|apply Hs']|lia].
      split; [lia|split; [lia|apply Hs']].
  - split; [exact Hl|]; intros h o x Hn Ho Hx; specialize (Hv h o x Hn Ho Hx).
    destruct o as [[s|]|], x as [l|]; cbn [fine] in *; auto.
    destruct Hv as (n' & k' & Hb'); exists n', k'; apply (Hk s _ Hb').
Qed.
Lemma mine_fresh m v ex hole h s b : good m v (Some s :: ex) hole -> live m s b -> nref b = 1 -> mine m s h.
Proof.
  intros [Hh _] Hb H1 h' _ Ho; specialize (Hh s); unfold live in Hb; rewrite Hb in Hh.
  cbn [occ] in Hh; rewrite hit_self in Hh.
  pose proof (owners_one _ _ _ s Ho) as H2; cbn in H2; rewrite Nat.eqb_refl in H2.
  pose proof (occ_nonneg ex s); lia.
Qed.

(* ---- elements ---- *)
Definition srcs_ok m (ss : list (source A)) xs : Prop := Forall2 (fun x a => fetch m x = Ok a) ss xs.
Lemma fetch_live m m' x a : (forall s n ne ns d, live m s (Storage n ne ns d) -> exists n', live m' s (Storage n' ne ns d)) ->
  fetch m x = Ok a -> fetch m' x = Ok a.
Proof.
  intros Hk; destruct x as [b|s i]; cbn [fetch read_cell]; auto.
  unfold read_cell, block; destruct (nth_error (blocks m) s) as [[[n ne ns d]|d]|] eqn:E; try discriminate.
  destruct (Hk _ _ _ _ _ E) as [n' E']; unfold live in E'; rewrite E'; auto.
Qed.
Lemma srcs_live m m' ss xs : (forall s b, live m s b -> live m' s b) ->
  srcs_ok m ss xs -> srcs_ok m' ss xs.
Proof.
  intros Hk; induction 1 as [|x a ss xs Hx H IH]; constructor; auto.
  eapply fetch_live; [|exact Hx]; intros; eexists; apply Hk; eassumption.
Qed.
Lemma set_block_same m s b : live m s b -> set_block m s (Live b) = m.
Proof. intros H; unfold set_block; rewrite (set_nth_same _ _ _ H); destruct m; reflexivity. Qed.
Lemma set_block_twice m s b c : set_block (set_block m s b) s c = set_block m s c.
Proof. unfold set_block; cbn; rewrite set_nth_twice; reflexivity. Qed.
Lemma live_set m s b b' : live m s b -> live (set_block m s (Live b')) s b'.
Proof. intros H; unfold live; rewrite (set_live _ _ _ _ H), Nat.eqb_refl; reflexivity. Qed.

Lemma full_split e l k : full e l (S k) = (repeat Raw e ++ map Val l) ++ Raw :: repeat Raw k.
Proof. unfold full; rewrite <- app_assoc; reflexivity. Qed.
Lemma full_snoc e l a k : full e (l ++ [a]) k = (repeat Raw e ++ map Val l) ++ Val a :: repeat Raw k.
Proof. unfold full; rewrite map_app, <- !app_assoc; reflexivity. Qed.
Lemma full_len e l k : length (full e l k) = (e + length l + k)%nat.
Proof. unfold full; rewrite !app_length, !repeat_length, map_length; lia. Qed.
Lemma raw_len e l : length (repeat (@Raw A) e ++ map Val l) = (e + length l)%nat.
Proof. rewrite app_length, repeat_length, map_length; reflexivity. Qed.

Lemma emplace_ok m t e l k a : live m t (Blk 1 e l (S k)) ->
  emplace m t a = Ok (set_block m t (Live (Blk 1 e (l ++ [a]) k))).
Proof.
  intros Hb; unfold emplace; rewrite (block_live _ _ _ Hb); cbn [obind nref nelem nskip data Blk Z.eqb negb].
  change (1 =? 1) with true; cbn [negb].
  rewrite full_split, <- raw_len, nth_mid, set_mid, raw_len.
  unfold Blk; rewrite full_snoc, app_length; cbn [length].
  replace (e + (length l + 1))%nat with (S (e + length l)) by lia; reflexivity.
Qed.
Lemma fetch_emplace m t e l k a x y : live m t (Blk 1 e l (S k)) -> fetch m x = Ok y ->
  fetch (set_block m t (Live (Blk 1 e (l ++ [a]) k))) x = Ok y.
Proof.
  intros Hb; destruct x as [b|s i]; cbn [fetch]; auto.
  unfold read_cell, block; rewrite (set_live _ _ _ _ Hb).
  destruct (Nat.eqb_spec t s) as [E|Hn]; [|auto].
  subst s; unfold live in Hb; rewrite Hb; cbn [obind data Blk]; rewrite full_split, full_snoc.
  generalize (repeat Raw e ++ map (@Val A) l); intros p.
  destruct (Nat.lt_ge_cases i (length p)) as [Hi|Hi].
  - rewrite !nth_error_app1 by exact Hi; auto.
  - rewrite !nth_error_app2 by exact Hi.
    destruct (i - _)%nat as [|j]; cbn; [discriminate|].
    intros H; exact H.
Qed.
Lemma emplace_all_ok m t e l xs k ss : live m t (Blk 1 e l (length xs + k)) -> srcs_ok m ss xs ->
  emplace_all m t ss = Ok (set_block m t (Live (Blk 1 e (l ++ xs) k))).
Proof.
  intros Hb Hs; revert l Hb; revert m Hs; revert ss; induction xs as [|a xs IH]; intros ss m Hs l Hb; inversion Hs as [|x1 a1 ss1 xs1 H1 H3]; subst.
  - cbn [emplace_all]; rewrite app_nil_r, set_block_same by exact Hb; reflexivity.
  - cbn [emplace_all]; rewrite H1; cbn [obind length Nat.add] in *.
    rewrite (emplace_ok _ _ _ _ _ a Hb); cbn [obind].
    rewrite (IH _ (set_block m t (Live (Blk 1 e (l ++ [a]) (length xs + k)))) ) with (l := l ++ [a]).
    + rewrite set_block_twice, <- app_assoc; reflexivity.
    + clear - H3 Hb; revert Hb; generalize (length xs + k)%nat; intros k' Hb.
      induction H3 as [|x2 a2 ss2 xs2 Hx2 H2 IH2]; constructor; [eapply fetch_emplace; eauto|exact IH2].
    + eapply live_set; exact Hb.
Qed.
Lemma pop_n_ok m s l xs k : live m s (Blk 1 0 (l ++ xs) k) ->
  pop_n m (Some s) (length xs) = Ok (set_block m s (Live (Blk 1 0 l (length xs + k)))).
Proof.
  revert m k; induction xs as [|a xs IH] using rev_ind; intros m k Hb.
  - cbn [pop_n length Nat.add]; rewrite app_nil_r in Hb; rewrite set_block_same by exact Hb; reflexivity.
  - rewrite app_length; cbn [length]; rewrite Nat.add_1_r; cbn [pop_n].
    unfold pop1; rewrite (block_live _ _ _ Hb); cbn [obind nref nelem nskip data Blk].
    change (1 =? 1) with true; cbn [negb].
    rewrite app_assoc, app_length; cbn [length Nat.add]; rewrite Nat.add_1_r.
    rewrite full_snoc; cbn [repeat app].
    replace (length (l ++ xs)) with (length (map (@Val A) (l ++ xs))) by apply map_length.
    rewrite nth_mid, set_mid; cbn [obind].
    assert (E : Storage 1 (length (map (@Val A) (l ++ xs))) 0 (map Val (l ++ xs) ++ Raw :: repeat Raw k)
                = Blk 1 0 (l ++ xs) (S k)).
    { unfold Blk, full; cbn; rewrite map_length; reflexivity. }
    rewrite E, (IH _ (S k)) by (eapply live_set; exact Hb).
    rewrite set_block_twice; do 4 f_equal; unfold Blk; do 2 f_equal; lia.
Qed.

Lemma transfer_ok uniq l : forall n1 e1 s1 t n2 e2 s2 r,
  transfer (length l) 0 uniq (Storage n1 e1 s1 (map Val l ++ t)) (Storage n2 e2 s2 (repeat Raw (length l) ++ r))
  = Ok (Storage n1 e1 s1 ((if uniq then repeat Moved (length l) else map Val l) ++ t),
        Storage n2 e2 (match l with [] => s2 | _ => 0%nat end) (map Val l ++ r)).
Proof.
  induction l as [|a l IH] using rev_ind; intros n1 e1 s1 t n2 e2 s2 r.
  - cbn; destruct uniq; reflexivity.
  - rewrite app_length; cbn [length]; rewrite Nat.add_1_r; cbn [transfer Nat.add data nref nelem nskip].
    rewrite map_app; cbn [map]; rewrite <- !app_assoc; cbn [app].
    rewrite <- repeat_snoc.
    assert (E1 : nth_error (map Val l ++ Val a :: t) (length l) = Some (Val a))
      by (rewrite <- (map_length (@Val A) l); apply nth_mid).
    assert (E2 : nth_error (repeat Raw (length l) ++ Raw :: r) (length l) = Some (@Raw A)).
    { pose proof (nth_mid (repeat (@Raw A) (length l)) Raw r) as H; rewrite repeat_length in H; exact H. }
    assert (E3 : set_nth (repeat Raw (length l) ++ Raw :: r) (length l) (Val a) = repeat Raw (length l) ++ Val a :: r).
    { pose proof (set_mid (repeat (@Raw A) (length l)) Raw (Val a) r) as H; rewrite repeat_length in H; exact H. }
    assert (E4 : set_nth (map Val l ++ Val a :: t) (length l) Moved = map Val l ++ Moved :: t).
    { pose proof (set_mid (map Val l) (Val a) Moved t) as H; rewrite map_length in H; exact H. }
    rewrite E1, E2, E3, E4.
    assert (E5 : (if uniq then Storage n1 e1 s1 (map Val l ++ Moved :: t) else Storage n1 e1 s1 (map Val l ++ Val a :: t))
                 = Storage n1 e1 s1 (map Val l ++ (if uniq then Moved else Val a) :: t)) by (destruct uniq; reflexivity).
    rewrite E5, IH; f_equal; f_equal; f_equal.
    + destruct uniq; [rewrite repeat_snoc; reflexivity|rewrite <- app_assoc; reflexivity].
    + destruct l; reflexivity.
Qed.

Lemma dispatch_ok m v ex h s t n l k xs k' : good m v (Some t :: ex) None ->
  live m s (Blk n 0 l k) -> live m t (Blk 1 (length l) xs k') -> s <> t ->
  (n = 1 -> mine m s (Some h)) ->
  exists m', dispatch_transfer m t s 0 = Ok m' /\ good m' v (Some t :: ex) (Some h) /\
    live m' t (Blk 1 0 (l ++ xs) k') /\ objs m' = objs m.
Proof.
  intros Hg Hs Ht Hne Hm; unfold dispatch_transfer.
  rewrite (block_live _ _ _ Ht), (block_live _ _ _ Hs); cbn [obind nref nelem nskip data Blk Nat.add].
  rewrite Nat.eqb_refl; destruct (Nat.leb_spec (length l) (length l + length xs)); [|lia].
  cbn [Nat.leb andb]; rewrite Nat.sub_0_r.
  unfold full; cbn [repeat app].
  pose proof (transfer_ok (n =? 1) l n (length l) 0 (repeat Raw k) 1 (length l + length xs) (length l)
                (map Val xs ++ repeat Raw k')) as Htr.
  unfold Blk, full; cbn [Nat.add repeat app]; rewrite Htr; cbn [obind].
  assert (Eo : Storage 1 (length l + length xs) (match l with [] => length l | _ => 0%nat end)
                 (map Val l ++ map Val xs ++ repeat Raw k') = Blk 1 0 (l ++ xs) k').
  { unfold Blk, full; cbn; rewrite map_app, app_length, <- app_assoc; f_equal; destruct l; reflexivity. }
  rewrite Eo; set (ob := Storage n (length l) 0 _).
  assert (Hob : sane ob).
  { unfold ob; destruct (n =? 1); [apply sane_moved|].
    exact (sane_blk n 0 l k). }
  assert (Hg1 : good (set_block m s (Live ob)) v (Some t :: ex) (Some h)).
  { eapply with_ok; [apply good_hole; exact Hg|exact Hs|reflexivity|exact Hob|].
    unfold ob; destruct (Z.eqb_spec n 1) as [E|E]; [right; auto|left; reflexivity]. }
  assert (Ht1 : live (set_block m s (Live ob)) t (Blk 1 (length l) xs k')).
  { unfold live; rewrite (set_live _ _ _ _ Hs); destruct (Nat.eqb_spec s t); [contradiction|exact Ht]. }
  eexists; split; [reflexivity|split; [|split; [eapply live_set; exact Ht1|reflexivity]]].
  eapply with_ok; [exact Hg1|exact Ht1|reflexivity|apply sane_blk|right].
  eapply mine_fresh; [exact Hg1|exact Ht1|reflexivity].
Qed.
Lemma release_set_obj m h o x :
  release (set_obj m h o) x = (do m' <- release m x; Ok (set_obj m' h o)).
Proof.
  destruct x as [s|]; cbn; [|reflexivity].
  unfold block; cbn; destruct (nth_error (blocks m) s) as [[b|d]|]; cbn; try reflexivity.
  destruct (nref b - 1 =? 0); [|reflexivity].
  destruct (destroy_from _ _ _); reflexivity.
Qed.
(* a vector gets a new block and lets go of the old one *)
Lemma exchange_ok m v hole h o t l k : good m v [Some t] hole -> hole = None \/ hole = Some h ->
  nth_error (objs m) h = Some (Some o) -> live m t (Blk 1 0 l k) ->
  exists m2, release m o = Ok m2 /\ good (set_obj m2 h (Some (Some t))) (set_nth v h (Some l)) [] None /\
    live (set_obj m2 h (Some (Some t))) t (Blk 1 0 l k) /\ (h < length (objs m2))%nat.
Proof.
  intros Hg Hole Eo Ht.
  pose proof (set_obj_ok m v [] hole h (Some o) (Some (Some t)) (Some l) Hg Hole Eo) as H.
  cbn [fine osth] in H; specialize (H (ex_intro _ 1 (ex_intro _ k Ht))).
  destruct (release_ok _ _ _ _ _ H) as (m' & Er & Hg').
  pose proof Er as Er'; rewrite release_set_obj in Er; apply obind_ok in Er as (m2 & Er & E); injection E as <-.
  exists m2; split; [exact Er|split; [exact Hg'|]].
  assert (Hob : objs m2 = objs m).
  { destruct o as [s|]; cbn [release] in Er; [|congruence].
    apply obind_ok in Er as (b & _ & Er); destruct (nref b - 1 =? 0); [apply obind_ok in Er as (d & _ & Er)|];
      injection Er as <-; reflexivity. }
  split; [|rewrite Hob; eapply nth_lt; exact Eo].
  (* the new block is not the one released *)
  assert (Hne : o <> Some t).
  { intros ->; exact (mine_fresh _ _ _ _ None _ _ Hg Ht eq_refl h ltac:(discriminate) Eo). }
  destruct o as [s|]; cbn [release] in Er; [|injection Er as <-; exact Ht].
  unfold block in Er; destruct (nth_error (blocks m) s) as [[b|d]|] eqn:Eb; cbn [obind] in Er; try discriminate.
  assert (Hst : s <> t) by congruence.
  assert (Hres : forall z, live (set_block m s z) t (Blk 1 0 l k)).
  { intros z; unfold live; rewrite (set_live m s b) by exact Eb.
    destruct (Nat.eqb_spec s t); [contradiction|exact Ht]. }
  destruct (nref b - 1 =? 0); [apply obind_ok in Er as (d & _ & Er)|]; injection Er as <-; apply Hres.
Qed.

(* ---- sizes ---- *)
Variables elem_size block_size : Z.
Variable max_size : nat.
Hypothesis He : 0 < elem_size < block_size.
Notation rounded := (rounded elem_size block_size).

Lemma rounded_ge n : (n <= rounded n)%nat /\ Z.of_nat (rounded n) <= Z.of_nat n + block_size.
Proof.
  unfold CowVecModel.rounded.
  set (x := (Z.of_nat n - 1) * elem_size + block_size - 1).
  replace (x / block_size + 1 - 1) with (x / block_size) by lia.
  pose proof (Z.div_mod x block_size ltac:(lia)) as Hd.
  pose proof (Z.mod_pos_bound x block_size ltac:(lia)) as Hm.
  set (q := x / block_size) in *.
  assert (Hlo : (Z.of_nat n - 1) * elem_size <= q * block_size) by lia.
  assert (Hhi : q * block_size <= (Z.of_nat n - 1) * elem_size + block_size - 1) by lia.
  assert (H1 : Z.of_nat n - 1 <= q * block_size / elem_size) by (apply Z.div_le_lower_bound; lia).
  assert (H2 : q * block_size / elem_size <= Z.of_nat n - 1 + (block_size - 1)).
  { apply Z.div_le_upper_bound; [lia|].
    assert (Z.of_nat n * elem_size <= Z.of_nat n * elem_size) by lia.
    assert ((block_size - 1) * 1 <= (block_size - 1) * elem_size) by (apply Z.mul_le_mono_nonneg_l; lia).
    lia. }
  lia.
Qed.

Lemma size_of m v h l : good m v [] None -> val v h = Some l ->
  exists o, obj m h = Ok o /\ size m o = Ok (length l).
Proof.
  intros Hg Hh; destruct (good_view _ _ _ _ _ Hg Hh) as (o & Eo & Ev & Eob & Ho).
  exists o; split; [exact Eob|]; destruct o as [s|]; [|subst l; reflexivity].
  destruct Ho as (n & k & Hb & _); cbn [size]; rewrite (block_live _ _ _ Hb); reflexivity.
Qed.
Lemma view_facts m l h o :
  match o with
  | None => l = []
  | Some s => exists n k, live m s (Blk n 0 l k) /\ 0 < n /\ (n = 1 -> mine m s (Some h) /\ occ [] s = 0)
  end ->
  size m o = Ok (length l) /\
  ((o = None /\ l = [] /\ writable m o = Ok true /\ unique m o = Ok false /\ capacity m o = Ok 0%nat) \/
   exists s n k, o = Some s /\ live m s (Blk n 0 l k) /\ (n = 1 -> mine m s (Some h)) /\
     writable m o = Ok (n =? 1) /\ unique m o = Ok (n =? 1) /\ capacity m o = Ok (length l + k)%nat).
Proof.
  destruct o as [s|].
  - intros (n & k & Hb & Hn & Hm); cbn [size writable unique capacity]; rewrite (block_live _ _ _ Hb).
    cbn [obind nelem nref data Blk Nat.add]; rewrite full_len; split; [reflexivity|].
    right; exists s, n, k; split; [reflexivity|split; [exact Hb|split; [intros E; apply Hm, E|auto]]].
  - intros ->; split; [reflexivity|]; left; auto 6.
Qed.

(* a bound the program runs into *)
Definition cap_in m (cap : nat) : Prop :=
  cap = 0%nat \/ exists b, In (Live b) (blocks m) /\ cap = length (data b).

(* prepare with nothing transferred, then fill, finish and exchange *)
Lemma grow_ok m v h l xs ss add o : good m v [] None -> val v h = Some l -> obj m h = Ok o ->
  srcs_ok m ss xs -> (length xs <= add)%nat ->
  res (do (m, t) <- reallocate_prepare elem_size block_size max_size m o (length l) add;
       do m <- emplace_all m t ss;
       do m <- reallocate_finish m t o;
       do m <- release m o;
       Ok (set_obj m h (Some (Some t))))
    (fun m' => good m' (set_nth v h (Some (l ++ xs))) [] None)
    (max_size < length l + add)%nat.
Proof.
  intros Hg Hh Eob' Hs Hadd.
  destruct (good_view _ _ _ _ _ Hg Hh) as (o' & Eo & Ev & Eob & Ho).
  rewrite Eob in Eob'; injection Eob' as ->.
  destruct (view_facts _ _ _ _ Ho) as [Esz Hcase].
  unfold reallocate_prepare; rewrite Esz; cbn [obind].
  destruct (Nat.ltb_spec max_size (length l + add)) as [Hmx|Hmx]; [exact Hmx|].
  rewrite Nat.ltb_irrefl; cbn [obind].
  pose proof (rounded_ge (length l + add)) as [Hr _].
  pose proof (alloc_ok m v [] None (rounded (length l + add)) (length l) (rounded (length l + add) - length l) Hg
                ltac:(lia)) as (Hg1 & Hb1 & Hk1).
  set (t := length (blocks m)) in *.
  set (m1 := Mem (blocks m ++ [Live (Storage 1 (length l) (length l) (repeat Raw (rounded (length l + add))))]) (objs m)) in *.
  assert (Hb1' : live m1 t (Blk 1 (length l) [] (length xs + (rounded (length l + add) - length l - length xs)))).
  { replace (length xs + (rounded (length l + add) - length l - length xs))%nat
      with (rounded (length l + add) - length l)%nat by lia; exact Hb1. }
  rewrite (emplace_all_ok _ _ _ _ _ _ _ Hb1' (srcs_live _ _ _ _ Hk1 Hs)); cbn [obind app].
  set (k := (rounded (length l + add) - length l - length xs)%nat) in *.
  set (m2 := set_block m1 t (Live (Blk 1 (length l) xs k))).
  assert (Hb2 : live m2 t (Blk 1 (length l) xs k)) by (eapply live_set; exact Hb1').
  assert (Hg2 : good m2 v [Some t] None).
  { eapply with_ok; [exact Hg1|exact Hb1'|reflexivity|apply sane_blk|right].
    eapply mine_fresh; [exact Hg1|exact Hb1'|reflexivity]. }
  unfold reallocate_finish; rewrite (block_live _ _ _ Hb2); cbn [obind nskip Blk].
  destruct Hcase as [(-> & -> & _)|(s & n & k0 & -> & Hsb & Hsm & _)].
  - cbn [length Nat.eqb negb obind]; rewrite (block_live _ _ _ Hb2); cbn [obind nskip Blk length Nat.eqb].
    destruct (exchange_ok m2 v None h None t xs k Hg2 (or_introl eq_refl) Eo Hb2) as (m3 & -> & Hg3 & _).
    cbn [obind res]; exact Hg3.
  - assert (Hst : s <> t) by (apply nth_lt in Hsb; unfold t; lia).
    assert (Hs2 : live m2 s (Blk n 0 l k0)).
    { unfold live, m2; rewrite (set_live _ _ _ _ Hb1'); destruct (Nat.eqb_spec t s); [congruence|].
      apply Hk1, Hsb. }
    assert (Hfin : exists m3, (if negb (length l =? 0)%nat then dispatch_transfer m2 t s 0 else Ok m2) = Ok m3 /\
      (exists hole, good m3 v [Some t] hole /\ (hole = None \/ hole = Some h)) /\
      live m3 t (Blk 1 0 (l ++ xs) k) /\ objs m3 = objs m2).
    { destruct (Nat.eqb_spec (length l) 0) as [E|E]; cbn [negb].
      - apply length_zero_iff_nil in E; subst l; exists m2; split; [reflexivity|].
        split; [exists None; auto|split; [exact Hb2|reflexivity]].
      - destruct (dispatch_ok m2 v [] h s t n l k0 xs k Hg2 Hs2 Hb2 Hst Hsm) as (m3 & Ed & Hg3 & Hb3 & Ho3).
        exists m3; split; [exact Ed|split; [exists (Some h); auto|auto]]. }
    destruct Hfin as (m3 & -> & (hole & Hg3 & Hole) & Hb3 & Ho3); cbn [obind].
    rewrite (block_live _ _ _ Hb3); cbn [obind nskip Blk Nat.eqb].
    assert (Eo3 : nth_error (objs m3) h = Some (Some (Some s))) by (rewrite Ho3; exact Eo).
    destruct (exchange_ok m3 v hole h (Some s) t (l ++ xs) k Hg3 Hole Eo3 Hb3) as (m4 & -> & Hg4 & _).
    cbn [obind res]; exact Hg4.
Qed.

Lemma inplace_append m v h l xs ss s k : good m v [] None -> val v h = Some l ->
  obj m h = Ok (Some s) -> live m s (Blk 1 0 l k) -> mine m s (Some h) -> (length xs <= k)%nat ->
  srcs_ok m ss xs ->
  res (emplace_all m s ss) (fun m' => good m' (set_nth v h (Some (l ++ xs))) [] None) False.
Proof.
  intros Hg Hh Eob Hb Hm Hk Hs.
  destruct (good_view _ _ _ _ _ Hg Hh) as (o' & Eo & Ev & Eob' & _).
  rewrite Eob in Eob'; injection Eob' as <-.
  rewrite (emplace_all_ok m s 0 l xs (k - length xs) ss); [|replace (length xs + (k - length xs))%nat with k by lia; exact Hb|exact Hs].
  cbn [res]; eapply inplace_ok; [exact Hg|exact Eo|exact Ev|exact Hb|reflexivity|exact Hm|reflexivity].
Qed.

Lemma srcs_len m ss xs : srcs_ok m ss xs -> length ss = length xs.
Proof. induction 1; cbn; congruence. Qed.
Lemma lor_nat a b : (a <= Z.to_nat (Z.lor (Z.of_nat a) (Z.of_nat b)) <= a + b)%nat.
Proof. pose proof (lor_le (Z.of_nat a) (Z.of_nat b) ltac:(lia) ltac:(lia)); lia. Qed.

Lemma append_ok m v h l xs ss : good m v [] None -> val v h = Some l -> srcs_ok m ss xs ->
  res (append elem_size block_size max_size m h ss)
    (fun m' => good m' (set_nth v h (Some (l ++ xs))) [] None)
    (exists cap, cap_in m cap /\ (max_size < length l + (length xs + cap / 2))%nat).
Proof.
  intros Hg Hh Hs; destruct (good_view _ _ _ _ _ Hg Hh) as (o & Eo & Ev & Eob & Ho).
  unfold append; rewrite Eob; cbn [obind]; rewrite (srcs_len _ _ _ Hs).
  destruct (Nat.eqb_spec (length xs) 0) as [E0|E0].
  { apply length_zero_iff_nil in E0; subst xs; rewrite app_nil_r; cbn [res].
    rewrite set_nth_same by exact Ev; exact Hg. }
  destruct (view_facts _ _ _ _ Ho) as [Esz Hcase]; rewrite Esz.
  assert (Hnew : forall cap, cap_in m cap ->
    res (do (m, t) <- reallocate_prepare elem_size block_size max_size m o (length l)
            (Z.to_nat (Z.lor (Z.of_nat (length xs)) (Z.of_nat (cap / 2)%nat)));
         do m <- emplace_all m t ss;
         do m <- reallocate_finish m t o;
         do m <- release m o;
         Ok (set_obj m h (Some (Some t))))
      (fun m' => good m' (set_nth v h (Some (l ++ xs))) [] None)
      (exists cap, cap_in m cap /\ (max_size < length l + (length xs + cap / 2))%nat)).
  { intros cap Hc; pose proof (lor_nat (length xs) (cap / 2)) as Hl.
    eapply res_weaken; [apply (grow_ok _ _ _ _ _ _ _ _ Hg Hh Eob Hs); apply Hl|auto|].
    intros Hmx; exists cap; split; [exact Hc|lia]. }
  destruct Hcase as [(-> & -> & -> & _ & ->)|(s & n & k & -> & Hb & Hm & -> & _ & ->)]; cbn [obind andb].
  - destruct (length xs <=? 0 - length (@nil A))%nat; apply Hnew; left; reflexivity.
  - destruct (Z.eqb_spec n 1) as [E1|E1]; cbn [andb].
    + subst n; destruct (Nat.leb_spec (length xs) (length l + k - length l)) as [Hle|Hgt].
      * eapply res_weaken; [apply (inplace_append _ _ _ _ xs ss _ _ Hg Hh Eob Hb (Hm eq_refl)); [lia|exact Hs]|auto|tauto].
      * apply Hnew; right; exists (Blk 1 0 l k); split; [eapply nth_error_In; exact Hb|cbn [data Blk]; rewrite full_len; lia].
    + apply Hnew; right; exists (Blk n 0 l k); split; [eapply nth_error_In; exact Hb|cbn [data Blk]; rewrite full_len; lia].
Qed.

Lemma push_ok m v h l a x : good m v [] None -> val v h = Some l -> fetch m x = Ok a ->
  res (push_back elem_size block_size max_size m h x)
    (fun m' => good m' (set_nth v h (Some (l ++ [a]))) [] None)
    (exists cap, cap_in m cap /\ (max_size < length l + (17 + cap / 2))%nat).
Proof.
  intros Hg Hh Hx; destruct (good_view _ _ _ _ _ Hg Hh) as (o & Eo & Ev & Eob & Ho).
  assert (Hs : srcs_ok m [x] [a]) by (constructor; [exact Hx|constructor]).
  unfold push_back; rewrite Eob; cbn [obind].
  destruct (view_facts _ _ _ _ Ho) as [Esz Hcase]; rewrite Esz.
  assert (Hnew : forall cap, cap_in m cap ->
    res (do (m, t) <- reallocate_prepare elem_size block_size max_size m o (length l)
            (Z.to_nat (Z.lor 17 (Z.of_nat (cap / 2)%nat)));
         do m <- emplace_all m t [x];
         do m <- reallocate_finish m t o;
         do m <- release m o;
         Ok (set_obj m h (Some (Some t))))
      (fun m' => good m' (set_nth v h (Some (l ++ [a]))) [] None)
      (exists cap, cap_in m cap /\ (max_size < length l + (17 + cap / 2))%nat)).
  { intros cap Hc; pose proof (lor_nat 17 (cap / 2)) as Hl.
    change (Z.of_nat 17) with 17 in Hl.
    eapply res_weaken; [apply (grow_ok _ _ _ _ _ _ _ _ Hg Hh Eob Hs); cbn [length]; lia|auto|].
    intros Hmx; exists cap; split; [exact Hc|lia]. }
  destruct Hcase as [(-> & -> & -> & _ & ->)|(s & n & k & -> & Hb & Hm & -> & _ & ->)]; cbn [obind andb].
  - destruct (length (@nil A) <? 0)%nat; apply Hnew; left; reflexivity.
  - destruct (Z.eqb_spec n 1) as [E1|E1]; cbn [andb].
    + subst n; destruct (Nat.ltb_spec (length l) (length l + k)) as [Hle|Hgt].
      * eapply res_weaken; [eapply (inplace_append _ _ _ _ [a] [x] _ _ Hg Hh Eob Hb (Hm eq_refl)); [cbn; lia|exact Hs]|auto|tauto].
      * apply Hnew; right; exists (Blk 1 0 l k); split; [eapply nth_error_In; exact Hb|cbn [data Blk]; rewrite full_len; lia].
    + apply Hnew; right; exists (Blk n 0 l k); split; [eapply nth_error_In; exact Hb|cbn [data Blk]; rewrite full_len; lia].
Qed.

(* all elements into a new block: reserve and shrink_to_fit *)
Lemma renew_ok m v h l add o : good m v [] None -> val v h = Some l -> obj m h = Ok o ->
  res (do (m, t) <- reallocate_prepare elem_size block_size max_size m o 0 add;
       do m <- release m o;
       Ok (set_obj m h (Some (Some t))))
    (fun m' => good m' v [] None)
    (max_size < length l + add)%nat.
Proof.
  intros Hg Hh Eob'.
  destruct (good_view _ _ _ _ _ Hg Hh) as (o' & Eo & Ev & Eob & Ho).
  rewrite Eob in Eob'; injection Eob' as ->.
  destruct (view_facts _ _ _ _ Ho) as [Esz Hcase].
  unfold reallocate_prepare; rewrite Esz; cbn [obind].
  destruct (Nat.ltb_spec max_size (length l + add)) as [Hmx|Hmx]; [exact Hmx|].
  pose proof (rounded_ge (length l + add)) as [Hr _].
  pose proof (alloc_ok m v [] None (rounded (length l + add)) (length l) (rounded (length l + add) - length l) Hg
                ltac:(lia)) as (Hg1 & Hb1 & Hk1).
  set (t := length (blocks m)) in *.
  set (m1 := Mem (blocks m ++ [Live (Storage 1 (length l) (length l) (repeat Raw (rounded (length l + add))))]) (objs m)) in *.
  assert (Hv : set_nth v h (Some l) = v) by (apply set_nth_same; exact Ev).
  destruct (Nat.ltb_spec 0 (length l)) as [Hl|Hl].
  - destruct Hcase as [(_ & -> & _)|(s & n & k0 & -> & Hsb & Hsm & _)]; [cbn in Hl; lia|].
    assert (Hst : s <> t) by (apply nth_lt in Hsb; unfold t; lia).
    destruct (dispatch_ok m1 v [] h s t n l k0 [] _ Hg1 (Hk1 _ _ Hsb) Hb1 Hst Hsm) as (m3 & -> & Hg3 & Hb3 & Ho3).
    cbn [obind]; rewrite app_nil_r in Hb3.
    assert (Eo3 : nth_error (objs m3) h = Some (Some (Some s))) by (rewrite Ho3; exact Eo).
    destruct (exchange_ok m3 v (Some h) h (Some s) t l _ Hg3 (or_intror eq_refl) Eo3 Hb3) as (m4 & -> & Hg4 & _).
    cbn [obind res]; rewrite Hv in Hg4; exact Hg4.
  - assert (l = []) by (apply length_zero_iff_nil; lia); subst l; cbn [obind].
    destruct (exchange_ok m1 v None h o t [] _ Hg1 (or_introl eq_refl) Eo Hb1) as (m4 & -> & Hg4 & _).
    cbn [obind res]; rewrite Hv in Hg4; exact Hg4.
Qed.

Lemma set_obj_objs m h o : (h < length (objs m))%nat -> nth_error (objs (set_obj m h o)) h = Some o.
Proof. intros H; cbn; apply nth_set_same; exact H. Qed.

Lemma mut_data_ok m v h l : good m v [] None -> val v h = Some l ->
  res (mut_data m h)
    (fun '(m', o) => good m' v [] None /\ obj m' h = Ok o /\ nth_error (objs m') h = Some (Some o) /\
       size m' o = Ok (length l) /\
       match o with
       | None => l = []
       | Some s => exists k, live m' s (Blk 1 0 l k) /\ mine m' s (Some h)
       end) False.
Proof.
  intros Hg Hh; destruct (good_view _ _ _ _ _ Hg Hh) as (o & Eo & Ev & Eob & Ho).
  destruct (view_facts _ _ _ _ Ho) as [Esz Hcase].
  unfold mut_data; rewrite Eob; cbn [obind].
  destruct Hcase as [(-> & -> & -> & _)|(s & n & k & -> & Hb & Hm & -> & _)]; cbn [obind].
  - cbn [res]; auto 6.
  - destruct (Z.eqb_spec n 1) as [E1|E1].
    + subst n; cbn [res]; split; [exact Hg|split; [exact Eob|split; [exact Eo|split; [exact Esz|]]]]; exists k; auto.
    + unfold reallocate_clone; rewrite Eob; cbn [obind]; rewrite (block_live _ _ _ Hb); cbn [obind nelem data Blk Nat.add].
      rewrite full_len; cbn [Nat.add].
      pose proof (alloc_ok m v [] None (length l + k) (length l) k Hg ltac:(lia)) as (Hg1 & Hb1 & Hk1).
      set (t := length (blocks m)) in *; set (m1 := Mem (blocks m ++ _) (objs m)) in *.
      assert (Hst : s <> t) by (apply nth_lt in Hb; unfold t; lia).
      assert (Hfin : exists m3, (if negb (length l =? 0)%nat then dispatch_transfer m1 t s 0 else Ok m1) = Ok m3 /\
        (exists hole, good m3 v [Some t] hole /\ (hole = None \/ hole = Some h)) /\
        live m3 t (Blk 1 0 l k) /\ objs m3 = objs m1).
      { destruct (Nat.eqb_spec (length l) 0) as [E|E]; cbn [negb].
        - apply length_zero_iff_nil in E; subst l; exists m1; split; [reflexivity|].
          split; [exists None; auto|split; [exact Hb1|reflexivity]].
        - destruct (dispatch_ok m1 v [] h s t n l k [] k Hg1 (Hk1 _ _ Hb) Hb1 Hst Hm) as (m3 & Ed & Hg3 & Hb3 & Ho3).
          rewrite app_nil_r in Hb3.
          exists m3; split; [exact Ed|split; [exists (Some h); auto|auto]]. }
      destruct Hfin as (m3 & -> & (hole & Hg3 & Hole) & Hb3 & Ho3); cbn [obind].
      assert (Eo3 : nth_error (objs m3) h = Some (Some (Some s))) by (rewrite Ho3; exact Eo).
      destruct (exchange_ok m3 v hole h (Some s) t l k Hg3 Hole Eo3 Hb3) as (m4 & -> & Hg4 & Hb4 & Ho4).
      cbn [obind res]; rewrite (set_nth_same v) in Hg4 by exact Ev.
      pose proof (set_obj_objs m4 h (Some (Some t)) Ho4) as Eo4.
      split; [exact Hg4|split; [unfold obj; rewrite Eo4; reflexivity|split; [exact Eo4|split]]].
      * cbn [size]; rewrite (block_live _ _ _ Hb4); reflexivity.
      * exists k; split; [exact Hb4|].
        destruct (good_view _ _ _ _ _ Hg4 Hh) as (o5 & Eo5 & _ & _ & Hv5).
        rewrite Eo4 in Eo5; injection Eo5 as <-.
        destruct Hv5 as (n5 & k5 & Hb5 & _ & Hm5); unfold live in *; rewrite Hb4 in Hb5.
        apply (f_equal (fun x => match x with Some (Live b) => nref b | _ => 0 end)) in Hb5; cbn in Hb5.
        apply (proj1 (Hm5 (eq_sym Hb5))).
Qed.

(* ---- the statements ---- *)
Lemma new_copy_ok m v j l : good m v [] None -> val v j = Some l ->
  res (new_copy m j) (fun m' => good m' (v ++ [Some l]) [] None) False.
Proof.
  intros Hg Hj; destruct (good_view _ _ _ _ _ Hg Hj) as (o & Eo & Ev & Eob & Ho).
  unfold new_copy; rewrite Eob; cbn [obind].
  destruct (acquire_ok _ _ _ _ o Hg) as (m1 & -> & Hg1 & Hk1).
  { intros s ->; destruct Ho as (n & k & Hb & _); eauto. }
  cbn [obind res]; apply new_obj_ok; [exact Hg1|]; eapply fine_keeps; [exact Hk1|].
  destruct o as [s|]; [|exact Ho]; destruct Ho as (n & k & Hb & _); exists n, k; exact Hb.
Qed.
Lemma view_fine m h o l :
  match o with
  | None => l = []
  | Some s => exists n k, live m s (Blk n 0 l k) /\ 0 < n /\ (n = 1 -> mine m s (Some h) /\ occ [] s = 0)
  end -> fine m (Some o) (Some l).
Proof. destruct o as [s|]; [|auto]; intros (n & k & Hb & _); exists n, k; exact Hb. Qed.

Lemma new_move_ok m v j l : good m v [] None -> val v j = Some l ->
  res (new_move m j) (fun m' => good m' (set_nth v j (Some []) ++ [Some l]) [] None) False.
Proof.
  intros Hg Hj; destruct (good_view _ _ _ _ _ Hg Hj) as (o & Eo & Ev & Eob & Ho).
  unfold new_move; rewrite Eob; cbn [obind res].
  apply new_obj_ok; [|eapply fine_blocks; [|eapply view_fine; exact Ho]; reflexivity].
  apply (set_obj_ok m v [] None j (Some o) (Some None)); [apply good_none; exact Hg|auto|exact Eo|reflexivity].
Qed.
Lemma nth_all_val l k i : nth_error (full 0 l k) i =
  match nth_error l i with
  | Some a => Some (Val a)
  | None => if (i <? length l + k)%nat then Some Raw else None
  end.
Proof.
  unfold full; cbn [repeat app]; destruct (Nat.lt_ge_cases i (length l)) as [Hi|Hi].
  - rewrite nth_error_app1 by (rewrite map_length; exact Hi).
    rewrite nth_error_map; destruct (nth_error l i) eqn:E; [reflexivity|].
    apply nth_error_None in E; lia.
  - rewrite nth_error_app2 by (rewrite map_length; exact Hi); rewrite map_length.
    assert (E : nth_error l i = None) by (apply nth_error_None; exact Hi); rewrite E.
    destruct (Nat.ltb_spec i (length l + k)).
    + apply nth_error_repeat; lia.
    + apply nth_error_None; rewrite repeat_length; lia.
Qed.
Lemma srcs_range m s n l k a b c : live m s (Blk n 0 l k) -> l = a ++ b ++ c ->
  srcs_ok m (map (At s) (seq (length a) (length b))) b.
Proof.
  revert a; induction b as [|x b IH]; intros a Hb El; cbn [length seq map]; constructor.
  - cbn [fetch]; unfold read_cell; rewrite (block_live _ _ _ Hb); cbn [obind data Blk].
    rewrite nth_all_val, El; cbn [app]; rewrite nth_mid; reflexivity.
  - specialize (IH (a ++ [x]) Hb); rewrite app_length in IH; cbn [length] in IH; rewrite Nat.add_1_r in IH.
    apply IH; rewrite El, <- app_assoc; reflexivity.
Qed.

Lemma new_subvec_ok m v j tpos tn l : good m v [] None -> val v j = Some l ->
  res (new_subvec elem_size block_size max_size m j tpos tn)
    (fun m' => (tpos <= length l)%nat /\ good m' (v ++ [Some (firstn tn (skipn tpos l))]) [] None)
    ((length l < tpos)%nat \/ (max_size < length l)%nat).
Proof.
  intros Hg Hj; destruct (good_view _ _ _ _ _ Hg Hj) as (o & Eo & Ev & Eob & Ho).
  destruct (view_facts _ _ _ _ Ho) as [Esz Hcase].
  unfold new_subvec; rewrite Eob; cbn [obind]; rewrite Esz; cbn [obind].
  destruct (Nat.ltb_spec (length l) tpos) as [Ht|Ht]; [left; exact Ht|].
  set (y := firstn tn (skipn tpos l)).
  assert (Hy : length y = Nat.min (length l - tpos) tn) by (unfold y; rewrite firstn_length, skipn_length; lia).
  rewrite <- Hy; unfold reallocate_prepare; cbn [size obind Nat.add]; change (0 <? 0)%nat with false.
  destruct (Nat.ltb_spec max_size (length y)) as [Hmx|Hmx]; [right; lia|].
  pose proof (rounded_ge (length y)) as [Hr _].
  pose proof (alloc_ok m v [] None (rounded (length y)) 0 (rounded (length y)) Hg eq_refl) as (Hg1 & Hb1 & Hk1).
  set (t := length (blocks m)) in *; set (m1 := Mem (blocks m ++ _) (objs m)) in *.
  cbn [obind].
  assert (Hb1' : live m1 t (Blk 1 0 [] (length y + (rounded (length y) - length y)))).
  { replace (length y + (rounded (length y) - length y))%nat with (rounded (length y)) by lia; exact Hb1. }
  assert (Hdone : forall m2, m2 = set_block m1 t (Live (Blk 1 0 y (rounded (length y) - length y))) ->
    good (new_obj m2 (Some t)) (v ++ [Some y]) [] None).
  { intros m2 ->; assert (Hb2 := live_set _ _ _ (Blk 1 0 y (rounded (length y) - length y)) Hb1').
    apply new_obj_ok; [|exists 1; eexists; exact Hb2].
    eapply with_ok; [exact Hg1|exact Hb1'|reflexivity|apply sane_blk|right].
    eapply mine_fresh; [exact Hg1|exact Hb1'|reflexivity]. }
  destruct Hcase as [(-> & -> & _)|(s & n & k0 & -> & Hsb & _)].
  - assert (Ey : y = []) by (unfold y; rewrite skipn_nil, firstn_nil; reflexivity).
    rewrite Ey in *; cbn [length Nat.eqb obind res]; split; [exact Ht|].
    apply Hdone; symmetry; apply set_block_same; exact Hb1'.
  - rewrite (emplace_all_ok m1 t 0 [] y (rounded (length y) - length y)); [|exact Hb1'|].
    + cbn [obind res app]; split; [exact Ht|]; apply Hdone; reflexivity.
    + replace tpos with (length (firstn tpos l)) at 1 by (rewrite firstn_length; lia).
      eapply srcs_range with (c := skipn tn (skipn tpos l)); [apply Hk1; exact Hsb|].
      unfold y; rewrite firstn_skipn, firstn_skipn; reflexivity.
Qed.

Lemma drop_ok m v h l : good m v [] None -> val v h = Some l ->
  res (drop m h) (fun m' => good m' (set_nth v h None) [] None) False.
Proof.
  intros Hg Hj; destruct (good_view _ _ _ _ _ Hg Hj) as (o & Eo & Ev & Eob & Ho).
  unfold drop; rewrite Eob; cbn [obind]; rewrite <- release_set_obj.
  pose proof (set_obj_ok m v [] None h (Some o) None None (good_none _ _ _ _ Hg)
                (or_introl eq_refl) Eo I) as Hg1; cbn [osth] in Hg1.
  destruct (release_ok _ _ _ _ _ Hg1) as (m2 & -> & Hg2); exact Hg2.
Qed.
Lemma deallocate_ok m v h l : good m v [] None -> val v h = Some l ->
  res (deallocate m h) (fun m' => good m' (set_nth v h (Some [])) [] None) False.
Proof.
  intros Hg Hj; destruct (good_view _ _ _ _ _ Hg Hj) as (o & Eo & Ev & Eob & Ho).
  unfold deallocate; rewrite Eob; cbn [obind]; rewrite <- release_set_obj.
  pose proof (set_obj_ok m v [] None h (Some o) (Some None) (Some []) (good_none _ _ _ _ Hg)
                (or_introl eq_refl) Eo eq_refl) as Hg1; cbn [osth] in Hg1.
  destruct (release_ok _ _ _ _ _ Hg1) as (m2 & -> & Hg2); exact Hg2.
Qed.
Lemma assign_ok m v h j x y : good m v [] None -> val v h = Some x -> val v j = Some y ->
  res (assign m h j) (fun m' => good m' (set_nth v h (Some y)) [] None) False.
Proof.
  intros Hg Hh Hj; destruct (good_view _ _ _ _ _ Hg Hh) as (o & Eo & Ev & Eob & Ho).
  destruct (good_view _ _ _ _ _ Hg Hj) as (p & Ep & Evp & Epb & Hp).
  unfold assign; rewrite Eob, Epb; cbn [obind].
  destruct (acquire_ok _ _ _ _ p Hg) as (m1 & -> & Hg1 & Hk1).
  { intros s ->; destruct Hp as (n & k & Hb & _); eauto. }
  cbn [obind]; rewrite <- release_set_obj.
  rewrite <- (proj1 Hk1) in Eo.
  pose proof (set_obj_ok m1 v [] None h (Some o) (Some p) (Some y) Hg1 (or_introl eq_refl) Eo
                (fine_keeps _ _ _ _ Hk1 (view_fine _ _ _ _ Hp))) as Hg2; cbn [osth] in Hg2.
  destruct (release_ok _ _ _ _ _ Hg2) as (m2 & -> & Hg3); exact Hg3.
Qed.
Lemma swap_ok m v h j x y : good m v [] None -> val v h = Some x -> val v j = Some y ->
  res (swap_with m h j)
    (fun m' => good m' (set_nth (set_nth v j (Some x)) h (Some y)) [] None) False.
Proof.
  intros Hg Hh Hj; destruct (good_view _ _ _ _ _ Hg Hh) as (o & Eo & Ev & Eob & Ho).
  destruct (good_view _ _ _ _ _ Hg Hj) as (p & Ep & Evp & Epb & Hp).
  unfold swap_with; rewrite Eob, Epb; cbn [obind res].
  destruct (Nat.eq_dec h j) as [E|Hne].
  - subst j; rewrite Eo in Ep; injection Ep as <-; rewrite Ev in Evp; injection Evp as <-.
    rewrite (set_nth_same v) by exact Ev; rewrite (set_nth_same v) by exact Ev.
    unfold set_obj; cbn [objs blocks]; rewrite (set_nth_same (objs m)) by exact Eo.
    rewrite (set_nth_same (objs m)) by exact Eo; destruct m; exact Hg.
  - eapply set_two_ok; [exact Hg|exact Hne|exact Eo|exact Ep| |eapply view_fine; exact Hp|eapply view_fine; exact Ho].
    intros s; cbn [osth]; lia.
Qed.
(* pop from a block of one's own *)
Lemma pop_own m v h l xs s k : good m v [] None -> val v h = Some (l ++ xs) ->
  nth_error (objs m) h = Some (Some (Some s)) -> live m s (Blk 1 0 (l ++ xs) k) -> mine m s (Some h) ->
  res (pop_n m (Some s) (length xs)) (fun m' => good m' (set_nth v h (Some l)) [] None) False.
Proof.
  intros Hg Hh Eo Hb Hm; rewrite (pop_n_ok _ _ _ _ _ Hb); cbn [res].
  eapply inplace_ok; [exact Hg|exact Eo|apply val_nth; exact Hh|exact Hb|reflexivity|exact Hm|reflexivity].
Qed.
Lemma clear_ok m v h l : good m v [] None -> val v h = Some l ->
  res (clear m h) (fun m' => good m' (set_nth v h (Some [])) [] None) False.
Proof.
  intros Hg Hh; destruct (good_view _ _ _ _ _ Hg Hh) as (o & Eo & Ev & Eob & Ho).
  destruct (view_facts _ _ _ _ Ho) as [Esz Hcase].
  unfold clear; rewrite Eob; cbn [obind]; rewrite Esz.
  destruct Hcase as [(-> & -> & _ & -> & _)|(s & n & k & -> & Hb & Hm & _ & -> & _)]; cbn [obind negb].
  - eapply deallocate_ok; eauto.
  - destruct (Z.eqb_spec n 1) as [E1|E1]; cbn [negb].
    + subst n; apply (pop_own m v h [] l s k Hg Hh Eo Hb (Hm eq_refl)).
    + eapply deallocate_ok; eauto.
Qed.
Lemma pop_ok m v h n l : good m v [] None -> val v h = Some l -> (n <= length l)%nat ->
  res (pop_back m h n)
    (fun m' => good m' (set_nth v h (Some (firstn (length l - n) l))) [] None) False.
Proof.
  intros Hg Hh Hn; unfold pop_back; eapply res_bind; [apply (mut_data_ok _ _ _ _ Hg Hh)|].
  intros [m1 o] (Hg1 & Eob & Eo & Esz & Ho).
  destruct o as [s|].
  - destruct Ho as (k & Hb & Hm).
    set (a := firstn (length l - n) l); set (b := skipn (length l - n) l).
    assert (El : l = a ++ b) by (symmetry; apply firstn_skipn).
    assert (Elen : n = length b) by (unfold b; rewrite skipn_length; lia).
    rewrite Elen; rewrite El in Hb, Hh; eapply pop_own; eauto.
  - subst l; cbn in Hn; assert (n = 0%nat) by lia; subst n; cbn [pop_n res length].
    rewrite set_nth_same by (apply val_nth; exact Hh); exact Hg1.
Qed.
Lemma put_ok m v h pos a l : good m v [] None -> val v h = Some l ->
  res (put m h pos a)
    (fun m' => (pos < length l)%nat /\
       good m' (set_nth v h (Some (firstn pos l ++ a :: skipn (S pos) l))) [] None)
    (length l <= pos)%nat.
Proof.
  intros Hg Hh; destruct (size_of _ _ _ _ Hg Hh) as (o & Eob & Esz).
  unfold put; rewrite Eob; cbn [obind]; rewrite Esz; cbn [obind].
  destruct (Nat.leb_spec (length l) pos) as [Hp|Hp]; [exact Hp|].
  eapply res_bind; [eapply res_weaken; [apply (mut_data_ok _ _ _ _ Hg Hh)|intros r H; exact H|tauto]|].
  intros [m1 o1] (Hg1 & Eob1 & Eo1 & Esz1 & Ho).
  destruct o1 as [s|]; [|subst l; cbn in Hp; lia].
  destruct Ho as (k & Hb & Hm).
  destruct (nth_error l pos) as [x|] eqn:Ex; [|apply nth_error_None in Ex; lia].
  rewrite (block_live _ _ _ Hb); cbn [obind data Blk]; rewrite nth_all_val, Ex; cbn [res].
  split; [exact Hp|].
  assert (El : l = firstn pos l ++ x :: skipn (S pos) l).
  { rewrite <- (firstn_skipn pos l) at 1; f_equal.
    clear - Ex; revert l Ex; induction pos as [|pos IH]; intros [|y l]; cbn; intros H; try discriminate; [congruence|].
    apply IH; exact H. }
  eapply inplace_ok; [exact Hg1|exact Eo1|apply val_nth; exact Hh|exact Hb|reflexivity|exact Hm|].
  cbn [nref nelem nskip Blk]; unfold Blk; f_equal.
  - rewrite El at 1; rewrite !app_length; reflexivity.
  - unfold full; cbn [repeat app]; rewrite El at 1.
    rewrite !map_app; cbn [map]; rewrite <- !app_assoc; cbn [app].
    pose proof (set_mid (map Val (firstn pos l)) (Val x) (Val a) (map Val (skipn (S pos) l) ++ repeat Raw k)) as H.
    rewrite map_length, firstn_length_le in H by lia; exact H.
Qed.

Lemma rotate_blk m v h o a b c : good m v [] None -> val v h = Some (a ++ b ++ c) ->
  nth_error (objs m) h = Some (Some o) ->
  match o with
  | None => a ++ b ++ c = []
  | Some s => exists k, live m s (Blk 1 0 (a ++ b ++ c) k) /\ mine m s (Some h)
  end ->
  res (rotate_block m o (length a) (length a + length b) (length a + length b + length c))
    (fun m' => good m' (set_nth v h (Some (a ++ c ++ b))) [] None /\ objs m' = objs m /\
       match o with
       | None => a ++ c ++ b = []
       | Some s => exists k, live m' s (Blk 1 0 (a ++ c ++ b) k) /\ mine m' s (Some h)
       end) False.
Proof.
  intros Hg Hh Eo Ho; destruct o as [s|]; cbn [rotate_block].
  - destruct Ho as (k & Hb & Hm); rewrite (block_live _ _ _ Hb); cbn [obind nref nelem nskip data Blk Nat.add].
    unfold full; cbn [repeat app]; rewrite !map_app, <- !app_assoc.
    pose proof (rotate_gen (map Val a) (map Val b) (map Val c) (repeat (@Raw A) k)) as Hrot.
    rewrite !map_length in Hrot; rewrite Hrot; cbn [obind res].
    assert (E : Storage 1 (length (a ++ b ++ c)) 0 (map Val a ++ map Val c ++ map Val b ++ repeat Raw k)
                = Blk 1 0 (a ++ c ++ b) k).
    { unfold Blk, full; cbn; rewrite !app_length, !map_app, <- !app_assoc; f_equal; lia. }
    rewrite E; split; [|split; [reflexivity|]].
    + eapply inplace_ok; [exact Hg|exact Eo|apply val_nth; exact Hh|exact Hb|reflexivity|exact Hm|reflexivity].
    + exists k; split; [eapply live_set; exact Hb|exact Hm].
  - apply app_eq_nil in Ho as [-> Ho]; apply app_eq_nil in Ho as [-> ->]; cbn.
    split; [rewrite set_nth_same by (apply val_nth; exact Hh); exact Hg|auto].
Qed.

Lemma val_set v h x y : val v h = Some x -> val (set_nth v h (Some y)) h = Some y.
Proof.
  intros H; apply val_nth in H; unfold val; rewrite nth_set_same by (eapply nth_lt; exact H); reflexivity.
Qed.

Lemma insert_ok m v h tpos one l xs ss : good m v [] None -> val v h = Some l -> srcs_ok m ss xs ->
  (one = true -> length xs = 1%nat) ->
  res (insert elem_size block_size max_size m h tpos one ss)
    (fun m' => (tpos <= length l)%nat /\
       good m' (set_nth v h (Some (firstn tpos l ++ xs ++ skipn tpos l))) [] None)
    ((length l < tpos)%nat \/
     exists cap, cap_in m cap /\ (max_size < length l + (17 + length xs + cap / 2))%nat).
Proof.
  intros Hg Hh Hs Hone; destruct (size_of _ _ _ _ Hg Hh) as (o & Eob & Esz).
  unfold insert; rewrite Eob; cbn [obind]; rewrite Esz; cbn [obind].
  destruct (Nat.ltb_spec (length l) tpos) as [Ht|Ht]; [left; exact Ht|].
  eapply res_bind with (P := fun m' => good m' (set_nth v h (Some (l ++ xs))) [] None).
  { pose proof (append_ok _ _ _ _ _ _ Hg Hh Hs) as Ha.
    assert (Ha' : res (append elem_size block_size max_size m h ss)
      (fun m' => good m' (set_nth v h (Some (l ++ xs))) [] None)
      ((length l < tpos)%nat \/
       exists cap, cap_in m cap /\ (max_size < length l + (17 + length xs + cap / 2))%nat)).
    { eapply res_weaken; [exact Ha|auto|]; intros (cap & Hc & Hm); right; exists cap; split; [exact Hc|lia]. }
    destruct one; [|destruct ss; exact Ha'].
    specialize (Hone eq_refl); destruct xs as [|a [|b xs]]; cbn in Hone; try lia.
    inversion Hs as [|x a' ss' ? Hx Hs' Es]; subst; inversion Hs'; subst.
    eapply res_weaken; [apply (push_ok _ _ _ _ _ _ Hg Hh Hx)|auto|].
    intros (cap & Hc & Hm); right; exists cap; split; [exact Hc|cbn [length]; lia]. }
  intros m1 Hg1; pose proof (val_set _ _ _ (l ++ xs) Hh) as Hh1.
  eapply res_bind; [eapply res_weaken; [apply (mut_data_ok _ _ _ _ Hg1 Hh1)|intros r H; exact H|tauto]|].
  intros [m2 o2] (Hg2 & Eob2 & Eo2 & Esz2 & Ho2); rewrite Esz2; cbn [obind].
  set (a := firstn tpos l); set (b := skipn tpos l).
  assert (El : l = a ++ b) by (symmetry; apply firstn_skipn).
  assert (Ha : length a = tpos) by (unfold a; rewrite firstn_length; lia).
  assert (Ell : l ++ xs = a ++ b ++ xs) by (rewrite El, <- app_assoc; reflexivity).
  rewrite Ell in Hg2, Hh1, Ho2 |- *.
  pose proof (rotate_blk m2 _ h o2 a b xs Hg2 Hh1 Eo2 Ho2) as Hr.
  assert (Elen : length l = (length a + length b)%nat) by (rewrite El, app_length; reflexivity).
  rewrite !app_length, Nat.add_assoc, Elen; rewrite <- Ha at 1.
  eapply res_weaken; [exact Hr|intros m3 (Hg3 & _)|tauto].
  split; [lia|]; rewrite set_nth_twice in Hg3; exact Hg3.
Qed.

Lemma erase_ok m v h tpos tn l : good m v [] None -> val v h = Some l ->
  res (erase m h tpos tn)
    (fun m' => (tpos <= length l)%nat /\
       good m' (set_nth v h (Some (firstn tpos l ++ skipn tn (skipn tpos l)))) [] None)
    (length l < tpos)%nat.
Proof.
  intros Hg Hh; destruct (size_of _ _ _ _ Hg Hh) as (o & Eob & Esz).
  unfold erase; rewrite Eob; cbn [obind]; rewrite Esz; cbn [obind].
  destruct (Nat.ltb_spec (length l) tpos) as [Ht|Ht]; [exact Ht|].
  eapply res_bind; [eapply res_weaken; [apply (mut_data_ok _ _ _ _ Hg Hh)|intros r H; exact H|tauto]|].
  intros [m1 o1] (Hg1 & Eob1 & Eo1 & Esz1 & Ho1).
  set (a := firstn tpos l); set (b := firstn tn (skipn tpos l)); set (c := skipn tn (skipn tpos l)).
  assert (El : l = a ++ b ++ c) by (unfold a, b, c; rewrite firstn_skipn, firstn_skipn; reflexivity).
  assert (Ha : length a = tpos) by (unfold a; rewrite firstn_length; lia).
  assert (Hb : length b = Nat.min (length l - tpos) tn) by (unfold b; rewrite firstn_length, skipn_length; lia).
  rewrite <- Hb.
  assert (Elen : length l = (length a + length b + length c)%nat) by (rewrite El, !app_length; lia).
  rewrite Elen, <- Ha.
  rewrite El in Hh, Ho1.
  eapply res_bind; [eapply res_weaken; [apply (rotate_blk m1 v h o1 a b c Hg1 Hh Eo1 Ho1)|intros r H; exact H|tauto]|].
  intros m2 (Hg2 & Ho2 & Hs2).
  assert (Hh2 : val (set_nth v h (Some (a ++ c ++ b))) h = Some (a ++ c ++ b)) by (eapply val_set; exact Hh).
  destruct o1 as [s|].
  - destruct Hs2 as (k & Hb2 & Hm2).
    assert (Eo2 : nth_error (objs m2) h = Some (Some (Some s))) by (rewrite Ho2; exact Eo1).
    rewrite app_assoc in Hb2, Hh2, Hg2.
    eapply res_weaken; [apply (pop_own m2 _ h (a ++ c) b s k Hg2 Hh2 Eo2 Hb2 Hm2)| |tauto].
    intros m3 Hg3; rewrite set_nth_twice in Hg3; split; [lia|exact Hg3].
  - apply app_eq_nil in Hs2 as [Ea Hs2]; apply app_eq_nil in Hs2 as [Ec Eb].
    rewrite Ea, Eb, Ec in *; cbn [length pop_n res app] in *; split; [lia|exact Hg2].
Qed.

Lemma srcs_lits m l : srcs_ok m (map Lit l) l.
Proof. induction l; constructor; [reflexivity|exact IHl]. Qed.
Lemma map_repeat {B C} (f : B -> C) x n : map f (repeat x n) = repeat (f x) n.
Proof. induction n; cbn; congruence. Qed.

Lemma resize_ok m v h n a l : good m v [] None -> val v h = Some l ->
  res (resize elem_size block_size max_size m h n a)
    (fun m' => good m' (set_nth v h (Some (firstn n l ++ repeat a (n - length l)))) [] None)
    (exists cap, cap_in m cap /\ (max_size < length l + (n + cap / 2))%nat).
Proof.
  intros Hg Hh; destruct (size_of _ _ _ _ Hg Hh) as (o & Eob & Esz).
  unfold resize; rewrite Eob; cbn [obind]; rewrite Esz; cbn [obind].
  destruct (Nat.ltb_spec (length l) n) as [Hn|Hn].
  - rewrite firstn_all2 by lia; rewrite <- map_repeat.
    eapply res_weaken; [apply (append_ok _ _ _ _ _ _ Hg Hh (srcs_lits m _))|auto|].
    intros (cap & Hc & Hm); rewrite repeat_length in Hm; exists cap; split; [exact Hc|lia].
  - replace (n - length l)%nat with 0%nat by lia; cbn [repeat]; rewrite app_nil_r.
    eapply res_weaken; [apply (pop_ok _ _ _ (length l - n) _ Hg Hh); lia| |tauto].
    replace (length l - (length l - n))%nat with n by lia; auto.
Qed.

Lemma shrink_ok m v h l : good m v [] None -> val v h = Some l ->
  res (shrink_to_fit elem_size block_size max_size m h)
    (fun m' => good m' v [] None) (max_size < length l)%nat.
Proof.
  intros Hg Hh; destruct (good_view _ _ _ _ _ Hg Hh) as (o & Eo & Ev & Eob & Ho).
  destruct (view_facts _ _ _ _ Ho) as [Esz Hcase].
  unfold shrink_to_fit; rewrite Eob; cbn [obind]; rewrite Esz; cbn [obind].
  destruct (Nat.eqb_spec (length l) 0) as [E0|E0].
  { eapply res_weaken; [apply (deallocate_ok _ _ _ _ Hg Hh)| |tauto].
    apply length_zero_iff_nil in E0; subst l; rewrite set_nth_same by exact Ev; auto. }
  destruct (Nat.ltb_spec max_size (length l)) as [Hm|Hm]; [exact Hm|].
  destruct Hcase as [(_ & -> & _)|(s & n & k & -> & Hb & Hmn & _ & -> & ->)]; [cbn in E0; lia|]; cbn [obind].
  destruct (negb (n =? 1) || _)%bool; [exact Hg|].
  eapply res_weaken; [apply (renew_ok _ _ _ _ 0 _ Hg Hh Eob)|auto|lia].
Qed.
Lemma reserve_ok m v h n l : good m v [] None -> val v h = Some l ->
  res (reserve elem_size block_size max_size m h n)
    (fun m' => good m' v [] None)
    (Z.of_nat max_size < Z.of_nat (length l) + Z.of_nat n + block_size).
Proof.
  intros Hg Hh; destruct (good_view _ _ _ _ _ Hg Hh) as (o & Eo & Ev & Eob & Ho).
  destruct (view_facts _ _ _ _ Ho) as [Esz Hcase].
  unfold reserve; rewrite Eob; cbn [obind].
  destruct (Nat.eqb_spec n 0) as [E0|E0].
  { eapply res_weaken; [apply (shrink_ok _ _ _ _ Hg Hh)|auto|lia]. }
  rewrite Esz; cbn [obind].
  destruct (Nat.ltb_spec max_size (Nat.max (length l) n)) as [Hm|Hm]; [cbn [res]; lia|].
  pose proof (rounded_ge (Nat.max (length l) n)) as [Hr1 Hr2].
  assert (Hnew : res (do (m, t) <- reallocate_prepare elem_size block_size max_size m o 0 (rounded (Nat.max (length l) n) - length l);
         do m <- release m o;
         Ok (set_obj m h (Some (Some t))))
    (fun m' => good m' v [] None)
    (Z.of_nat max_size < Z.of_nat (length l) + Z.of_nat n + block_size)).
  { eapply res_weaken; [apply (renew_ok _ _ _ _ _ _ Hg Hh Eob)|auto|lia]. }
  destruct Hcase as [(-> & -> & _ & -> & ->)|(s & k0 & k & -> & Hb & Hmn & _ & -> & ->)]; cbn [obind andb];
    [exact Hnew|].
  destruct ((k0 =? 1) && _)%bool; [exact Hg|exact Hnew].
Qed.

Lemma get_val v h : val v h <> None -> val v h = Some (get v h).
Proof. unfold get; destruct (val v h); congruence. Qed.

Lemma sources_ok m v x : good m v [] None -> legal_arg v x ->
  exists ss, sources m x = Ok ss /\ srcs_ok m ss (arg_vals v x).
Proof.
  intros Hg Hl; destruct x as [l|n j i|j]; cbn [sources arg_vals legal_arg] in *.
  - exists (map Lit l); split; [reflexivity|apply srcs_lits].
  - destruct Hl as [Hj Hi]; apply get_val in Hj.
    destruct (good_view _ _ _ _ _ Hg Hj) as (o & Eo & Ev & Eob & Ho).
    destruct (view_facts _ _ _ _ Ho) as [Esz Hcase].
    rewrite Eob; cbn [obind]; rewrite Esz; cbn [obind].
    destruct Hcase as [(_ & E & _)|(s & k0 & k & -> & Hb & _)]; [rewrite E in Hi; cbn in Hi; lia|].
    destruct (Nat.ltb_spec i (length (get v j))); [|lia].
    destruct (nth_error (get v j) i) as [a|] eqn:Ea; [|apply nth_error_None in Ea; lia].
    eexists; split; [reflexivity|].
    induction n as [|n IH]; constructor; [|exact IH].
    cbn [fetch]; unfold read_cell; rewrite (block_live _ _ _ Hb); cbn [obind data Blk].
    rewrite nth_all_val, Ea; reflexivity.
  - apply get_val in Hl.
    destruct (good_view _ _ _ _ _ Hg Hl) as (o & Eo & Ev & Eob & Ho).
    destruct (view_facts _ _ _ _ Ho) as [Esz Hcase].
    rewrite Eob; cbn [obind]; rewrite Esz; cbn [obind].
    destruct Hcase as [(-> & E & _)|(s & k0 & k & -> & Hb & _)].
    + eexists; split; [reflexivity|]; rewrite E; constructor.
    + eexists; split; [reflexivity|].
      apply (srcs_range m s k0 (get v j) k [] (get v j) []); [exact Hb|rewrite app_nil_r; reflexivity].
Qed.

Lemma small_cap m v s : small block_size max_size m v s -> forall cap, cap_in m cap -> (8 * cap <= max_size)%nat.
Proof.
  intros (_ & _ & Hb & _) cap [->|(b & Hi & ->)]; [lia|apply Hb; exact Hi].
Qed.
Lemma upd_len v h x : val v h = Some x -> forall y, upd v h y = set_nth v h y.
Proof. intros H y; apply upd_set; apply val_nth in H; eapply nth_lt; exact H. Qed.

Lemma step_ok m v s : good m v [] None -> legal v s ->
  res (run1 elem_size block_size max_size m s)
    (fun m' => exists v', deep v s = Some v' /\ good m' v' [] None)
    (deep v s = None \/ ~ small block_size max_size m v s).
Proof.
  intros Hg Hl.
  destruct s as [|j|j|j tpos tn|h|h j|h j|h|h x|h x|h tpos x|h tpos x|h tpos tn|h n|h pos a|h n a|h n|h];
    cbn [run1 legal deep] in *.
  - cbn [new_empty res]; eexists; split; [reflexivity|]; apply new_obj_ok; [apply good_none; exact Hg|reflexivity].
  - apply get_val in Hl; eapply res_weaken; [apply (new_copy_ok _ _ _ _ Hg Hl)|eauto|tauto].
  - apply get_val in Hl; rewrite (upd_len _ _ _ Hl).
    eapply res_weaken; [apply (new_move_ok _ _ _ _ Hg Hl)|eauto|tauto].
  - apply get_val in Hl; eapply res_weaken; [apply (new_subvec_ok _ _ _ tpos tn _ Hg Hl)| |].
    + intros m' [Ht Hg']; destruct (Nat.leb_spec tpos (length (get v j))); [eauto|lia].
    + intros [Ht|Hm]; [left; destruct (Nat.leb_spec tpos (length (get v j))); [lia|reflexivity]|right].
      intros (_ & _ & _ & Hv & _); specialize (Hv j); lia.
  - apply get_val in Hl; rewrite (upd_len _ _ _ Hl).
    eapply res_weaken; [apply (drop_ok _ _ _ _ Hg Hl)|eauto|tauto].
  - destruct Hl as [Hh Hj]; apply get_val in Hh, Hj; rewrite (upd_len _ _ _ Hh).
    eapply res_weaken; [apply (assign_ok _ _ _ _ _ _ Hg Hh Hj)|eauto|tauto].
  - destruct Hl as [Hh Hj]; apply get_val in Hh, Hj; rewrite (upd_len _ _ _ Hj).
    rewrite upd_set by (rewrite set_nth_length; apply val_nth in Hh; eapply nth_lt; exact Hh).
    eapply res_weaken; [apply (swap_ok _ _ _ _ _ _ Hg Hh Hj)|eauto|tauto].
  - apply get_val in Hl; rewrite (upd_len _ _ _ Hl).
    eapply res_weaken; [apply (clear_ok _ _ _ _ Hg Hl)|eauto|tauto].
  - destruct Hl as [Hh Hx]; apply get_val in Hh; rewrite (upd_len _ _ _ Hh).
    destruct (sources_ok _ _ _ Hg Hx) as (ss & -> & Hs); cbn [obind].
    eapply res_weaken; [apply (append_ok _ _ _ _ _ _ Hg Hh Hs)|eauto|].
    intros (cap & Hc & Hm); right; intros Hsm; pose proof (small_cap _ _ _ Hsm cap Hc) as Hcap.
    destruct Hsm as (_ & _ & _ & Hv & Ha); specialize (Hv h).
    pose proof (Nat.div_le_upper_bound cap 2 cap ltac:(lia) ltac:(lia)); lia.
  - destruct Hl as (Hh & Hx & H1); apply get_val in Hh; rewrite (upd_len _ _ _ Hh).
    destruct (sources_ok _ _ _ Hg Hx) as (ss & -> & Hs); cbn [obind].
    destruct (arg_vals v x) as [|a [|? ?]]; cbn in H1; try lia.
    inversion Hs as [|x0 a' ss' ? Hx0 Hs' Es]; subst; inversion Hs'; subst.
    eapply res_weaken; [apply (push_ok _ _ _ _ _ _ Hg Hh Hx0)|eauto|].
    intros (cap & Hc & Hm); right; intros Hsm; pose proof (small_cap _ _ _ Hsm cap Hc) as Hcap.
    destruct Hsm as (H17 & _ & _ & Hv & Ha); specialize (Hv h).
    pose proof (Nat.div_le_upper_bound cap 2 cap ltac:(lia) ltac:(lia)); lia.
  - destruct Hl as [Hh Hx]; apply get_val in Hh; rewrite (upd_len _ _ _ Hh).
    destruct (sources_ok _ _ _ Hg Hx) as (ss & -> & Hs); cbn [obind].
    eapply res_weaken; [apply (insert_ok _ _ _ tpos false _ _ _ Hg Hh Hs); discriminate| |].
    + intros m' [Ht Hg']; destruct (Nat.leb_spec tpos (length (get v h))); [eauto|lia].
    + intros [Ht|(cap & Hc & Hm)]; [left; destruct (Nat.leb_spec tpos (length (get v h))); [lia|reflexivity]|right].
      intros Hsm; pose proof (small_cap _ _ _ Hsm cap Hc) as Hcap.
      destruct Hsm as (H17 & _ & _ & Hv & Ha); specialize (Hv h).
      pose proof (Nat.div_le_upper_bound cap 2 cap ltac:(lia) ltac:(lia)); lia.
  - destruct Hl as (Hh & Hx & H1); apply get_val in Hh; rewrite (upd_len _ _ _ Hh).
    destruct (sources_ok _ _ _ Hg Hx) as (ss & -> & Hs); cbn [obind].
    pose proof (insert_ok _ _ _ tpos true _ _ _ Hg Hh Hs (fun _ => H1)) as Hi.
    assert (Hss : length ss = 1%nat) by (rewrite (srcs_len _ _ _ Hs); exact H1).
    destruct ss as [|x0 [|? ?]]; cbn in Hss; try lia.
    eapply res_weaken; [exact Hi| |].
    + intros m' [Ht Hg']; destruct (Nat.leb_spec tpos (length (get v h))); [eauto|lia].
    + intros [Ht|(cap & Hc & Hm)]; [left; destruct (Nat.leb_spec tpos (length (get v h))); [lia|reflexivity]|right].
      intros Hsm; pose proof (small_cap _ _ _ Hsm cap Hc) as Hcap.
      destruct Hsm as (H17 & _ & _ & Hv & Ha); specialize (Hv h).
      pose proof (Nat.div_le_upper_bound cap 2 cap ltac:(lia) ltac:(lia)); lia.
  - apply get_val in Hl; rewrite (upd_len _ _ _ Hl).
    eapply res_weaken; [apply (erase_ok _ _ _ tpos tn _ Hg Hl)| |].
    + intros m' [Ht Hg']; destruct (Nat.leb_spec tpos (length (get v h))); [eauto|lia].
    + intros Ht; left; destruct (Nat.leb_spec tpos (length (get v h))); [lia|reflexivity].
  - destruct Hl as [Hh Hn]; apply get_val in Hh; rewrite (upd_len _ _ _ Hh).
    eapply res_weaken; [apply (pop_ok _ _ _ _ _ Hg Hh Hn)|eauto|tauto].
  - apply get_val in Hl; rewrite (upd_len _ _ _ Hl).
    eapply res_weaken; [apply (put_ok _ _ _ pos a _ Hg Hl)| |].
    + intros m' [Ht Hg']; destruct (Nat.ltb_spec pos (length (get v h))); [eauto|lia].
    + intros Ht; left; destruct (Nat.ltb_spec pos (length (get v h))); [lia|reflexivity].
  - apply get_val in Hl; rewrite (upd_len _ _ _ Hl).
    eapply res_weaken; [apply (resize_ok _ _ _ n a _ Hg Hl)|eauto|].
    intros (cap & Hc & Hm); right; intros Hsm; pose proof (small_cap _ _ _ Hsm cap Hc) as Hcap.
    destruct Hsm as (_ & _ & _ & Hv & Ha); specialize (Hv h).
    pose proof (Nat.div_le_upper_bound cap 2 cap ltac:(lia) ltac:(lia)); lia.
  - apply get_val in Hl; eapply res_weaken; [apply (reserve_ok _ _ _ n _ Hg Hl)|eauto|].
    intros Hm; right; intros (_ & Hb & _ & Hv & Hn); specialize (Hv h); lia.
  - apply get_val in Hl; eapply res_weaken; [apply (shrink_ok _ _ _ _ Hg Hl)|eauto|].
    intros Hm; right; intros (_ & _ & _ & Hv & _); specialize (Hv h); lia.
Qed.

Lemma reach_good m v : reach elem_size block_size max_size m v -> good m v [] None.
Proof.
  induction 1 as [|m v s m' v' _ IH Hl Hr Hd].
  - split; [|split; [reflexivity|]].
    + intros s; cbn; destruct s; reflexivity.
    + intros h o x _ Ho; destruct h; discriminate Ho.
  - pose proof (step_ok _ _ _ IH Hl) as Hs; rewrite Hr in Hs; cbn in Hs.
    destruct Hs as (v2 & E & Hg); rewrite Hd in E; injection E as <-; exact Hg.
Qed.

(* ---- what the program sees ---- *)
Lemma read_all_ok m s n k a b : live m s (Blk n 0 (a ++ b) k) ->
  read_all m s (seq (length a) (length b)) = Ok b.
Proof.
  revert a; induction b as [|x b IH]; intros a Hb; cbn [length seq read_all]; [reflexivity|].
  unfold read_cell at 1; rewrite (block_live _ _ _ Hb); cbn [obind data Blk].
  rewrite nth_all_val, nth_mid; cbn [obind].
  specialize (IH (a ++ [x])); rewrite <- app_assoc, app_length in IH; cbn [length app] in IH.
  rewrite Nat.add_1_r in IH; rewrite (IH Hb); reflexivity.
Qed.
Lemma good_denotes m v : good m v [] None -> denotes m v.
Proof.
  intros [_ [Hl Hv]]; unfold denotes.
  assert (H : forall os (xs : values A), length os = length xs ->
    (forall h o x, nth_error os h = Some o -> nth_error xs h = Some x -> fine m o x) ->
    Forall2 (shows m) os xs).
  { induction os as [|o os IH]; intros [|x xs] Hle Hf; cbn in Hle; try lia; constructor.
    - specialize (Hf 0%nat o x eq_refl eq_refl).
      destruct o as [[s|]|], x as [l|]; cbn in *; auto; [|congruence].
      destruct Hf as (n & k & Hb); unfold contents; cbn [size].
      rewrite (block_live _ _ _ Hb); cbn [obind nelem Blk Nat.add].
      apply (read_all_ok m s n k [] l Hb).
    - apply IH; [lia|]; intros h; exact (Hf (S h)). }
  apply H; [exact Hl|]; intros h o x; apply Hv; discriminate.
Qed.
Lemma good_no_leak m v : good m v [] None -> no_leak m.
Proof.
  intros [Hh [Hl Hv]]; split; [|split].
  - intros s; specialize (Hh s); cbn [occ] in Hh; unfold owned; split.
    + intros Hi; apply In_nth_error in Hi as [h Eh].
      pose proof (owners_one _ _ _ s Eh) as H1; cbn [osth] in H1; rewrite hit_self in H1.
      destruct (nth_error (blocks m) s) as [[b|d]|]; [eauto|lia|lia].
    + intros [b Eb]; rewrite Eb in Hh; apply owners_pos; lia.
  - intros s d Ed c Hc; specialize (Hh s); rewrite Ed in Hh.
    destruct Hh as [_ Hh]; rewrite Forall_forall in Hh; apply Hh; exact Hc.
  - intros s b i c Eb Ec; pose proof (Hh s) as Hs; rewrite Eb in Hs; cbn [occ] in Hs.
    assert (Hi : In (Some (Some s)) (objs m)) by (apply owners_pos; lia).
    apply In_nth_error in Hi as [h Eh].
    pose proof (nth_lt _ _ _ Eh) as Hlt; rewrite Hl in Hlt.
    destruct (nth_error v h) as [x|] eqn:Ex; [|apply nth_error_None in Ex; lia].
    specialize (Hv h _ x ltac:(discriminate) Eh Ex); destruct x as [l|]; [|destruct Hv].
    destruct Hv as (n & k & Hb); rewrite Eb in Hb; injection Hb as ->.
    cbn [data Blk nelem Nat.add] in *; rewrite nth_all_val in Ec.
    destruct (nth_error l i) as [a|] eqn:Ea.
    + injection Ec as <-; apply nth_lt in Ea; split; [discriminate|intros _; exact Ea].
    + apply nth_error_None in Ea; destruct (i <? length l + k)%nat; [|discriminate].
      injection Ec as <-; split; [lia|congruence].
Qed.

Theorem vector_values m v : reach elem_size block_size max_size m v -> denotes m v /\ no_leak m.
Proof. intros H; apply reach_good in H; split; [apply good_denotes|eapply good_no_leak]; exact H. Qed.
Theorem vector_step m v s : reach elem_size block_size max_size m v -> legal v s ->
  match run1 elem_size block_size max_size m s with
  | Ok m' => deep v s <> None
  | Throw => deep v s = None \/ ~ small block_size max_size m v s
  | UB => False
  end.
Proof.
  intros H Hl; pose proof (step_ok _ _ _ (reach_good _ _ H) Hl) as Hs.
  destruct (run1 _ _ _ _ _); cbn in Hs; [|exact Hs|exact Hs].
  destruct Hs as (v' & E & _); congruence.
Qed.
End Proofs.
