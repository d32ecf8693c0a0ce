(* Copy-on-write maps: sharing, growth and the operations on handles. *)
From Verif Require Import Base Monad Lists SeqModel CowBase HashModel HashSpec HashProofs.
From Coq Require Import Permutation.

(* ---- pairs as values ---- *)
Section Pairs.
Context {K V : Type}.
Variable eqb : K -> K -> bool.
Hypothesis eqb_ok : forall a b, reflect (a = b) (eqb a b).
Notation pairs := (pairs K V).
Notation assoc := (@assoc K V eqb).
Notation has := (@has K V eqb).
Notation without := (@without K V eqb).

Lemma assoc_some (a : pairs) k v : assoc a k = Some v -> In (k, v) a.
Proof.
  induction a as [|[k' v'] a IH]; cbn; [discriminate|].
  destruct (eqb_ok k' k); intros H; [left; congruence|right; auto].
Qed.
Lemma assoc_in (a : pairs) k v : NoDup (map fst a) -> In (k, v) a -> assoc a k = Some v.
Proof.
  induction a as [|[k' v'] a IH]; cbn; intros Hn H; [contradiction|].
  inversion Hn as [|? ? H1 H2]; subst.
  destruct H as [H|H].
  - injection H as -> ->. destruct (eqb_ok k k); congruence.
  - destruct (eqb_ok k' k) as [->|]; [|auto].
    exfalso; apply H1. apply (in_map fst) in H; exact H.
Qed.
Lemma assoc_none (a : pairs) k : assoc a k = None <-> ~ In k (map fst a).
Proof.
  induction a as [|[k' v'] a IH]; cbn; [tauto|].
  destruct (eqb_ok k' k) as [->|Hne]; [split; [discriminate|tauto]|].
  rewrite IH; tauto.
Qed.
Lemma has_in (a : pairs) k : has a k = true <-> In k (map fst a).
Proof.
  unfold HashSpec.has. pose proof (assoc_none a k) as H.
  destruct (assoc a k) eqn:E.
  - split; [|auto]. intros _. apply (in_map fst) with (x := (k, v)). apply assoc_some; exact E.
  - split; [discriminate|]. intros Hi. exfalso; apply (proj1 H); auto.
Qed.
Lemma has_not (a : pairs) k : has a k = false <-> ~ In k (map fst a).
Proof. rewrite <- has_in. destruct (has a k); split; congruence. Qed.
Lemma has_perm (a b : pairs) k : Permutation a b -> has a k = has b k.
Proof.
  intros HP. destruct (has b k) eqn:E.
  - apply has_in. apply has_in in E. eapply Permutation_in; [|exact E]. apply Permutation_map. symmetry; exact HP.
  - apply has_not. apply has_not in E. intros H; apply E.
    eapply Permutation_in; [|exact H]. apply Permutation_map; exact HP.
Qed.
Lemma without_perm (a b : pairs) k : Permutation a b -> Permutation (without a k) (without b k).
Proof.
  intros H; induction H as [|x a b H IH|x y a|a b c H1 IH1 H2 IH2]; unfold HashSpec.without in *; cbn.
  - constructor.
  - destruct (negb (eqb (fst x) k)); [constructor|]; exact IH.
  - destruct (negb (eqb (fst x) k)), (negb (eqb (fst y) k)); repeat constructor; apply Permutation_refl.
  - eapply perm_trans; eassumption.
Qed.
Lemma without_absent (a : pairs) k : ~ In k (map fst a) -> without a k = a.
Proof.
  unfold HashSpec.without; induction a as [|[k' v'] a IH]; cbn; intros H; [reflexivity|].
  destruct (eqb_ok k' k) as [->|]; [tauto|]. cbn. rewrite IH by tauto; reflexivity.
Qed.
Lemma without_cons (a r : pairs) k v : NoDup (map fst a) -> Permutation a ((k, v) :: r) ->
  Permutation (without a k) r /\ ~ In k (map fst r).
Proof.
  intros Hn HP.
  assert (Hk : ~ In k (map fst r)).
  { eapply Permutation_NoDup in Hn; [|apply Permutation_map; exact HP]. cbn in Hn. inversion Hn; auto. }
  split; [|exact Hk].
  eapply perm_trans; [apply without_perm; exact HP|].
  unfold HashSpec.without; cbn. destruct (eqb_ok k k); [|congruence]. cbn.
  fold (without r k). rewrite without_absent by exact Hk. apply Permutation_refl.
Qed.
Lemma without_nodup (a : pairs) k : NoDup (map fst a) -> NoDup (map fst (without a k)).
Proof.
  unfold HashSpec.without; induction a as [|[k' v'] a IH]; cbn; intros H; [constructor|].
  inversion H as [|? ? H1 H2]; subst.
  destruct (negb (eqb k' k)); cbn; [|auto].
  constructor; [|auto]. intros Hi; apply H1.
  apply in_map_iff in Hi. destruct Hi as ([k2 v2] & E & Hi). apply filter_In in Hi.
  cbn in E; subst k2. apply (in_map fst) with (x := (k', v2)). tauto.
Qed.
Lemma without_not (a : pairs) k : ~ In k (map fst (without a k)).
Proof.
  intros H. apply in_map_iff in H. destruct H as ([k2 v2] & E & Hi). apply filter_In in Hi.
  cbn in E; subst k2. destruct Hi as [_ Hi]; cbn in Hi. destruct (eqb_ok k k); [discriminate|congruence].
Qed.
Lemma add_perm (a b : pairs) k v : Permutation a b -> Permutation (add eqb a k v) (add eqb b k v).
Proof.
  intros H; unfold add; rewrite (has_perm _ _ k H). destruct (has b k); [exact H|constructor; exact H].
Qed.
Lemma add_all_perm l : forall a b : pairs, Permutation a b -> Permutation (add_all eqb a l) (add_all eqb b l).
Proof.
  induction l as [|[k v] l IH]; intros a b H; [exact H|].
  unfold add_all in *; cbn. apply IH. apply add_perm; exact H.
Qed.
Lemma put_perm (a b : pairs) k v : Permutation a b -> Permutation (put eqb a k v) (put eqb b k v).
Proof. intros H; unfold put; constructor; apply without_perm; exact H. Qed.
End Pairs.

Section Heap.
Context {K V : Type}.
Variable eqb : K -> K -> bool.
Variable hash : K -> Z.
Hypothesis eqb_ok : forall a b, reflect (a = b) (eqb a b).
Implicit Types (m : mem K V) (v : values K V).
Notation table := (table K V).
Notation pairs := (pairs K V).
Notation wf := (wf hash).

Lemma set_nth_app {A} (a b : list A) i x : (i < length a)%nat -> set_nth (a ++ b) i x = set_nth a i x ++ b.
Proof.
  revert i; induction a as [|y a IH]; intros [|i] H; cbn in *; try lia; [reflexivity|].
  f_equal; apply IH; lia.
Qed.
Lemma upd_set v h x : (h < length v)%nat -> upd v h x = set_nth v h x.
Proof.
  unfold upd; revert h; induction v as [|y v IH]; intros [|h]; cbn; intros H; try lia; auto.
  f_equal; apply IH; lia.
Qed.
Lemma val_nth v h x : val v h = Some x -> nth_error v h = Some (Some x).
Proof. unfold val; destruct (nth_error v h) as [[y|]|]; congruence. Qed.
Lemma val_get v h : val v h <> None -> val v h = Some (get v h).
Proof. unfold get; destruct (val v h); congruence. Qed.

(* a table in use: at most half full *)
Definition tok (t : table) : Prop := wf t /\ (nelem t <= capacity_of t)%nat /\ (0 < length (bkts t))%nat.
Lemma tok_room t : tok t -> (nelem t < length (bkts t))%nat.
Proof.
  intros (_ & H & Hp). unfold capacity_of in H.
  pose proof (Nat.div_lt (length (bkts t)) 2 Hp ltac:(lia)). lia.
Qed.

Definition heap_ok m (ex : list (option nat)) : Prop :=
  forall s, match nth_error (blocks m) s with
            | Some (Live b) => nref b = owners (objs m) s + occ ex s /\ 0 < nref b /\ tok (tab b)
            | _ => owners (objs m) s + occ ex s = 0
            end.
Definition live m (s : nat) (b : storage K V) : Prop := nth_error (blocks m) s = Some (Live b).
Definition fine m (o : option (option nat)) (x : option pairs) : Prop :=
  match o, x with
  | Some None, Some l => l = []
  | Some (Some s), Some l => exists b, live m s b /\ Permutation (entries (bkts (tab b))) l
  | None, None => True
  | _, _ => False
  end.
Definition good m v (ex : list (option nat)) : Prop :=
  heap_ok m ex /\ length (objs m) = length v /\
  forall h o x, nth_error (objs m) h = Some o -> nth_error v h = Some x -> fine m o x.

Lemma block_live m s b : live m s b -> block m s = Ok b.
Proof. unfold live, block; intros ->; reflexivity. Qed.
Lemma set_live m s b s' : live m s b ->
  forall b', nth_error (blocks (set_block m s b')) s' = if (s =? s')%nat then Some b' else nth_error (blocks m) s'.
Proof. intros H b'; cbn; apply nth_set; eapply nth_lt; exact H. Qed.

(* what a map is, in a good state *)
Definition handle m h (o : option nat) (l : pairs) : Prop :=
  nth_error (objs m) h = Some (Some o) /\ obj m h = Ok o /\
  match o with
  | None => l = []
  | Some s => exists b, live m s b /\ 0 < nref b /\ tok (tab b) /\
      Permutation (entries (bkts (tab b))) l /\
      (nref b = 1 -> forall h', h' <> h -> nth_error (objs m) h' <> Some (Some (Some s)))
  end.
Lemma good_view m v ex h l : good m v ex -> val v h = Some l -> exists o, handle m h o l.
Proof.
  intros (Hh & Hl & Hv) E; apply val_nth in E.
  pose proof (nth_lt _ _ _ E) as Hlt; rewrite <- Hl in Hlt.
  destruct (nth_error (objs m) h) as [o|] eqn:Eo; [|apply nth_error_None in Eo; lia].
  specialize (Hv h o (Some l) Eo E).
  destruct o as [o|]; [|destruct Hv].
  exists o; split; [exact Eo|split; [unfold obj; rewrite Eo; reflexivity|]].
  destruct o as [s|]; [|exact Hv].
  destruct Hv as (b & Hb & HP); exists b; split; [exact Hb|].
  specialize (Hh s); rewrite Hb in Hh. destruct Hh as (Hn & Hp & Ht).
  split; [exact Hp|]. split; [exact Ht|]. split; [exact HP|].
  intros H1 h' Hne Eo'.
  pose proof (owners_two _ h _ h' _ s ltac:(congruence) Eo Eo') as H2; cbn [osth] in H2.
  rewrite hit_self in H2. pose proof (occ_nonneg ex s). lia.
Qed.

Lemma acquire_ok m v ex x : good m v ex -> (forall s, x = Some s -> exists b, live m s b) ->
  exists m', acquire m x = Ok m' /\ good m' v (x :: ex) /\ objs m' = objs m /\
    forall s b, live m s b -> exists n, live m' s (Storage n (tab b)).
Proof.
  intros (Hh & Hl & Hv) Ha; destruct x as [s|].
  2: { exists m. split; [reflexivity|]. split; [split; [|auto]|].
       - intros s; specialize (Hh s); cbn; exact Hh.
       - split; [reflexivity|]. intros s b H; exists (nref b); destruct b; exact H. }
  destruct (Ha s eq_refl) as [b Eb]; cbn [acquire]; rewrite (block_live _ _ _ Eb); cbn [obind].
  assert (Hk : forall s' b', live m s' b' ->
               exists n, live (set_block m s (Live (Storage (nref b + 1) (tab b)))) s' (Storage n (tab b'))).
  { intros s' b' Hb'; unfold live. rewrite (set_live _ _ _ _ Eb).
    destruct (Nat.eqb_spec s s') as [<-|Hn].
    - unfold live in *; rewrite Eb in Hb'; injection Hb' as <-; eexists; reflexivity.
    - exists (nref b'); destruct b'; exact Hb'. }
  eexists; split; [reflexivity|]. split; [split; [|split; [exact Hl|]]|split; [reflexivity|exact Hk]].
  - intros s'; specialize (Hh s'); rewrite (set_live _ _ _ _ Eb); cbn [objs set_block occ hit].
    unfold live in Eb; destruct (Nat.eqb_spec s s') as [<-|Hn].
    + rewrite Eb in Hh; cbn [nref tab]; split; [lia|split; [lia|apply Hh]].
    + destruct (nth_error (blocks m) s') as [[b'|]|]; [|lia|lia].
      split; [lia|split; [lia|apply Hh]].
  - intros h o x Ho Hx; cbn in Ho; specialize (Hv h o x Ho Hx).
    destruct o as [[s'|]|], x as [l|]; cbn [fine] in *; auto.
    destruct Hv as (b' & Hb' & HP). destruct (Hk _ _ Hb') as [n Hn].
    exists (Storage n (tab b')); split; [exact Hn|exact HP].
Qed.

Lemma release_ok m v ex x : good m v (x :: ex) ->
  exists m', release m x = Ok m' /\ good m' v ex.
Proof.
  intros (Hh & Hl & Hv); destruct x as [s|].
  2: { exists m; split; [reflexivity|]; split; [|auto].
       intros s; specialize (Hh s); cbn in Hh; exact Hh. }
  pose proof (Hh s) as Hs; cbn [occ] in Hs; rewrite hit_self in Hs.
  pose proof (owners_nonneg (objs m) s) as Ho0; pose proof (occ_nonneg ex s) as He0.
  destruct (nth_error (blocks m) s) as [[b|]|] eqn:Eb; [|lia|lia].
  cbn [release]; rewrite (block_live _ _ _ Eb); cbn [obind].
  destruct Hs as (Hn & Hp & Hs).
  destruct (Z.eqb_spec (nref b - 1) 0) as [Ez|Ez].
  - eexists; split; [reflexivity|]; split; [|split; [exact Hl|]].
    + intros s'; specialize (Hh s'); rewrite (set_live _ _ _ _ Eb); cbn [objs set_block occ hit] in *.
      destruct (Nat.eqb_spec s s') as [E|Hne]; [subst s'; lia|].
      destruct (nth_error (blocks m) s') as [[b'|]|]; [|lia|lia].
      split; [lia|split; [lia|apply Hh]].
    + intros h o y Ho Hy; cbn in Ho; specialize (Hv h o y Ho Hy).
      destruct o as [[s'|]|], y as [l|]; cbn [fine] in *; auto.
      unfold live in *; rewrite (set_live _ _ _ _ Eb); destruct (Nat.eqb_spec s s') as [E|Hne']; [|exact Hv].
      subst s'; pose proof (owners_one _ _ _ s Ho) as H1; cbn [osth] in H1; rewrite hit_self in H1; lia.
  - eexists; split; [reflexivity|]; split; [|split; [exact Hl|]].
    + intros s'; specialize (Hh s'); rewrite (set_live _ _ _ _ Eb); cbn [objs set_block occ hit] in *.
      destruct (Nat.eqb_spec s s') as [E|Hne].
      * subst s'; cbn [nref tab]; split; [lia|split; [lia|exact Hs]].
      * destruct (nth_error (blocks m) s') as [[b'|]|]; [|lia|lia].
        split; [lia|split; [lia|apply Hh]].
    + intros h o y Ho Hy; cbn in Ho; specialize (Hv h o y Ho Hy).
      destruct o as [[s'|]|], y as [l|]; cbn [fine] in *; auto.
      destruct Hv as (b' & Hb & HP).
      unfold live in *; rewrite (set_live _ _ _ _ Eb); destruct (Nat.eqb_spec s s') as [E|Hne']; [|eauto].
      subst s'; rewrite Eb in Hb; injection Hb as <-.
      eexists; split; [reflexivity|exact HP].
Qed.
Lemma release_set_obj m h x o : release (set_obj m h x) o =
  match release m o with Ok m' => Ok (set_obj m' h x) | Throw => Throw | UB => UB end.
Proof.
  destruct o as [s|]; cbn; [|reflexivity].
  unfold block; cbn [set_obj blocks]; destruct (nth_error (blocks m) s) as [[b|]|]; cbn; try reflexivity.
  destruct (nref b - 1 =? 0); reflexivity.
Qed.

Lemma fine_blocks m m' o x : blocks m' = blocks m -> fine m o x -> fine m' o x.
Proof. unfold fine, live; intros ->; auto. Qed.
Lemma set_obj_ok m v ex h o o' x : good m v (osth o' :: ex) ->
  nth_error (objs m) h = Some o -> fine m o' x ->
  good (set_obj m h o') (set_nth v h x) (osth o :: ex).
Proof.
  intros (Hh & Hl & Hv) Eo Hf; pose proof (nth_lt _ _ _ Eo) as Hlt; split; [|split].
  - intros s; specialize (Hh s); cbn [blocks objs set_obj occ] in *.
    rewrite (owners_set _ _ _ _ s Eo).
    destruct (nth_error (blocks m) s) as [[b|]|]; [|lia|lia].
    split; [lia|split; [lia|apply Hh]].
  - cbn; rewrite !set_nth_length; exact Hl.
  - intros h' p y; cbn [objs set_obj].
    rewrite !nth_set by lia; destruct (Nat.eqb_spec h h') as [E|Hn].
    + intros [= <-] [= <-]; eapply fine_blocks; [|exact Hf]; reflexivity.
    + intros Hp Hy. specialize (Hv h' p y Hp Hy); eapply fine_blocks; [|exact Hv]; reflexivity.
Qed.
Lemma new_obj_ok m v ex o x : good m v (o :: ex) -> fine m (Some o) (Some x) ->
  good (new_obj m o) (v ++ [Some x]) ex.
Proof.
  intros (Hh & Hl & Hv) Hf; split; [|split].
  - intros s; specialize (Hh s); cbn [blocks objs new_obj occ] in *.
    rewrite owners_app; cbn [owners osth].
    destruct (nth_error (blocks m) s) as [[b|]|]; [|lia|lia].
    split; [lia|split; [lia|apply Hh]].
  - cbn; rewrite !app_length, Hl; reflexivity.
  - intros h p y; cbn [objs new_obj]; rewrite !nth_snoc, Hl.
    destruct (Nat.ltb_spec h (length v)).
    + intros Hp Hy; specialize (Hv h p y Hp Hy).
      eapply fine_blocks; [|exact Hv]; reflexivity.
    + destruct (Nat.eqb_spec h (length v)); [|discriminate].
      intros [= <-] [= <-]; eapply fine_blocks; [|exact Hf]; reflexivity.
Qed.
Lemma set_two_ok m v ex h j o p o' p' x y : good m v ex -> h <> j ->
  nth_error (objs m) h = Some o -> nth_error (objs m) j = Some p ->
  (forall s, hit s (osth o') + hit s (osth p') = hit s (osth o) + hit s (osth p)) ->
  fine m o' x -> fine m p' y ->
  good (set_obj (set_obj m j p') h o') (set_nth (set_nth v j y) h x) ex.
Proof.
  intros (Hh & Hl & Hv) Hne Eo Ep Hs Hfo Hfp.
  pose proof (nth_lt _ _ _ Eo) as Hlt; pose proof (nth_lt _ _ _ Ep) as Hlt'; split; [|split].
  - intros s; specialize (Hh s); specialize (Hs s); cbn [blocks objs set_obj] in *.
    rewrite (owners_set _ h o), (owners_set _ _ _ _ s Ep)
      by (rewrite nth_set_other by lia; exact Eo).
    destruct (nth_error (blocks m) s) as [[b|]|]; [|lia|lia].
    split; [lia|split; [lia|apply Hh]].
  - cbn; rewrite !set_nth_length; exact Hl.
  - intros h' q z; cbn [objs set_obj].
    rewrite !nth_set by (rewrite ?set_nth_length; lia).
    destruct (Nat.eqb_spec h h') as [Eh|Hn].
    + intros [= <-] [= <-]; eapply fine_blocks; [|exact Hfo]; reflexivity.
    + destruct (Nat.eqb_spec j h') as [Ej|Hn'].
      * intros [= <-] [= <-]; eapply fine_blocks; [|exact Hfp]; reflexivity.
      * intros Hp Hy; specialize (Hv h' q z Hp Hy).
        eapply fine_blocks; [|exact Hv]; reflexivity.
Qed.

(* ---- changes of a table ---- *)
(* in place, in a block that is not shared *)
Lemma edit_ok m v h s b t l x : good m v [] -> handle m h (Some s) l -> val v h = Some l ->
  live m s b -> nref b = 1 -> tok t -> Permutation (entries (bkts t)) x ->
  exists m', set_tab m s t = Ok m' /\ good m' (set_nth v h (Some x)) [] /\
    m' = set_block m s (Live (Storage 1 t)).
Proof.
  intros (Hh & Hl & Hv) (Eo & _ & (b' & Hb' & _ & _ & _ & Hm)) Ev Hb H1 Ht HP.
  unfold live in Hb'. unfold live in Hb. assert (b' = b) by congruence. subst b'.
  specialize (Hm H1). apply val_nth in Ev.
  unfold set_tab. rewrite (block_live _ _ _ Hb); cbn [obind]. rewrite H1; cbn.
  eexists; split; [reflexivity|]. split; [|reflexivity]. split; [|split].
  - intros s'; specialize (Hh s'). rewrite (set_live _ _ _ _ Hb). cbn [objs set_block].
    destruct (Nat.eqb_spec s s') as [<-|]; [|exact Hh].
    rewrite Hb in Hh; cbn [nref tab]. split; [lia|split; [lia|exact Ht]].
  - cbn. rewrite set_nth_length; exact Hl.
  - intros h' o y Ho. cbn in Ho. rewrite nth_set by (eapply nth_lt; exact Ev).
    destruct (Nat.eqb_spec h h') as [<-|Hne].
    + intros [= <-]. rewrite Eo in Ho; injection Ho as <-. cbn [fine]. unfold live.
      eexists; rewrite (set_live _ _ _ _ Hb), Nat.eqb_refl; split; [reflexivity|exact HP].
    + intros Hy. specialize (Hv h' o y Ho Hy).
      destruct o as [[s'|]|], y as [z|]; cbn [fine] in *; auto.
      unfold live in *. rewrite (set_live _ _ _ _ Hb).
      destruct (Nat.eqb_spec s s') as [<-|]; [|exact Hv].
      exfalso. exact (Hm h' ltac:(congruence) Ho).
Qed.
(* a handle whose values were moved out of its block, if it is not shared *)
Definition emptied m (o : option nat) m' : Prop :=
  m' = m \/ exists s b old, o = Some s /\ live m s b /\ nref b = 1 /\
            m' = set_block m s (Live (Storage 1 old)).
Lemma install_ok m m1 v h o l t x : good m v [] -> handle m h o l -> val v h = Some l ->
  emptied m o m1 -> tok t -> Permutation (entries (bkts t)) x ->
  exists m', install m1 h o t = Ok m' /\ good m' (set_nth v h (Some x)) [] /\
    obj m' h = Ok (Some (length (blocks m))) /\ live m' (length (blocks m)) (Storage 1 t).
Proof.
  intros Hg Hd Ev He Ht HP.
  pose proof Hg as (Hh & Hl & Hv). pose proof Hd as (Eo & _ & _).
  pose proof (nth_lt _ _ _ Eo) as Hlt.
  assert (Hlen : length (blocks m1) = length (blocks m)).
  { destruct He as [->|(s & b & old & _ & _ & _ & ->)]; [reflexivity|]. cbn; apply set_nth_length. }
  assert (Hobj : objs m1 = objs m).
  { destruct He as [->|(s & b & old & _ & _ & _ & ->)]; reflexivity. }
  set (n := length (blocks m)) in *.
  (* without the move out *)
  set (ma := Mem (blocks m ++ [Live (Storage 1 t)]) (set_nth (objs m) h (Some (Some n)))).
  assert (Hnew : owners (objs m) n = 0 /\ live ma n (Storage 1 t)).
  { split.
    - specialize (Hh n). rewrite (proj2 (nth_error_None _ _)) in Hh by (unfold n; lia). cbn in Hh; lia.
    - unfold live, ma; cbn. rewrite nth_snoc. fold n. rewrite Nat.ltb_irrefl, Nat.eqb_refl; reflexivity. }
  destruct Hnew as [Hz Hln].
  assert (Hkeep : forall s b, live m s b -> live ma s b /\ s <> n).
  { intros s b Hb. pose proof (nth_lt _ _ _ Hb) as Hs. fold n in Hs. split; [|lia].
    unfold live, ma; cbn. rewrite nth_error_app1 by exact Hs. exact Hb. }
  assert (Hga : good ma (set_nth v h (Some x)) [o]).
  { split; [|split].
    - intros s. specialize (Hh s). cbn [blocks objs ma occ].
      rewrite (owners_set _ _ _ _ s Eo). cbn [osth]. rewrite nth_snoc. fold n.
      destruct (Nat.ltb_spec s n) as [Hs|Hs].
      + assert (Hs0 : hit s (Some n) = 0) by (cbn; destruct (Nat.eqb_spec n s); lia).
        destruct (nth_error (blocks m) s) as [[b|]|]; cbn [occ] in Hh; [|lia|lia].
        split; [lia|split; [lia|apply Hh]].
      + rewrite (proj2 (nth_error_None _ _)) in Hh by (fold n; lia). cbn [occ] in Hh.
        pose proof (owners_one _ _ _ s Eo) as Ho1; cbn [osth] in Ho1.
        pose proof (hit_nonneg s o).
        destruct (Nat.eqb_spec s n) as [->|Hne].
        * rewrite hit_self. cbn [nref tab]. split; [lia|split; [lia|exact Ht]].
        * assert (Hs0 : hit s (Some n) = 0) by (cbn; destruct (Nat.eqb_spec n s); lia). lia.
    - cbn. rewrite !set_nth_length; exact Hl.
    - intros h' p y. cbn [objs ma]. rewrite !nth_set by lia.
      destruct (Nat.eqb_spec h h') as [<-|Hne].
      + intros [= <-] [= <-]. cbn [fine]. eexists; split; [exact Hln|exact HP].
      + intros Hp Hy. specialize (Hv h' p y Hp Hy).
        destruct p as [[s'|]|], y as [z|]; cbn [fine] in *; auto.
        destruct Hv as (b & Hb & HPb). exists b; split; [apply Hkeep; exact Hb|exact HPb]. }
  destruct (release_ok ma _ _ o Hga) as (m' & Er & Hg').
  unfold install. rewrite Hlen, Hobj.
  assert (Eb : release (Mem (blocks m1 ++ [Live (Storage 1 t)]) (set_nth (objs m) h (Some (Some n)))) o = Ok m').
  { destruct He as [->|(s & b & old & -> & Hb & H1 & ->)]; [exact Er|].
    destruct (Hkeep _ _ Hb) as [Hba Hsn].
    cbn [release] in Er |- *. rewrite (block_live _ _ _ Hba) in Er. cbn [obind] in Er.
    rewrite H1 in Er. cbn in Er. injection Er as <-.
    unfold block; cbn [blocks set_block].
    assert (Hs : (s < n)%nat) by (eapply nth_lt; exact Hb).
    rewrite nth_error_app1 by (rewrite set_nth_length; exact Hs).
    rewrite nth_set_same by exact Hs. cbn [obind nref]. cbn. unfold set_block; cbn [blocks objs ma].
    rewrite !set_nth_app by (rewrite ?set_nth_length; exact Hs). rewrite set_nth_twice. reflexivity. }
  cbn beta zeta. rewrite Eb. exists m'. split; [reflexivity|]. split; [exact Hg'|].
  assert (Hom : objs m' = objs ma).
  { destruct o as [s|]; [|injection Er as <-; reflexivity]. cbn [release] in Er.
    destruct (block ma s); cbn [obind] in Er; try discriminate.
    destruct (nref a - 1 =? 0); injection Er as <-; reflexivity. }
  split.
  - unfold obj. rewrite Hom. cbn [objs ma]. rewrite nth_set_same by exact Hlt. reflexivity.
  - assert (Hon : o <> Some n).
    { intros ->. pose proof (owners_one _ _ _ n Eo) as Ho1; cbn [osth] in Ho1.
      rewrite hit_self in Ho1; lia. }
    unfold live in *. destruct o as [s|]; [|injection Er as <-; exact Hln]. cbn [release] in Er.
    destruct (block ma s) as [b'| |] eqn:Eb'; cbn [obind] in Er; try discriminate.
    assert (Hlb : live ma s b').
    { unfold block in Eb'; unfold live. destruct (nth_error (blocks ma) s) as [[]|]; congruence. }
    assert (Hsn : s <> n) by congruence.
    destruct (nref b' - 1 =? 0); injection Er as <-; rewrite (set_live _ _ _ _ Hlb);
      destruct (Nat.eqb_spec s n); try contradiction; exact Hln.
Qed.
End Heap.
