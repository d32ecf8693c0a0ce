From Verif Require Import Base Monad Lists SeqModel CowBase CowStrModel CowStrSpec.

(* ---- lists ---- *)
Lemma upd_set (v : values) h x : (h < length v)%nat -> upd v h x = set_nth v h x.
Proof.
  unfold upd; revert h; induction v as [|y v IH]; intros [|h]; cbn; intros H; try lia; auto.
  f_equal; apply IH; lia.
Qed.
Lemma val_nth v h x : val v h = Some x -> nth_error v h = Some (Some x).
Proof. unfold val; destruct (nth_error v h) as [[y|]|]; congruence. Qed.

(* ---- characters ---- *)
Lemma cut_ok l off n : forall r, cut l off n = Ok r ->
  exists a b, l = a ++ r ++ b /\ length a = off /\ length r = n.
Proof.
  unfold cut; intros r; destruct (Nat.leb_spec (off + n) (length l)) as [H|H]; [|discriminate].
  intros E; injection E as <-.
  exists (firstn off l), (skipn n (skipn off l)); split; [|split].
  - rewrite firstn_skipn, firstn_skipn; reflexivity.
  - apply firstn_length_le; lia.
  - rewrite firstn_length, skipn_length; lia.
Qed.
Lemma cut_app a r b off n : length a = off -> length r = n -> cut (a ++ r ++ b) off n = Ok r.
Proof.
  intros <- <-; unfold cut; rewrite !app_length.
  destruct (Nat.leb_spec (length a + length r) (length a + (length r + length b))); [|lia].
  rewrite skipn_length_app, firstn_length_app; reflexivity.
Qed.

(* ---- ownership ---- *)
Definition osth (o : option cstr) : option nat := match o with Some o => sth o | None => None end.
Fixpoint owners (l : list (option cstr)) (s : nat) : Z :=
  match l with [] => 0 | o :: t => hit s (osth o) + owners t s end.

Lemma owners_nonneg l s : 0 <= owners l s.
Proof. induction l as [|o l IH]; cbn; [lia|]; pose proof (hit_nonneg s (osth o)); lia. Qed.
Lemma owners_app a b s : owners (a ++ b) s = owners a s + owners b s.
Proof. induction a as [|o a IH]; cbn; [lia|]; rewrite IH; lia. Qed.
Lemma owners_set l h o o' s : nth_error l h = Some o ->
  owners (set_nth l h o') s = owners l s - hit s (osth o) + hit s (osth o').
Proof.
  revert h; induction l as [|y l IH]; intros [|h]; cbn; intros H; try discriminate.
  - injection H as ->; lia.
  - rewrite (IH _ H); lia.
Qed.
Lemma owners_one l h o s : nth_error l h = Some o -> hit s (osth o) <= owners l s.
Proof.
  revert h; induction l as [|y l IH]; intros [|h]; cbn; intros H; try discriminate.
  - injection H as ->; pose proof (owners_nonneg l s); lia.
  - specialize (IH _ H); pose proof (hit_nonneg s (osth y)); lia.
Qed.
Lemma owners_two l h o h' o' s : h <> h' -> nth_error l h = Some o -> nth_error l h' = Some o' ->
  hit s (osth o) + hit s (osth o') <= owners l s.
Proof.
  revert h h'; induction l as [|y l IH]; intros [|h] [|h'] Hne; cbn; intros H H'; try discriminate;
    try (exfalso; apply Hne; reflexivity).
  - injection H as ->; pose proof (owners_one l h' o' s H'); lia.
  - injection H' as ->; pose proof (owners_one l h o s H); lia.
  - specialize (IH h h' ltac:(lia) H H'); pose proof (hit_nonneg s (osth y)); lia.
Qed.
Lemma owners_pos l s : 0 < owners l s -> exists o, In (Some o) l /\ sth o = Some s.
Proof.
  induction l as [|[o|] l IH]; cbn; intros H; [lia| |].
  - destruct (Z.eq_dec (hit s (sth o)) 0) as [E|E].
    + destruct IH as [o' [Hi Ho]]; [lia|]; exists o'; auto.
    + exists o; split; [left; reflexivity|].
      destruct (sth o) as [t|]; cbn in E; [|lia].
      destruct (Nat.eqb_spec t s); [congruence|lia].
  - destruct IH as [o' [Hi Ho]]; [lia|]; exists o'; auto.
Qed.

Definition huge : Z := 2 ^ 63.
Definition heap_ok (m : mem) (ex : list (option nat)) : Prop :=
  forall s, match nth_error (blocks m) s with
            | Some (Some b) =>
                nref b = owners (objs m) s + occ ex s /\ 0 < nref b /\
                0 < Z.of_nat (length (cells b)) < huge
            | _ => owners (objs m) s + occ ex s = 0
            end.
Definition ptr_ok (o : cstr) : Prop :=
  match ptr o with InStor s _ => sth o = Some s | InLit _ _ => True end.
Definition lined (o : cstr) : Prop :=
  sth o = None \/ len o = 0%nat \/ exists s, ptr o = InStor s 0.

Definition alive (m : mem) (x : option nat) : Prop :=
  match x with Some s => exists b, nth_error (blocks m) s = Some (Some b) | None => True end.
Definition keeps (m m' : mem) : Prop :=
  objs m' = objs m /\ forall p n l, read m p n = Ok l -> read m' p n = Ok l.

Section Inv.
Variable fresh : nat -> nat -> Z.
(* what is known of the objects besides *)
Variable al : cstr -> Prop.
Hypothesis al_start : forall s n, al (Cstr (InStor s 0) n (Some s)).
Hypothesis al_zstr : forall x, al (Cstr zstr 0 x).
Hypothesis al_lit : forall p n, al (Cstr p n None).

Definition fine (m : mem) (o : option cstr) (x : option bytes) : Prop :=
  match o, x with
  | Some o, Some x =>
      read m (ptr o) (S (len o)) = Ok (x ++ [0]) /\ length x = len o /\ ptr_ok o /\ al o
  | None, None => True
  | _, _ => False
  end.
(* objects have their values, except for the one in [hole] *)
Definition vals (m : mem) (v : values) (hole : option nat) : Prop :=
  length (objs m) = length v /\
  forall h o x, Some h <> hole -> nth_error (objs m) h = Some o -> nth_error v h = Some x ->
    fine m o x.
Definition good (m : mem) (v : values) (ex : list (option nat)) (hole : option nat) : Prop :=
  heap_ok m ex /\ vals m v hole.

Lemma good_hole m v ex hole : good m v ex None -> good m v ex hole.
Proof.
  intros [Hh [Hl Hv]]; split; [exact Hh|split; [exact Hl|]].
  intros h o x _; apply Hv; discriminate.
Qed.
Lemma fine_keeps m m' o x : (forall p n l, read m p n = Ok l -> read m' p n = Ok l) ->
  fine m o x -> fine m' o x.
Proof.
  intros Hr; destruct o as [o|], x as [x|]; cbn; auto.
  intros (H & Hl & Hp & Ha); auto.
Qed.

Lemma good_obj m v ex h x : good m v ex None -> val v h = Some x ->
  exists o, nth_error (objs m) h = Some (Some o) /\ nth_error v h = Some (Some x) /\
            obj m h = Ok o /\ fine m (Some o) (Some x) /\ alive m (sth o).
Proof.
  intros [Hh [Hl Hv]] E; apply val_nth in E.
  pose proof (nth_lt _ _ _ E) as Hlt; rewrite <- Hl in Hlt.
  destruct (nth_error (objs m) h) as [o|] eqn:Eo; [|apply nth_error_None in Eo; lia].
  specialize (Hv h o (Some x) ltac:(discriminate) Eo E).
  destruct o as [o|]; [|destruct Hv].
  exists o; unfold obj; rewrite Eo; repeat (split; [auto|]); auto.
  destruct (sth o) as [s|] eqn:Es; cbn; [|exact I].
  specialize (Hh s); pose proof (owners_one _ _ _ s Eo) as H1; cbn in H1; rewrite Es, hit_self in H1.
  pose proof (occ_nonneg ex s).
  destruct (nth_error (blocks m) s) as [[b|]|]; [eauto|lia|lia].
Qed.

(* ---- elementary steps ---- *)
Lemma acquire_ok m v ex hole x : good m v ex hole -> alive m x ->
  exists m', acquire m x = Ok m' /\ good m' v (x :: ex) hole /\ keeps m m'.
Proof.
  intros [Hh Hv] Ha; destruct x as [s|]; cbn in *.
  2: { exists m; split; [reflexivity|split; [|split; auto]].
       split; [|exact Hv]; intros s; specialize (Hh s); cbn; exact Hh. }
  destruct Ha as [b Eb]; unfold block; rewrite Eb; cbn.
  assert (Hk : keeps m (set_block m s (Some (Storage (nref b + 1) (cells b))))).
  { split; [reflexivity|]; intros [l0 off|s' off] n l; cbn; auto.
    unfold block; cbn; rewrite nth_set by (eapply nth_lt; eauto).
    destruct (Nat.eqb_spec s s') as [<-|Hn]; [rewrite Eb|]; auto. }
  eexists; split; [reflexivity|split; [|exact Hk]].
  split.
  - intros s'; specialize (Hh s'); cbn [blocks objs set_block occ].
    rewrite nth_set by (eapply nth_lt; eauto).
    cbn [hit]; destruct (Nat.eqb_spec s s') as [<-|Hn].
    + rewrite Eb in Hh; cbn; lia.
    + destruct (nth_error (blocks m) s') as [[b'|]|]; lia.
  - destruct Hv as [Hl Hv]; split; [exact Hl|].
    intros h o x Hn Ho Hx; cbn in Ho; eapply fine_keeps; [apply Hk|]; eauto.
Qed.

Lemma release_ok m v ex hole x : good m v (x :: ex) hole ->
  exists m', release m x = Ok m' /\ good m' v ex hole /\ objs m' = objs m /\
    (forall s b, x <> Some s -> nth_error (blocks m) s = b -> nth_error (blocks m') s = b).
Proof.
  intros [Hh [Hl Hv]]; destruct x as [s|]; cbn.
  2: { exists m; split; [reflexivity|split; [|auto]].
       split; [|split; auto]; intros s; specialize (Hh s); cbn in Hh; exact Hh. }
  pose proof (Hh s) as Hs; cbn [occ] in Hs; rewrite hit_self in Hs.
  pose proof (owners_nonneg (objs m) s) as Ho0; pose proof (occ_nonneg ex s) as He0.
  destruct (nth_error (blocks m) s) as [[b|]|] eqn:Eb; [|lia|lia].
  unfold block; rewrite Eb; cbn [obind].
  set (nb := if nref b - 1 =? 0 then None else Some (Storage (nref b - 1) (cells b))).
  exists (set_block m s nb); split; [unfold nb; destruct (nref b - 1 =? 0); reflexivity|].
  split; [|split; [reflexivity|]].
  2: { intros s' b' Hn <-; cbn; apply nth_set_other; congruence. }
  split.
  - intros s'; specialize (Hh s'); cbn [blocks objs set_block occ] in *.
    rewrite nth_set by (eapply nth_lt; eauto).
    cbn [hit] in Hh; destruct (Nat.eqb_spec s s') as [Es|Hn]; [subst s'|].
    + rewrite Eb in Hh; unfold nb; destruct (Z.eqb_spec (nref b - 1) 0); [lia|cbn; lia].
    + destruct (nth_error (blocks m) s') as [[b'|]|]; lia.
  - split; [exact Hl|].
    intros h o x Hn Ho Hx; cbn in Ho; specialize (Hv h o x Hn Ho Hx).
    destruct o as [o|], x as [x|]; cbn in *; auto.
    destruct Hv as (Hr & Hlen & Hp & Ha); split; [|auto].
    destruct (ptr o) as [l0 off|s' off] eqn:Ep; [exact Hr|].
    unfold ptr_ok in Hp; rewrite Ep in Hp; cbn in *; unfold block in *; cbn.
    rewrite nth_set by (eapply nth_lt; eauto).
    destruct (Nat.eqb_spec s s') as [<-|Hn']; [|exact Hr].
    pose proof (owners_one _ _ _ s Ho) as H1; cbn in H1; rewrite Hp, hit_self in H1.
    unfold nb; destruct (Z.eqb_spec (nref b - 1) 0) as [Ez|Ez]; [lia|].
    rewrite Eb in Hr; exact Hr.
Qed.

Lemma set_obj_ok m v ex hole h o o' x : good m v (osth o' :: ex) hole ->
  hole = None \/ hole = Some h ->
  nth_error (objs m) h = Some o -> fine m o' x ->
  good (set_obj m h o') (set_nth v h x) (osth o :: ex) None.
Proof.
  intros [Hh [Hl Hv]] Hole Eo Hf; pose proof (nth_lt _ _ _ Eo) as Hlt; split.
  - intros s; specialize (Hh s); cbn [blocks objs set_obj occ] in *.
    rewrite (owners_set _ _ _ _ s Eo).
    destruct (nth_error (blocks m) s) as [[b|]|]; lia.
  - split; [cbn; rewrite !set_nth_length; exact Hl|].
    intros h' p y _; cbn [objs set_obj].
    rewrite !nth_set by lia; destruct (Nat.eqb_spec h h') as [<-|Hn].
    + intros [= <-] [= <-]; destruct o' as [o'|], x; exact Hf.
    + intros Hp Hy; assert (Hn2 : Some h' <> hole) by (destruct Hole; congruence).
      specialize (Hv h' p y Hn2 Hp Hy); destruct p, y; exact Hv.
Qed.

Lemma new_obj_ok m v ex o x : good m v (sth o :: ex) None -> fine m (Some o) (Some x) ->
  good (new_obj m o) (v ++ [Some x]) ex None.
Proof.
  intros [Hh [Hl Hv]] Hf; split.
  - intros s; specialize (Hh s); cbn [blocks objs new_obj occ] in *.
    rewrite owners_app; cbn [owners osth].
    destruct (nth_error (blocks m) s) as [[b|]|]; lia.
  - split; [cbn; rewrite !app_length, Hl; reflexivity|].
    intros h p y _; cbn [objs new_obj]; rewrite !nth_snoc, Hl.
    destruct (Nat.ltb_spec h (length v)).
    + intros Hp Hy; specialize (Hv h p y ltac:(discriminate) Hp Hy); destruct p, y; exact Hv.
    + destruct (Nat.eqb_spec h (length v)); [|discriminate].
      intros [= <-] [= <-]; exact Hf.
Qed.

Definition blk (m : mem) (s : nat) (c : bytes) : Prop :=
  nth_error (blocks m) s = Some (Some (Storage 1 c)).
Definition mine (m : mem) (s : nat) (hole : option nat) : Prop :=
  forall h o, Some h <> hole -> nth_error (objs m) h = Some (Some o) -> sth o <> Some s.
Definition with_ (m : mem) (s : nat) (c : bytes) : mem := set_block m s (Some (Storage 1 c)).

Lemma write_ok m s a old b l : blk m s (a ++ old ++ b) -> length old = length l ->
  write m s (length a) l = Ok (with_ m s (a ++ l ++ b)).
Proof.
  unfold blk, write, block; intros -> Hl; cbn [obind cells nref]; rewrite !app_length.
  destruct (Nat.leb_spec (length a + length l) (length a + (length old + length b))); [|lia].
  rewrite firstn_length_app.
  assert (E : skipn (length a + length l) (a ++ old ++ b) = b)
    by (rewrite <- Hl, <- app_length, app_assoc; apply skipn_length_app).
  rewrite E; reflexivity.
Qed.
Lemma blk_with m s c c' : blk m s c -> blk (with_ m s c') s c'.
Proof. intros H; unfold blk; cbn; apply nth_set_same; eapply nth_lt; exact H. Qed.
Lemma read_with_other m s c p n l : (forall off, p <> InStor s off) ->
  read m p n = Ok l -> read (with_ m s c) p n = Ok l.
Proof.
  intros Hp; destruct p as [l0 off|s' off]; cbn; [auto|].
  unfold block; cbn; rewrite nth_set_other; [auto|]; intros ->; eapply Hp; reflexivity.
Qed.
Lemma with_ok m v ex hole s c c' : good m v ex hole -> blk m s c -> mine m s hole ->
  length c' = length c -> good (with_ m s c') v ex hole.
Proof.
  intros [Hh [Hl Hv]] Hb Hm Hc; split.
  - intros s'; specialize (Hh s'); cbn [blocks objs with_ set_block].
    rewrite nth_set by (eapply nth_lt; exact Hb).
    destruct (Nat.eqb_spec s s') as [<-|Hn]; [|exact Hh].
    unfold blk in Hb; rewrite Hb in Hh; cbn in *; lia.
  - split; [exact Hl|]; intros h o x Hn Ho Hx; cbn in Ho; specialize (Hv h o x Hn Ho Hx).
    destruct o as [o|], x as [x|]; cbn in *; auto.
    destruct Hv as (Hr & Hlen & Hp & Ha); split; [|auto].
    apply read_with_other; [|exact Hr].
    intros off E; unfold ptr_ok in Hp; rewrite E in Hp; exact (Hm h o Hn Ho Hp).
Qed.
Lemma mine_with m s hole s' c : mine m s hole -> mine (with_ m s' c) s hole.
Proof. intros H; exact H. Qed.

Lemma mine_fresh m v ex hole h s c : good m v (Some s :: ex) hole -> blk m s c -> mine m s h.
Proof.
  intros [Hh _] Hb h' o _ Ho E; specialize (Hh s); unfold blk in Hb; rewrite Hb in Hh.
  cbn [occ nref] in Hh; rewrite hit_self in Hh.
  pose proof (owners_one _ _ _ s Ho) as H1; cbn in H1; rewrite E, hit_self in H1.
  pose proof (occ_nonneg ex s); lia.
Qed.
Lemma mine_unique m v ex hole h o s c : good m v ex hole -> blk m s c ->
  nth_error (objs m) h = Some (Some o) -> sth o = Some s -> mine m s (Some h).
Proof.
  intros [Hh _] Hb Eo Es h' o' Hn Ho' E; specialize (Hh s); unfold blk in Hb; rewrite Hb in Hh.
  cbn [nref] in Hh.
  pose proof (owners_two _ h _ h' _ s ltac:(congruence) Eo Ho') as H2; cbn in H2.
  rewrite Es, E, hit_self in H2; pose proof (occ_nonneg ex s); lia.
Qed.

Lemma rounded_ge n : 0 <= n -> n <= rounded n < n + 24.
Proof.
  intros H; unfold rounded, block_size.
  pose proof (Z.div_mod (n + 24 - 1) 24 ltac:(lia)); pose proof (Z.mod_pos_bound (n + 24 - 1) 24 ltac:(lia)).
  lia.
Qed.
Lemma max_size_small : max_size + 48 < huge.
Proof. vm_compute; reflexivity. Qed.

Lemma reallocate_ok m v ex hole src n add l :
  good m v ex hole -> read m src n = Ok l -> 0 <= add ->
  res (reallocate_more fresh m src n add)
    (fun '(m', s) => good m' v (Some s :: ex) hole /\ keeps m m' /\
       (forall k b, nth_error (blocks m) k = Some b -> nth_error (blocks m') k = Some b) /\
       s = length (blocks m) /\
       exists rest, blk m' s (l ++ 0 :: rest) /\ Z.of_nat n + add <= Z.of_nat (length (l ++ rest)))
    (max_size < Z.of_nat n + add).
Proof.
  intros Hg Hr Ha; unfold reallocate_more.
  destruct (Z.ltb_spec max_size (Z.of_nat n + add)) as [Hm|Hm]; [exact Hm|].
  assert (Hlen : length l = n).
  { destruct src as [l0 off|s0 off]; cbn in Hr.
    - apply cut_ok in Hr as (a & b & _ & _ & H); exact H.
    - destruct (block m s0) as [b0| |]; cbn in Hr; try discriminate.
      apply cut_ok in Hr as (a & b & _ & _ & H); exact H. }
  rewrite Hr; cbn [obind].
  set (s := length (blocks m)).
  set (raw := map (fresh s) (seq 0 (S (Z.to_nat (rounded (Z.of_nat n + add)))))).
  set (data := set_nth raw (Z.to_nat (Z.of_nat n + add)) 0).
  pose proof (rounded_ge (Z.of_nat n + add) ltac:(lia)) as Hrd.
  assert (Hd : length data = S (Z.to_nat (rounded (Z.of_nat n + add)))).
  { unfold data, raw; rewrite set_nth_length, map_length, seq_length; reflexivity. }
  set (m1 := Mem (blocks m ++ [Some (Storage 1 data)]) (objs m)).
  assert (Hk1 : keeps m m1).
  { split; [reflexivity|]; intros [l0 off|s0 off] k r; cbn; [auto|].
    unfold block; cbn; intros H.
    destruct (nth_error (blocks m) s0) as [b0|] eqn:E0; [|discriminate].
    rewrite nth_error_app1, E0 by (eapply nth_lt; eauto); exact H. }
  assert (Hb1 : blk m1 s data).
  { unfold blk, m1; cbn; rewrite nth_snoc, Nat.ltb_irrefl, Nat.eqb_refl; reflexivity. }
  assert (Hg1 : good m1 v (Some s :: ex) hole).
  { destruct Hg as [Hh [Hl Hv]]; split.
    - intros s'; pose proof (Hh s') as Hs'; cbn [blocks objs m1 occ]; rewrite nth_snoc; fold s.
      destruct (Nat.ltb_spec s' s) as [Hlt|Hge].
      + cbn [hit]; destruct (Nat.eqb_spec s s'); [lia|].
        destruct (nth_error (blocks m) s') as [[b'|]|]; lia.
      + cbn [hit]; destruct (nth_error (blocks m) s') as [b'|] eqn:E'; [apply nth_lt in E'; unfold s in Hge; lia|].
        destruct (Nat.eqb_spec s s'), (Nat.eqb_spec s' s); try lia.
        cbn [nref cells]; rewrite Hd; unfold huge; pose proof max_size_small as Hmx; unfold huge in Hmx; lia.
    - split; [exact Hl|]; intros h o x Hn Ho Hx; eapply fine_keeps; [apply Hk1|]; eauto. }
  assert (Hsplit : exists old b, data = old ++ b /\ length old = S n).
  { exists (firstn (S n) data), (skipn (S n) data); rewrite firstn_skipn, firstn_length_le by lia; auto. }
  destruct Hsplit as (old & b & Ed & Eo).
  pose proof (write_ok m1 s [] old b (l ++ [0])) as Hw.
  cbn [app length] in Hw; rewrite <- Ed in Hw; rewrite app_length in Hw; cbn [length] in Hw.
  specialize (Hw Hb1 ltac:(lia)); rewrite Hw; cbn [obind res].
  rewrite <- app_assoc; cbn [app].
  assert (Hc : length (l ++ 0 :: b) = length data).
  { rewrite Ed, !app_length; cbn; lia. }
  split; [|split; [|split; [|split; [reflexivity|]]]].
  - eapply with_ok; [exact Hg1|exact Hb1|eapply mine_fresh; eauto|exact Hc].
  - split; [reflexivity|]; intros p k r Hrd0; apply read_with_other; [|apply Hk1; exact Hrd0].
    intros off ->; cbn in Hrd0; unfold block in Hrd0.
    destruct (nth_error (blocks m) s) as [b0|] eqn:E0; [apply nth_lt in E0; unfold s in E0; lia|discriminate].
  - intros k b0 Hk0; cbn; rewrite nth_set_other by (apply nth_lt in Hk0; unfold s; lia).
    rewrite nth_error_app1; [exact Hk0|eapply nth_lt; eauto].
  - exists b; split; [eapply blk_with; exact Hb1|].
    rewrite app_length in Hc |- *; cbn [length] in Hc; lia.
Qed.

Lemma release_set_obj m h o x :
  release (set_obj m h o) x = (do m' <- release m x; Ok (set_obj m' h o)).
Proof.
  destruct x as [s|]; cbn; [|reflexivity].
  unfold block; cbn; destruct (nth_error (blocks m) s) as [[b|]|]; cbn; try reflexivity.
  destruct (nref b - 1 =? 0); reflexivity.
Qed.

(* ---- reading ---- *)
Lemma read_len m p n l : read m p n = Ok l -> length l = n.
Proof.
  destruct p as [l0 off|s0 off]; cbn; intros Hr.
  - apply cut_ok in Hr as (a & b & _ & _ & H); exact H.
  - destruct (block m s0) as [b0| |]; cbn in Hr; try discriminate.
    apply cut_ok in Hr as (a & b & _ & _ & H); exact H.
Qed.
Lemma cut_part l off n r k i : cut l off n = Ok r -> (k + i <= n)%nat ->
  cut l (off + k) i = Ok (firstn i (skipn k r)).
Proof.
  intros Hr Hk; apply cut_ok in Hr as (a & b & -> & Ha & Hn).
  rewrite <- (firstn_skipn k r) at 1; rewrite <- (firstn_skipn i (skipn k r)) at 1.
  rewrite <- !app_assoc, app_assoc; apply cut_app.
  - rewrite app_length, firstn_length_le by lia; lia.
  - rewrite firstn_length, skipn_length; lia.
Qed.
Lemma read_part m p n r k i : read m p n = Ok r -> (k + i <= n)%nat ->
  read m (shifted p k) i = Ok (firstn i (skipn k r)).
Proof.
  destruct p as [l0 off|s0 off]; cbn; intros Hr Hk.
  - eapply cut_part; eauto.
  - destruct (block m s0) as [b0| |]; cbn in *; try discriminate; eapply cut_part; eauto.
Qed.
Lemma shifted_0 p : shifted p 0 = p.
Proof. destruct p; cbn; rewrite Nat.add_0_r; reflexivity. Qed.
Lemma fine_read m o x k : fine m (Some o) (Some x) -> (k <= len o)%nat ->
  read m (ptr o) k = Ok (firstn k x).
Proof.
  intros (Hr & Hl & _) Hk.
  pose proof (read_part _ _ _ _ 0 k Hr ltac:(lia)) as H; rewrite shifted_0 in H; rewrite H.
  cbn [skipn]; f_equal; rewrite firstn_app; replace (k - length x)%nat with 0%nat by lia.
  cbn; apply app_nil_r.
Qed.
Lemma fine_all m o x : fine m (Some o) (Some x) -> read m (ptr o) (len o) = Ok x.
Proof.
  intros H; rewrite (fine_read _ _ _ _ H (Nat.le_refl _)); destruct H as (_ & <- & _).
  rewrite firstn_all; reflexivity.
Qed.
Lemma fine_start m s x rest ns : nth_error (blocks m) s = Some (Some (Storage ns (x ++ 0 :: rest))) ->
  fine m (Some (Cstr (InStor s 0) (length x) (Some s))) (Some x).
Proof.
  intros Hb; cbn; unfold block; rewrite Hb; cbn [obind cells].
  split; [|split; [reflexivity|split; [reflexivity|apply al_start]]].
  change (x ++ 0 :: rest) with ([] ++ x ++ [0] ++ rest); rewrite (app_assoc x).
  apply cut_app; [reflexivity|rewrite app_length; cbn; lia].
Qed.
Lemma fine_zstr m y : fine m (Some (Cstr zstr 0 y)) (Some []).
Proof. cbn; repeat split; apply al_zstr. Qed.
Lemma read_lit m l : read m (InLit (l ++ [0]) 0) (S (length l)) = Ok (l ++ [0]).
Proof.
  cbn; pose proof (cut_app [] (l ++ [0]) [] 0 (S (length l)) eq_refl) as H.
  cbn [app] in H; rewrite app_nil_r in H; apply H; rewrite app_length; cbn; lia.
Qed.

(* ---- replacing objects ---- *)

Lemma set_obj_same m v ex hole h o o' x : good m v ex hole ->
  hole = None \/ hole = Some h ->
  nth_error (objs m) h = Some o -> osth o' = osth o -> fine m o' x ->
  good (set_obj m h o') (set_nth v h x) ex None.
Proof.
  intros [Hh [Hl Hv]] Hole Eo Es Hf; pose proof (nth_lt _ _ _ Eo) as Hlt; split.
  - intros s; specialize (Hh s); cbn [blocks objs set_obj] in *.
    rewrite (owners_set _ _ _ _ s Eo), Es.
    destruct (nth_error (blocks m) s) as [[b|]|]; lia.
  - split; [cbn; rewrite !set_nth_length; exact Hl|].
    intros h' p y _; cbn [objs set_obj].
    rewrite !nth_set by lia; destruct (Nat.eqb_spec h h') as [Eh|Hn].
    + intros [= <-] [= <-]; destruct o' as [o'|], x; exact Hf.
    + intros Hp Hy; assert (Hn2 : Some h' <> hole) by (destruct Hole; congruence).
      specialize (Hv h' p y Hn2 Hp Hy); destruct p, y; exact Hv.
Qed.
Lemma set_two_ok m v ex h j o p o' p' x y : good m v ex None -> h <> j ->
  nth_error (objs m) h = Some o -> nth_error (objs m) j = Some p ->
  (forall s, hit s (osth o') + hit s (osth p') = hit s (osth o) + hit s (osth p)) ->
  fine m o' x -> fine m p' y ->
  good (set_obj (set_obj m j p') h o') (set_nth (set_nth v j y) h x) ex None.
Proof.
  intros [Hh [Hl Hv]] Hne Eo Ep Hs Hfo Hfp.
  pose proof (nth_lt _ _ _ Eo) as Hlt; pose proof (nth_lt _ _ _ Ep) as Hlt'; split.
  - intros s; specialize (Hh s); specialize (Hs s); cbn [blocks objs set_obj] in *.
    rewrite (owners_set _ h o), (owners_set _ _ _ _ s Ep)
      by (rewrite nth_set_other by lia; exact Eo).
    destruct (nth_error (blocks m) s) as [[b|]|]; lia.
  - split; [cbn; rewrite !set_nth_length; exact Hl|].
    intros h' q z _; cbn [objs set_obj].
    rewrite !nth_set by (rewrite ?set_nth_length; lia).
    destruct (Nat.eqb_spec h h') as [Eh|Hn].
    + intros [= <-] [= <-]; destruct o', x; exact Hfo.
    + destruct (Nat.eqb_spec j h') as [Ej|Hn'].
      * intros [= <-] [= <-]; destruct p', y; exact Hfp.
      * intros Hp Hy; specialize (Hv h' q z ltac:(discriminate) Hp Hy); destruct q, z; exact Hv.
Qed.
Lemma good_none m v ex hole : good m v ex hole -> good m v (None :: ex) hole.
Proof. intros H; exact H. Qed.

(* ---- who may write ---- *)
Lemma mut_opt_ok m v ex hole x : good m v ex hole -> alive m x ->
  (exists s c, x = Some s /\ blk m s c /\ mut_data_opt m x = Ok (Some s) /\
     unique m x = Ok true /\ capacity m x = Ok (Z.of_nat (length c) - 1) /\
     0 < Z.of_nat (length c) < huge /\ In (Some (Storage 1 c)) (blocks m)) \/
  (mut_data_opt m x = Ok None /\ unique m x = Ok false /\
   exists cap, capacity m x = Ok cap /\ 0 <= cap < huge /\
     (cap = 0 \/ exists b, In (Some b) (blocks m) /\ cap = Z.of_nat (length (cells b)) - 1)).
Proof.
  intros [Hh _] Ha; destruct x as [s|]; cbn in *.
  2: { right; repeat split; exists 0; unfold huge; repeat split; auto; lia. }
  destruct Ha as [b Eb]; specialize (Hh s); rewrite Eb in Hh.
  unfold block; rewrite Eb; cbn [obind].
  destruct (Z.eqb_spec (nref b) 1) as [E1|E1].
  - left; exists s, (cells b); destruct b as [nr c]; cbn in *; subst nr.
    split; [reflexivity|split; [exact Eb|split; [reflexivity|split; [reflexivity|split; [reflexivity|split; [lia|]]]]]].
    eapply nth_error_In; exact Eb.
  - right; split; [reflexivity|split; [reflexivity|]].
    exists (Z.of_nat (length (cells b)) - 1); split; [reflexivity|split; [lia|]].
    right; exists b; split; [eapply nth_error_In; exact Eb|reflexivity].
Qed.

Lemma split_cells (t : bytes) n : (n < length t)%nat ->
  exists old z b, t = old ++ z :: b /\ length old = n.
Proof.
  intros H; exists (firstn n t).
  destruct (skipn n t) as [|z b] eqn:E.
  - apply (f_equal (@length Z)) in E; rewrite skipn_length in E; cbn in E; lia.
  - exists z, b; rewrite <- E, firstn_skipn, firstn_length_le by lia; auto.
Qed.

(* fill [l] after [x] in a block only [h] owns, and terminate *)
Lemma fill_ok m v ex hole s x t l : good m v ex hole -> mine m s hole -> blk m s (x ++ t) ->
  (length l < length t)%nat ->
  exists z b, write m s (length x) l = Ok (with_ m s (x ++ l ++ z :: b)) /\
    write (with_ m s (x ++ l ++ z :: b)) s (length x + length l) [0]
      = Ok (with_ (with_ m s (x ++ l ++ z :: b)) s ((x ++ l) ++ 0 :: b)) /\
    good (with_ (with_ m s (x ++ l ++ z :: b)) s ((x ++ l) ++ 0 :: b)) v ex hole.
Proof.
  intros Hg Hm Hb Hlt; destruct (split_cells _ _ Hlt) as (old & z & b & -> & Ho).
  exists z, b; split; [apply (write_ok m s x old (z :: b) l Hb Ho)|].
  assert (Hb1 : blk (with_ m s (x ++ l ++ z :: b)) s ((x ++ l) ++ [z] ++ b)).
  { pose proof (blk_with m s _ (x ++ l ++ z :: b) Hb) as H; rewrite <- app_assoc; exact H. }
  split.
  - pose proof (write_ok _ s (x ++ l) [z] b [0] Hb1 eq_refl) as H.
    rewrite app_length in H; exact H.
  - eapply with_ok; [|exact Hb1|exact Hm|rewrite !app_length; reflexivity].
    eapply with_ok; [exact Hg|exact Hb|exact Hm|rewrite !app_length; cbn; lia].
Qed.
Lemma blk_filled m s c1 c2 c : blk m s c -> blk (with_ (with_ m s c1) s c2) s c2.
Proof. intros H; eapply blk_with, blk_with, H. Qed.

(* ---- the statements ---- *)
Lemma obj_nth m h o : nth_error (objs m) h = Some (Some o) -> obj m h = Ok o.
Proof. unfold obj; intros ->; reflexivity. Qed.

Lemma new_literal_ok m v l : good m v [] None ->
  res (new_literal m l) (fun m' => good m' (v ++ [Some l]) [] None) False.
Proof.
  intros Hg; cbn; apply new_obj_ok; [apply good_none; exact Hg|].
  unfold fine; cbn [ptr len]; rewrite read_lit; repeat split; apply al_lit.
Qed.

Lemma new_copy_ok m v j x : good m v [] None -> val v j = Some x ->
  res (new_copy m j) (fun m' => good m' (v ++ [Some x]) [] None) False.
Proof.
  intros Hg Hj; destruct (good_obj _ _ _ _ _ Hg Hj) as (o & Eo & Ev & Eob & Hf & Ha).
  unfold new_copy; rewrite Eob; cbn [obind].
  destruct (acquire_ok _ _ _ _ _ Hg Ha) as (m1 & -> & Hg1 & Hk1); cbn [obind res].
  apply new_obj_ok; [exact Hg1|]; exact (fine_keeps _ _ _ _ (proj2 Hk1) Hf).
Qed.

Lemma new_move_ok m v j x : good m v [] None -> val v j = Some x ->
  res (new_move m j) (fun m' => good m' (set_nth v j (Some []) ++ [Some x]) [] None) False.
Proof.
  intros Hg Hj; destruct (good_obj _ _ _ _ _ Hg Hj) as (o & Eo & Ev & Eob & Hf & Ha).
  unfold new_move; rewrite Eob; cbn [obind res].
  apply new_obj_ok; [|exact Hf].
  apply (set_obj_ok m v [] None j (Some o) (Some (Cstr zstr 0 None)));
    [apply good_none; exact Hg|auto|exact Eo|apply fine_zstr].
Qed.

Lemma new_substr_ok m v j tpos tn x : good m v [] None -> val v j = Some x ->
  (forall o, obj m j = Ok o -> (tpos <= len o)%nat -> (len o - tpos <= tn)%nat ->
     al (Cstr (shifted (ptr o) tpos) (len o - tpos) (sth o))) ->
  res (new_substr fresh m j tpos tn)
    (fun m' => (tpos <= length x)%nat /\
               good m' (v ++ [Some (firstn tn (skipn tpos x))]) [] None)
    ((length x < tpos)%nat \/ max_size < Z.of_nat (length x)).
Proof.
  intros Hg Hj Hal; destruct (good_obj _ _ _ _ _ Hg Hj) as (o & Eo & Ev & Eob & Hf & Ha).
  pose proof Hf as (Hr & Hl & Hp & _).
  unfold new_substr; rewrite Eob; cbn [obind].
  destruct (Nat.ltb_spec (len o) tpos) as [Ht|Ht]; [left; lia|].
  destruct (Nat.eqb_spec (tpos + Nat.min (len o - tpos) tn) (len o)) as [Et|Et].
  - replace (Nat.min (len o - tpos) tn) with (len o - tpos)%nat by lia.
    destruct (acquire_ok _ _ _ _ _ Hg Ha) as (m1 & -> & Hg1 & Hk1); cbn [obind res].
    split; [lia|].
    rewrite firstn_all2 by (rewrite skipn_length; lia).
    apply new_obj_ok; [exact Hg1|].
    unfold fine; cbn [ptr len sth]; split; [|split; [|split]].
    + apply Hk1.
      rewrite (read_part _ _ _ _ tpos (S (len o - tpos)) Hr) by lia; f_equal.
      rewrite skipn_app; replace (tpos - length x)%nat with 0%nat by lia; cbn [skipn].
      apply firstn_all2; rewrite app_length, skipn_length; cbn; lia.
    + rewrite skipn_length; lia.
    + unfold ptr_ok in *; cbn; destruct (ptr o); exact Hp.
    + apply Hal; [exact Eob|lia|lia].
  - replace (Nat.min (len o - tpos) tn) with tn by lia.
    pose proof (fine_read _ _ _ 0 Hf ltac:(lia)) as H0; cbn [firstn] in H0.
    pose proof (reallocate_ok _ _ _ _ _ _ (Z.of_nat tn) _ Hg H0 ltac:(lia)) as Hrl.
    eapply res_bind.
    { destruct (reallocate_more fresh m (ptr o) 0 (Z.of_nat tn)) as [r| |]; cbn in *;
        [exact Hrl|right; lia|exact Hrl]. }
    intros [m1 s] (Hg1 & Hk1 & _ & _ & rest & Hb & Hroom); cbn [app] in Hb, Hroom.
    assert (Hrd : read m1 (shifted (ptr o) tpos) tn = Ok (firstn tn (skipn tpos x))).
    { apply Hk1; rewrite (read_part _ _ _ _ tpos tn Hr) by lia; f_equal.
      rewrite skipn_app; replace (tpos - length x)%nat with 0%nat by lia; cbn [skipn].
      rewrite firstn_app, skipn_length; replace (tn - (length x - tpos))%nat with 0%nat by lia.
      cbn; apply app_nil_r. }
    rewrite Hrd; cbn [obind].
    set (y := firstn tn (skipn tpos x)) in *.
    assert (Hy : length y = tn) by (apply read_len in Hrd; exact Hrd).
    destruct (fill_ok m1 v [Some s] None s [] (0 :: rest) y Hg1 (mine_fresh _ _ _ _ _ _ _ Hg1 Hb) Hb)
      as (z & b & W1 & W2 & Hg2); [cbn; lia|].
    cbn [app length Nat.add] in W1, W2; rewrite W1; cbn [obind].
    unfold set_data.
    assert (W2' : write (new_obj (with_ m1 s (y ++ z :: b)) (Cstr zstr 0 (Some s))) s tn [0]
              = Ok (new_obj (with_ (with_ m1 s (y ++ z :: b)) s (y ++ 0 :: b)) (Cstr zstr 0 (Some s)))).
    { rewrite Hy in W2; revert W2; generalize (with_ m1 s (y ++ z :: b)); intros m2.
      unfold write, block, with_; cbn [blocks new_obj].
      destruct (nth_error (blocks m2) s) as [[b0|]|]; cbn [obind]; try discriminate.
      destruct (_ <=? _)%nat; [|discriminate].
      intros [= E1]; unfold new_obj, set_block; cbn; rewrite E1; reflexivity. }
    rewrite W2'; cbn [obind res].
    split; [lia|].
    pose proof (new_obj_ok _ _ _ (Cstr zstr 0 (Some s)) [] Hg2 (fine_zstr _ _)) as Hg3.
    cbn [app] in Hg3.
    assert (Hlv : length (objs (with_ m1 s (y ++ z :: b))) = length v) by apply Hg2.
    rewrite Hlv, <- (set_nth_snoc v (Some [])).
    apply (set_obj_same _ _ [] None (length v) (Some (Cstr zstr 0 (Some s)))).
    + exact Hg3.
    + auto.
    + cbn [objs new_obj]; rewrite nth_snoc.
      change (length (objs (with_ _ s _))) with (length (objs (with_ m1 s (y ++ z :: b)))).
      rewrite Hlv, Nat.ltb_irrefl, Nat.eqb_refl; reflexivity.
    + reflexivity.
    + rewrite <- Hy; eapply fine_start; cbn [blocks new_obj]; eapply blk_filled; exact Hb.
Qed.

Lemma drop_ok m v h x : good m v [] None -> val v h = Some x ->
  res (drop m h) (fun m' => good m' (set_nth v h None) [] None) False.
Proof.
  intros Hg Hj; destruct (good_obj _ _ _ _ _ Hg Hj) as (o & Eo & Ev & Eob & Hf & Ha).
  unfold drop; rewrite Eob; cbn [obind]; rewrite <- release_set_obj.
  pose proof (set_obj_ok m v [] None h (Some o) None None (good_none _ _ _ _ Hg)
                (or_introl eq_refl) Eo I) as Hg1; cbn [osth] in Hg1.
  destruct (release_ok _ _ _ _ _ Hg1) as (m2 & -> & Hg2 & _); exact Hg2.
Qed.

Lemma assign_ok m v h j x y : good m v [] None -> val v h = Some x -> val v j = Some y ->
  res (assign m h j) (fun m' => good m' (set_nth v h (Some y)) [] None) False.
Proof.
  intros Hg Hh Hj; destruct (good_obj _ _ _ _ _ Hg Hh) as (o & Eo & Ev & Eob & Hf & Ha).
  destruct (good_obj _ _ _ _ _ Hg Hj) as (p & Ep & Evp & Epb & Hfp & Hap).
  unfold assign; rewrite Eob, Epb; cbn [obind].
  destruct (acquire_ok _ _ _ _ _ Hg Hap) as (m1 & -> & Hg1 & Hk1); cbn [obind].
  rewrite <- release_set_obj.
  rewrite <- (proj1 Hk1) in Eo.
  pose proof (set_obj_ok m1 v [] None h (Some o) (Some p) (Some y) Hg1 (or_introl eq_refl) Eo
                (fine_keeps _ _ _ _ (proj2 Hk1) Hfp)) as Hg2; cbn [osth] in Hg2.
  destruct (release_ok _ _ _ _ _ Hg2) as (m2 & -> & Hg3 & _); exact Hg3.
Qed.

Lemma move_assign_ok m v h j x y : good m v [] None -> val v h = Some x -> val v j = Some y ->
  res (move_assign m h j)
    (fun m' => good m' (if (h =? j)%nat then v else set_nth (set_nth v j (Some [])) h (Some y)) [] None)
    False.
Proof.
  intros Hg Hh Hj; destruct (good_obj _ _ _ _ _ Hg Hh) as (o & Eo & Ev & Eob & Hf & Ha).
  destruct (good_obj _ _ _ _ _ Hg Hj) as (p & Ep & Evp & Epb & Hfp & Hap).
  unfold move_assign; rewrite Eob, Epb; cbn [obind].
  destruct (Nat.eqb_spec h j) as [E|Hne]; [exact Hg|cbn [res]].
  eapply set_two_ok; [exact Hg|exact Hne|exact Eo|exact Ep| |exact Hfp|apply fine_zstr].
  intros s; cbn [osth sth]; lia.
Qed.

Lemma swap_ok m v h j x y : good m v [] None -> val v h = Some x -> val v j = Some y ->
  res (swap_with m h j)
    (fun m' => good m' (set_nth (set_nth v j (Some x)) h (Some y)) [] None) False.
Proof.
  intros Hg Hh Hj; destruct (good_obj _ _ _ _ _ Hg Hh) as (o & Eo & Ev & Eob & Hf & Ha).
  destruct (good_obj _ _ _ _ _ Hg Hj) as (p & Ep & Evp & Epb & Hfp & Hap).
  unfold swap_with; rewrite Eob, Epb; cbn [obind res].
  destruct (Nat.eq_dec h j) as [E|Hne].
  - subst j; rewrite Eo in Ep; injection Ep as <-; rewrite Ev in Evp; injection Evp as <-.
    rewrite (set_nth_same v) by exact Ev; rewrite (set_nth_same v) by exact Ev.
    unfold set_obj; cbn [objs blocks]; rewrite (set_nth_same (objs m)) by exact Eo.
    rewrite (set_nth_same (objs m)) by exact Eo; destruct m; exact Hg.
  - eapply set_two_ok; [exact Hg|exact Hne|exact Eo|exact Ep| |exact Hfp|exact Hf].
    intros s; cbn [osth]; lia.
Qed.

Lemma set_literal_ok m v h l x : good m v [] None -> val v h = Some x ->
  (forall o, obj m h = Ok o -> al (Cstr (InLit (l ++ [0]) 0) (length l) (sth o))) ->
  res (set_literal m h l) (fun m' => good m' (set_nth v h (Some l)) [] None) False.
Proof.
  intros Hg Hh Hal; destruct (good_obj _ _ _ _ _ Hg Hh) as (o & Eo & Ev & Eob & Hf & Ha).
  unfold set_literal; rewrite Eob; cbn [obind res].
  eapply set_obj_same; [exact Hg|auto|exact Eo|reflexivity|].
  unfold fine; cbn [ptr len]; rewrite read_lit; repeat split; apply Hal; exact Eob.
Qed.

Lemma clear_ok m v h x : good m v [] None -> val v h = Some x ->
  res (clear m h) (fun m' => good m' (set_nth v h (Some [])) [] None) False.
Proof.
  intros Hg Hh; destruct (good_obj _ _ _ _ _ Hg Hh) as (o & Eo & Ev & Eob & Hf & Ha).
  unfold clear; rewrite Eob; cbn [obind res].
  eapply set_obj_same; [exact Hg|auto|exact Eo|reflexivity|apply fine_zstr].
Qed.

Lemma append_ok m v h src l x : good m v [] None -> val v h = Some x ->
  (forall o, obj m h = Ok o -> lined o) -> read m src (length l) = Ok l ->
  res (append fresh m h src (length l)) (fun m' => good m' (set_nth v h (Some (x ++ l))) [] None)
    (exists o cap, In (Some o) (objs m) /\ len o = length x /\
       (cap = 0 \/ exists b, In (Some b) (blocks m) /\ cap = Z.of_nat (length (cells b)) - 1) /\
       max_size < Z.of_nat (length x) + (Z.of_nat (length l) + cap / 2)).
Proof.
  intros Hg Hh Hli Hsrc; destruct (good_obj _ _ _ _ _ Hg Hh) as (o & Eo & Ev & Eob & Hf & Ha).
  specialize (Hli o Eob); pose proof Hf as (Hr & Hlen & Hp & _).
  unfold append; rewrite Eob; cbn [obind].
  destruct (Nat.eqb_spec (length l) 0) as [E0|E0].
  { apply length_zero_iff_nil in E0; subst l; rewrite app_nil_r; cbn [res].
    rewrite set_nth_same by exact Ev; exact Hg. }
  (* the path with a new block *)
  assert (Hnew : forall cap, 0 <= cap ->
    (cap = 0 \/ exists b, In (Some b) (blocks m) /\ cap = Z.of_nat (length (cells b)) - 1) ->
    res (do (m, s) <- reallocate_more fresh m (ptr o) (len o) (Z.lor (Z.of_nat (length l)) (cap / 2));
         do r <- read m src (length l);
         do m <- write m s (len o) r;
         do m <- set_data m h s (len o + length l) (Some s);
         release m (sth o))
      (fun m' => good m' (set_nth v h (Some (x ++ l))) [] None)
      (exists o cap, In (Some o) (objs m) /\ len o = length x /\
         (cap = 0 \/ exists b, In (Some b) (blocks m) /\ cap = Z.of_nat (length (cells b)) - 1) /\
         max_size < Z.of_nat (length x) + (Z.of_nat (length l) + cap / 2))).
  { intros cap Hcap Hc.
    pose proof (lor_le (Z.of_nat (length l)) (cap / 2) ltac:(lia) ltac:(apply Z.div_pos; lia)) as [Hor1 Hor2].
    pose proof (reallocate_ok _ _ _ _ _ _ (Z.lor (Z.of_nat (length l)) (cap / 2)) _ Hg (fine_all _ _ _ Hf) ltac:(lia)) as Hrl.
    eapply res_bind.
    { destruct (reallocate_more _ _ _ _ _) as [r| |]; cbn in *; [exact Hrl| |exact Hrl].
      exists o, cap; split; [eapply nth_error_In; exact Eo|split; [lia|split; [exact Hc|lia]]]. }
    intros [m1 s] (Hg1 & Hk1 & _ & _ & rest & Hb & Hroom).
    rewrite (proj2 Hk1 _ _ _ Hsrc); cbn [obind].
    rewrite app_length in Hroom.
    destruct (fill_ok m1 v [Some s] None s x (0 :: rest) l Hg1 (mine_fresh _ _ _ _ _ _ _ Hg1 Hb) Hb)
      as (z & b & W1 & W2 & Hg2); [cbn; lia|].
    rewrite <- Hlen, W1; cbn [obind]; unfold set_data; rewrite W2; cbn [obind].
    rewrite <- (proj1 Hk1) in Eo.
    pose proof (set_obj_ok _ v [] None h (Some o)
                  (Some (Cstr (InStor s 0) (length x + length l) (Some s))) (Some (x ++ l))
                  Hg2 (or_introl eq_refl) Eo) as Hg3.
    rewrite <- app_length in Hg3 |- *.
    specialize (Hg3 (fine_start _ _ _ _ 1 (blk_filled _ _ _ _ _ Hb))); cbn [osth] in Hg3.
    destruct (release_ok _ _ _ _ _ Hg3) as (m4 & -> & Hg4 & _); exact Hg4. }
  destruct (mut_opt_ok _ _ _ _ _ Hg Ha)
    as [(s & c & Es & Hb & -> & _ & -> & Hc & Hin)|(-> & _ & cap & -> & Hcap & Hc)]; cbn [obind].
  2: { cbv beta iota zeta; apply Hnew; [apply Hcap|exact Hc]. }
  (* characters of the string are at the start of the block *)
  assert (Hx : exists t, c = x ++ t /\ (0 < length t)%nat).
  { destruct Hli as [E|[E|[s' E]]].
    - congruence.
    - exists c; rewrite E in Hlen; apply length_zero_iff_nil in Hlen; subst x; cbn; split; [reflexivity|lia].
    - unfold ptr_ok in Hp; rewrite E in Hp, Hr; rewrite Es in Hp; injection Hp as <-.
      cbn in Hr; unfold block in Hr; rewrite Hb in Hr; cbn in Hr.
      apply cut_ok in Hr as (a & b & Ec & Hla & _).
      apply length_zero_iff_nil in Hla; subst a; exists (0 :: b); split; [|cbn; lia].
      rewrite Ec, <- !app_assoc; reflexivity. }
  destruct Hx as (t & -> & Ht); rewrite app_length in *.
  assert (Hu : to_u64 (Z.of_nat (length x + length t) - 1 - Z.of_nat (len o))
               = Z.of_nat (length t) - 1).
  { unfold to_u64, huge in *; rewrite Z.mod_small; lia. }
  cbv beta iota zeta; rewrite Hu.
  destruct (Z.leb_spec (Z.of_nat (length l)) (Z.of_nat (length t) - 1)) as [Hle|Hgt]; cbn [obind].
  2: { cbv beta iota zeta; apply Hnew; [clear - Hc; lia|]; right; exists (Storage 1 (x ++ t)); split; [exact Hin|].
       cbn [cells]; rewrite app_length; reflexivity. }
  rewrite Hsrc; cbn [obind].
  pose proof (mine_unique _ _ _ _ _ _ _ _ Hg Hb Eo Es) as Hm.
  destruct (fill_ok m v [] (Some h) s x t l (good_hole _ _ _ _ Hg) Hm Hb) as (z & b & W1 & W2 & Hg2); [lia|].
  rewrite <- Hlen, W1; cbn [obind]; unfold set_data; rewrite W2; cbn [obind res].
  eapply set_obj_same; [exact Hg2|auto|exact Eo|reflexivity|].
  rewrite Es, <- app_length; eapply fine_start, blk_filled; exact Hb.
Qed.

(* release the block of an object that is about to get a new one *)
Lemma release_detach m v ex h o s c : good m v (Some s :: ex) None ->
  nth_error (objs m) h = Some (Some o) -> blk m s c -> sth o <> Some s ->
  exists m2, release m (sth o) = Ok m2 /\
    good (set_obj m2 h (Some (Cstr zstr 0 None))) (set_nth v h (Some [])) (Some s :: ex) None /\
    blk (set_obj m2 h (Some (Cstr zstr 0 None))) s c /\ (h < length (objs m2))%nat.
Proof.
  intros Hg Eo Hb Hne.
  pose proof (set_obj_ok m v (Some s :: ex) None h (Some o) (Some (Cstr zstr 0 None)) (Some [])
                (good_none _ _ _ _ Hg) (or_introl eq_refl) Eo (fine_zstr _ _)) as Hg1.
  cbn [osth] in Hg1.
  destruct (release_ok _ _ _ _ _ Hg1) as (m4 & Er & Hg4 & Ho4 & Hb4).
  rewrite release_set_obj in Er; apply obind_ok in Er as (m2 & Er & E4); injection E4 as <-.
  exists m2; split; [exact Er|split; [exact Hg4|split; [apply (Hb4 s _ Hne), Hb|]]].
  apply (f_equal (@length _)) in Ho4; cbn [objs set_obj] in Ho4; rewrite !set_nth_length in Ho4.
  rewrite Ho4; eapply nth_lt; exact Eo.
Qed.
Lemma set_obj_twice m h a b : set_obj (set_obj m h a) h b = set_obj m h b.
Proof. unfold set_obj; cbn; rewrite set_nth_twice; reflexivity. Qed.
Lemma write_set_obj m h a s off l :
  write (set_obj m h a) s off l = (do m' <- write m s off l; Ok (set_obj m' h a)).
Proof.
  unfold write, block; cbn [blocks set_obj].
  destruct (nth_error (blocks m) s) as [[b|]|]; cbn [obind]; try reflexivity.
  destruct (_ <=? _)%nat; reflexivity.
Qed.
Lemma set_data_over m h a s n ow : set_data (set_obj m h a) h s n ow = set_data m h s n ow.
Proof.
  unfold set_data; rewrite write_set_obj.
  destruct (write m s n [0]); cbn [obind]; [|reflexivity|reflexivity].
  rewrite set_obj_twice; reflexivity.
Qed.

Lemma pop_ok m v h n x : good m v [] None -> val v h = Some x -> (n <= length x)%nat ->
  (forall o, obj m h = Ok o -> lined o) ->
  res (pop_back fresh m h n)
    (fun m' => good m' (set_nth v h (Some (firstn (length x - n) x))) [] None)
    (max_size < Z.of_nat (length x)).
Proof.
  intros Hg Hh Hn Hli; destruct (good_obj _ _ _ _ _ Hg Hh) as (o & Eo & Ev & Eob & Hf & Ha).
  specialize (Hli o Eob); pose proof Hf as (Hr & Hlen & Hp & _).
  unfold pop_back; rewrite Eob; cbn [obind].
  destruct (Nat.ltb_spec (len o) n); [lia|].
  destruct (Nat.eqb_spec (len o) 0) as [E0|E0].
  { assert (x = []) by (apply length_zero_iff_nil; lia); subst x; cbn [res length].
    rewrite firstn_nil, set_nth_same by exact Ev; exact Hg. }
  assert (Hy : length (firstn (length x - n) x) = (len o - n)%nat) by (rewrite firstn_length; lia).
  destruct (mut_opt_ok _ _ _ _ _ Hg Ha)
    as [(s & c & Es & Hb & -> & _ & _ & Hc & Hin)|(-> & _ & cap & _ & Hcap & Hc)]; cbn [obind].
  - assert (Hx : exists t, c = x ++ 0 :: t).
    { destruct Hli as [E|[E|[s' E]]]; [congruence|lia|].
      unfold ptr_ok in Hp; rewrite E in Hp, Hr; rewrite Es in Hp; injection Hp as <-.
      cbn in Hr; unfold block in Hr; rewrite Hb in Hr; cbn in Hr.
      apply cut_ok in Hr as (a & b & Ec & Hla & _).
      apply length_zero_iff_nil in Hla; subst a; exists b.
      rewrite Ec, <- !app_assoc; reflexivity. }
    destruct Hx as (t & ->).
    assert (Hs : exists z b, x ++ 0 :: t = firstn (length x - n) x ++ [z] ++ b).
    { destruct (skipn (length x - n) x) as [|z b] eqn:E.
      - exists 0, t; rewrite <- (firstn_skipn (length x - n) x) at 1; rewrite E, app_nil_r; reflexivity.
      - exists z, (b ++ 0 :: t); rewrite <- (firstn_skipn (length x - n) x) at 1.
        rewrite E, <- app_assoc; reflexivity. }
    destruct Hs as (z & b & Ec); rewrite Ec in Hb.
    pose proof (mine_unique _ _ _ _ _ _ _ _ Hg Hb Eo Es) as Hm.
    unfold set_data; rewrite <- Hy, (write_ok _ _ _ _ _ [0] Hb eq_refl); cbn [obind res].
    eapply set_obj_same;
      [eapply with_ok; [apply good_hole; exact Hg|exact Hb|exact Hm|rewrite !app_length; reflexivity]
      |auto|exact Eo|reflexivity|].
    rewrite Es; eapply fine_start; eapply blk_with; exact Hb.
  - pose proof (fine_read _ _ _ (len o - n) Hf ltac:(lia)) as H0.
    rewrite <- Hlen in H0 at 2.
    pose proof (reallocate_ok _ _ _ _ _ _ 0 _ Hg H0 ltac:(lia)) as Hrl.
    eapply res_bind.
    { destruct (reallocate_more _ _ _ _ _) as [r| |]; cbn in *; [exact Hrl|lia|exact Hrl]. }
    intros [m1 s] (Hg1 & Hk1 & _ & Hs & rest & Hb & Hroom).
    rewrite <- (proj1 Hk1) in Eo.
    destruct (release_detach _ _ _ _ _ _ _ Hg1 Eo Hb) as (m2 & -> & Hg2 & Hb2 & Ho2).
    { intros E; rewrite E in Ha; destruct Ha as [b0 Eb0]; apply nth_lt in Eb0; lia. }
    cbn [obind]; rewrite <- set_data_over with (a := Some (Cstr zstr 0 None)).
    unfold set_data.
    pose proof (write_ok _ s (firstn (length x - n) x) [0] rest [0] Hb2 eq_refl) as Hw.
    rewrite Hy in Hw; rewrite Hw; cbn [obind res].
    rewrite <- (set_nth_twice v h (Some []) (Some (firstn (length x - n) x))).
    eapply (set_obj_ok _ _ [] None h (Some (Cstr zstr 0 None))
              (Some (Cstr (InStor s 0) (len o - n) (Some s)))); [|auto| |].
    + cbn [osth sth]; eapply with_ok; [exact Hg2|exact Hb2|eapply mine_fresh; [exact Hg2|exact Hb2]|].
      rewrite !app_length; reflexivity.
    + cbn [objs with_ set_block set_obj]; apply nth_set_same; exact Ho2.
    + rewrite <- Hy; eapply fine_start; eapply blk_with; exact Hb2.
Qed.

(* move the characters to a block of their own *)
Lemma renew_ok m v h o x add : good m v [] None ->
  nth_error (objs m) h = Some (Some o) -> nth_error v h = Some (Some x) ->
  fine m (Some o) (Some x) -> alive m (sth o) -> 0 <= add ->
  res (do (m, s) <- reallocate_more fresh m (ptr o) (len o) add;
       do m <- release m (sth o);
       Ok (set_obj m h (Some (Cstr (InStor s 0) (len o) (Some s))), s))
    (fun '(m', s) => good m' v [] None /\
       nth_error (objs m') h = Some (Some (Cstr (InStor s 0) (len o) (Some s))) /\
       exists rest, blk m' s (x ++ 0 :: rest))
    (max_size < Z.of_nat (length x) + add).
Proof.
  intros Hg Eo Ev Hf Ha Hadd; pose proof Hf as (Hr & Hlen & Hp & _).
  pose proof (reallocate_ok _ _ _ _ _ _ add _ Hg (fine_all _ _ _ Hf) Hadd) as Hrl.
  eapply res_bind.
  { destruct (reallocate_more _ _ _ _ _) as [r| |]; cbn in *; [exact Hrl|lia|exact Hrl]. }
  intros [m1 s] (Hg1 & Hk1 & _ & Hs & rest & Hb & Hroom).
  rewrite <- (proj1 Hk1) in Eo.
  destruct (release_detach _ _ _ _ _ _ _ Hg1 Eo Hb) as (m2 & -> & Hg2 & Hb2 & Ho2).
  { intros E; rewrite E in Ha; destruct Ha as [b0 Eb0]; apply nth_lt in Eb0; lia. }
  cbn [obind res].
  split; [|split].
  - rewrite <- (set_obj_twice m2 h (Some (Cstr zstr 0 None))).
    rewrite <- (set_nth_same v h (Some x) Ev), <- (set_nth_twice v h (Some []) (Some x)).
    eapply (set_obj_ok _ _ [] None h (Some (Cstr zstr 0 None))
              (Some (Cstr (InStor s 0) (len o) (Some s)))); [exact Hg2|auto| |].
    + cbn [objs set_obj]; apply nth_set_same; exact Ho2.
    + rewrite <- Hlen; eapply fine_start; exact Hb2.
  - cbn [objs set_obj]; apply nth_set_same; exact Ho2.
  - exists rest; exact Hb2.
Qed.

Lemma mut_data_ok m v h x : good m v [] None -> val v h = Some x ->
  res (mut_data fresh m h)
    (fun '(m', s) => good m' v [] None /\
       (exists o, nth_error (objs m') h = Some (Some o) /\ o = Cstr (InStor s 0) (length x) (Some s)) /\
       exists rest, blk m' s (x ++ 0 :: rest))
    (max_size < Z.of_nat (length x)).
Proof.
  intros Hg Hh; destruct (good_obj _ _ _ _ _ Hg Hh) as (o & Eo & Ev & Eob & Hf & Ha).
  pose proof Hf as (Hr & Hlen & Hp & _).
  unfold mut_data; rewrite Eob; cbn [obind].
  assert (Hnew : res (do (m, s) <- reallocate_more fresh m (ptr o) (len o) 0;
       do m <- release m (sth o);
       Ok (set_obj m h (Some (Cstr (InStor s 0) (len o) (Some s))), s))
    (fun '(m', s) => good m' v [] None /\
       (exists o, nth_error (objs m') h = Some (Some o) /\ o = Cstr (InStor s 0) (length x) (Some s)) /\
       exists rest, blk m' s (x ++ 0 :: rest))
    (max_size < Z.of_nat (length x))).
  { pose proof (renew_ok _ _ _ _ _ 0 Hg Eo Ev Hf Ha ltac:(lia)) as H.
    destruct (obind _ _) as [[m' s]| |]; cbn in *; [|lia|exact H].
    destruct H as (H1 & H2 & H3); split; [exact H1|split; [|exact H3]].
    eexists; split; [exact H2|]; rewrite Hlen; reflexivity. }
  destruct (mut_opt_ok _ _ _ _ _ Hg Ha)
    as [(s & c & Es & Hb & -> & _ & _ & Hc & Hin)|(-> & _ & cap & _ & Hcap & Hc)]; cbn [obind].
  2: exact Hnew.
  destruct (ptr o) as [l0 off|s' off] eqn:Ep; [exact Hnew|].
  destruct off as [|off]; [|exact Hnew].
  destruct (Nat.eqb_spec s s') as [Ess|Hns]; [subst s'|exact Hnew].
  cbn [res]; split; [exact Hg|split].
  - exists o; split; [exact Eo|].
    destruct o as [p l0 so]; cbn in *; subst; reflexivity.
  - cbn in Hr; unfold block in Hr; rewrite Hb in Hr; cbn in Hr.
    apply cut_ok in Hr as (a & b & Ec & Hla & _).
    apply length_zero_iff_nil in Hla; subst a; exists b.
    unfold blk in *; rewrite Hb, Ec, <- !app_assoc; reflexivity.
Qed.

Lemma put_ok m v h pos c x : good m v [] None -> val v h = Some x ->
  res (put fresh m h pos c)
    (fun m' => (pos < length x)%nat /\
       good m' (set_nth v h (Some (firstn pos x ++ c :: skipn (S pos) x))) [] None)
    ((length x <= pos)%nat \/ max_size < Z.of_nat (length x)).
Proof.
  intros Hg Hh; destruct (good_obj _ _ _ _ _ Hg Hh) as (o & Eo & Ev & Eob & Hf & Ha).
  pose proof Hf as (Hr & Hlen & Hp & _).
  unfold put; rewrite Eob; cbn [obind].
  destruct (Nat.leb_spec (len o) pos) as [Ho|Ho]; [left; lia|].
  pose proof (mut_data_ok _ _ _ _ Hg Hh) as Hm.
  eapply res_bind.
  { destruct (mut_data fresh m h) as [r| |]; cbn in *; [exact Hm|right; exact Hm|exact Hm]. }
  intros [m1 s] (Hg1 & (o1 & Eo1 & Eo1') & rest & Hb).
  destruct (split_cells x pos ltac:(lia)) as (a & z & b & Ex & Hla).
  assert (Hb' : blk m1 s (a ++ [z] ++ (b ++ 0 :: rest))).
  { rewrite Ex, <- app_assoc in Hb; exact Hb. }
  pose proof (write_ok m1 s a [z] (b ++ 0 :: rest) [c] Hb' eq_refl) as Hw.
  rewrite Hla in Hw; rewrite Hw; cbn [res].
  split; [lia|].
  assert (Ey : firstn pos x ++ c :: skipn (S pos) x = a ++ c :: b).
  { rewrite Ex, <- Hla, firstn_length_app; f_equal; f_equal.
    change (a ++ z :: b) with (a ++ [z] ++ b); rewrite app_assoc.
    replace (S (length a)) with (length (a ++ [z])) by (rewrite app_length; cbn; lia).
    apply skipn_length_app. }
  rewrite Ey.
  assert (Hsame : objs (with_ m1 s (a ++ [c] ++ b ++ 0 :: rest))
                  = set_nth (objs (with_ m1 s (a ++ [c] ++ b ++ 0 :: rest))) h (Some o1)).
  { symmetry; apply set_nth_same; exact Eo1. }
  assert (Em : with_ m1 s (a ++ [c] ++ b ++ 0 :: rest)
               = set_obj (with_ m1 s (a ++ [c] ++ b ++ 0 :: rest)) h (Some o1)).
  { unfold set_obj; rewrite <- Hsame; reflexivity. }
  rewrite Em; eapply (set_obj_same _ _ [] (Some h)); [|auto|exact Eo1|reflexivity|].
  - eapply with_ok; [apply good_hole; exact Hg1|exact Hb'| |rewrite !app_length; reflexivity].
    eapply mine_unique; [exact Hg1|exact Hb'|exact Eo1|rewrite Eo1'; reflexivity].
  - rewrite Eo1'; replace (length x) with (length (a ++ c :: b)) by (rewrite Ex, !app_length; reflexivity).
    eapply (fine_start _ _ _ rest 1).
    pose proof (blk_with m1 s _ (a ++ [c] ++ b ++ 0 :: rest) Hb') as H.
    rewrite <- app_assoc; exact H.
Qed.

Lemma deallocate_ok m v h x : good m v [] None -> val v h = Some x -> length x = 0%nat ->
  res (deallocate m h) (fun m' => good m' v [] None) False.
Proof.
  intros Hg Hh H0; destruct (good_obj _ _ _ _ _ Hg Hh) as (o & Eo & Ev & Eob & Hf & Ha).
  apply length_zero_iff_nil in H0; subst x.
  unfold deallocate; rewrite Eob; cbn [obind]; rewrite <- release_set_obj.
  pose proof (set_obj_ok m v [] None h (Some o) (Some (Cstr zstr 0 None)) (Some [])
                (good_none _ _ _ _ Hg) (or_introl eq_refl) Eo (fine_zstr _ _)) as Hg1.
  cbn [osth] in Hg1; rewrite set_nth_same in Hg1 by exact Ev.
  destruct (release_ok _ _ _ _ _ Hg1) as (m2 & -> & Hg2 & _); exact Hg2.
Qed.

Lemma renew_res m v h o x add : good m v [] None ->
  nth_error (objs m) h = Some (Some o) -> nth_error v h = Some (Some x) ->
  fine m (Some o) (Some x) -> alive m (sth o) -> 0 <= add ->
  res (do (m, s) <- reallocate_more fresh m (ptr o) (len o) add;
       do m <- release m (sth o);
       Ok (set_obj m h (Some (Cstr (InStor s 0) (len o) (Some s)))))
    (fun m' => good m' v [] None) (max_size < Z.of_nat (length x) + add).
Proof.
  intros Hg Eo Ev Hf Ha Hadd; pose proof (renew_ok _ _ _ _ _ add Hg Eo Ev Hf Ha Hadd) as H.
  destruct (reallocate_more fresh m (ptr o) (len o) add) as [[m1 s]| |]; cbn in *; auto.
  destruct (release m1 (sth o)); cbn in *; auto; apply H.
Qed.

Lemma shrink_ok m v h x : good m v [] None -> val v h = Some x ->
  res (shrink_to_fit fresh m h) (fun m' => good m' v [] None) (max_size < Z.of_nat (length x)).
Proof.
  intros Hg Hh; destruct (good_obj _ _ _ _ _ Hg Hh) as (o & Eo & Ev & Eob & Hf & Ha).
  pose proof Hf as (Hr & Hlen & Hp & _).
  unfold shrink_to_fit; rewrite Eob; cbn [obind].
  destruct (Nat.eqb_spec (len o) 0) as [E0|E0].
  { pose proof (deallocate_ok _ _ _ _ Hg Hh ltac:(lia)) as H.
    destruct (deallocate m h); cbn in *; tauto. }
  destruct (Z.ltb_spec max_size (Z.of_nat (len o))); [cbn; lia|].
  pose proof (renew_res _ _ _ _ _ 0 Hg Eo Ev Hf Ha ltac:(lia)) as Hnew.
  replace (Z.of_nat (length x) + 0) with (Z.of_nat (length x)) in Hnew by lia.
  destruct (mut_opt_ok _ _ _ _ _ Hg Ha)
    as [(s & c & Es & Hb & _ & -> & -> & Hc & Hin)|(_ & -> & cap & -> & Hcap & Hc)]; cbn [obind];
    destruct (_ || _); try exact Hg; exact Hnew.
Qed.

Lemma reserve_ok m v h n x : good m v [] None -> val v h = Some x ->
  res (reserve fresh m h n) (fun m' => good m' v [] None)
    (max_size < Z.max (Z.of_nat (length x)) (Z.of_nat n) + 24).
Proof.
  intros Hg Hh; destruct (good_obj _ _ _ _ _ Hg Hh) as (o & Eo & Ev & Eob & Hf & Ha).
  pose proof Hf as (Hr & Hlen & Hp & _).
  unfold reserve; rewrite Eob; cbn [obind].
  destruct (Nat.eqb_spec n 0) as [E0|E0].
  { pose proof (shrink_ok _ _ _ _ Hg Hh) as H.
    destruct (shrink_to_fit fresh m h); cbn in *; [exact H|lia|exact H]. }
  destruct (Z.ltb_spec max_size (Z.max (Z.of_nat (len o)) (Z.of_nat n))); [cbn; lia|].
  pose proof (rounded_ge (Z.max (Z.of_nat (len o)) (Z.of_nat n)) ltac:(lia)) as Hrd.
  pose proof (renew_res _ _ _ _ _ (rounded (Z.max (Z.of_nat (len o)) (Z.of_nat n)) - Z.of_nat (len o))
                Hg Eo Ev Hf Ha ltac:(lia)) as Hnew.
  assert (Hnew' : res (do (m, s) <- reallocate_more fresh m (ptr o) (len o)
         (rounded (Z.max (Z.of_nat (len o)) (Z.of_nat n)) - Z.of_nat (len o));
       do m <- release m (sth o);
       Ok (set_obj m h (Some (Cstr (InStor s 0) (len o) (Some s)))))
    (fun m' => good m' v [] None) (max_size < Z.max (Z.of_nat (length x)) (Z.of_nat n) + 24)).
  { destruct (obind _ _); cbn in *; [exact Hnew|lia|exact Hnew]. }
  destruct (mut_opt_ok _ _ _ _ _ Hg Ha)
    as [(s & c & Es & Hb & _ & -> & -> & Hc & Hin)|(_ & -> & cap & -> & Hcap & Hc)]; cbn [obind];
    destruct (_ && _); try exact Hg; exact Hnew'.
Qed.

(* ---- one statement ---- *)
Definition careful (m : mem) (s : stmt) : Prop :=
  match s with
  | SetLit h l => forall o, obj m h = Ok o -> al (Cstr (InLit (l ++ [0]) 0) (length l) (sth o))
  | NewSub j tpos tn => forall o, obj m j = Ok o -> (tpos <= len o)%nat -> (len o - tpos <= tn)%nat ->
      al (Cstr (shifted (ptr o) tpos) (len o - tpos) (sth o))
  | Append h _ | AppendLit h _ | Pop h _ => forall o, obj m h = Ok o -> lined o
  | _ => True
  end.

Lemma val_some v h : val v h <> None -> exists x, val v h = Some x.
Proof. destruct (val v h); [eauto|congruence]. Qed.
Lemma val_lt v h x : val v h = Some x -> (h < length v)%nat.
Proof. intros H; apply val_nth in H; eapply nth_lt; exact H. Qed.
Lemma limit_max : 4 * limit <= max_size /\ 100 < limit.
Proof. vm_compute; split; discriminate || reflexivity. Qed.

Lemma step_ok m v s : good m v [] None -> legal v s -> careful m s ->
  res (run1 fresh m s) (fun m' => exists v', deep v s = Some v' /\ good m' v' [] None)
    (deep v s = None \/ ~ small m s).
Proof.
  intros Hg Hle Hca; pose proof limit_max as [HL1 HL2].
  assert (Hsm : forall h x, val v h = Some x -> small m s -> Z.of_nat (length x) <= limit).
  { intros h x Hx (_ & Ho & _); destruct (good_obj _ _ _ _ _ Hg Hx) as (o & Eo & _ & _ & (_ & Hl & _) & _).
    rewrite Hl; apply Ho; eapply nth_error_In; exact Eo. }
  destruct s as [l|j|j|j tpos tn|h|h j|h j|h j|h l|h|h j|h l|h n|h pos c|h n|h]; cbn [run1 deep].
  - eapply res_weaken; [apply new_literal_ok; exact Hg|eauto|tauto].
  - destruct (val_some _ _ Hle) as [x Hx]; rewrite Hx.
    eapply res_weaken; [eapply new_copy_ok; eassumption|eauto|tauto].
  - destruct (val_some _ _ Hle) as [x Hx]; rewrite Hx, upd_set by (eapply val_lt; exact Hx).
    eapply res_weaken; [eapply new_move_ok; eassumption|eauto|tauto].
  - destruct (val_some _ _ Hle) as [x Hx]; rewrite Hx.
    eapply res_weaken; [eapply new_substr_ok; eassumption| |].
    + cbn beta; intros m' [Ht Hg']; destruct (Nat.leb_spec tpos (length x)); [eauto|lia].
    + intros [Ht|Ht]; [left; destruct (Nat.leb_spec tpos (length x)); [lia|reflexivity]|].
      right; intros Hs; specialize (Hsm _ _ Hx Hs); lia.
  - destruct (val_some _ _ Hle) as [x Hx]; rewrite upd_set by (eapply val_lt; exact Hx).
    eapply res_weaken; [eapply drop_ok; eassumption|eauto|tauto].
  - destruct Hle as [H1 H2]; destruct (val_some _ _ H1) as [x Hx], (val_some _ _ H2) as [y Hy].
    rewrite Hy, upd_set by (eapply val_lt; exact Hx).
    eapply res_weaken; [eapply assign_ok; eassumption|eauto|tauto].
  - destruct Hle as [H1 H2]; destruct (val_some _ _ H1) as [x Hx], (val_some _ _ H2) as [y Hy].
    rewrite Hy.
    eapply res_weaken; [eapply move_assign_ok; eassumption| |tauto].
    cbn beta; intros m' Hg'; eexists; split; [reflexivity|].
    destruct (h =? j)%nat; [exact Hg'|].
    rewrite (upd_set v) by (eapply val_lt; eassumption).
    rewrite upd_set by (rewrite set_nth_length; eapply val_lt; eassumption).
    exact Hg'.
  - destruct Hle as [H1 H2]; destruct (val_some _ _ H1) as [x Hx], (val_some _ _ H2) as [y Hy].
    rewrite Hx, Hy.
    rewrite (upd_set v) by (eapply val_lt; eassumption).
    rewrite upd_set by (rewrite set_nth_length; eapply val_lt; eassumption).
    eapply res_weaken; [eapply swap_ok; eassumption|eauto|tauto].
  - destruct (val_some _ _ Hle) as [x Hx]; rewrite upd_set by (eapply val_lt; exact Hx).
    eapply res_weaken; [eapply set_literal_ok; eassumption|eauto|tauto].
  - destruct (val_some _ _ Hle) as [x Hx]; rewrite upd_set by (eapply val_lt; exact Hx).
    eapply res_weaken; [eapply clear_ok; eassumption|eauto|tauto].
  - destruct Hle as [H1 H2]; destruct (val_some _ _ H1) as [x Hx], (val_some _ _ H2) as [y Hy].
    rewrite Hx, Hy, upd_set by (eapply val_lt; exact Hx).
    destruct (good_obj _ _ _ _ _ Hg Hy) as (p & Ep & Evp & Epb & Hfp & Hap).
    unfold append_obj; rewrite Epb; cbn [obind].
    pose proof Hfp as (_ & Hlp & _); pose proof (fine_all _ _ _ Hfp) as Hrp.
    rewrite <- Hlp in Hrp |- *.
    eapply res_weaken; [eapply append_ok; eassumption|eauto|].
    intros (o & cap & Ho & Hlo & Hcap & Hbig); right; intros Hs.
    pose proof (Hsm _ _ Hx Hs); pose proof (Hsm _ _ Hy Hs).
    destruct Hs as (Hsb & _).
    assert (Hc2 : cap / 2 <= limit).
    { destruct Hcap as [->|(b & Hb & ->)]; [cbn; lia|].
      specialize (Hsb b Hb); apply Z.div_le_upper_bound; lia. }
    lia.
  - destruct (val_some _ _ Hle) as [x Hx]; rewrite Hx, upd_set by (eapply val_lt; exact Hx).
    eapply res_weaken; [eapply append_ok; try eassumption|eauto|].
    + cbn; pose proof (cut_app [] l [0] 0 (length l) eq_refl eq_refl) as H; exact H.
    + intros (o & cap & Ho & Hlo & Hcap & Hbig); right; intros Hs.
      pose proof (Hsm _ _ Hx Hs).
      destruct Hs as (Hsb & _ & Hl).
      assert (Hc2 : cap / 2 <= limit).
      { destruct Hcap as [->|(b & Hb & ->)]; [cbn; lia|].
        specialize (Hsb b Hb); apply Z.div_le_upper_bound; lia. }
      lia.
  - destruct Hle as (x & Hx & Hn); rewrite Hx, upd_set by (eapply val_lt; exact Hx).
    eapply res_weaken; [eapply pop_ok; eassumption|eauto|].
    intros Hb; right; intros Hs; specialize (Hsm _ _ Hx Hs); lia.
  - destruct (val_some _ _ Hle) as [x Hx]; rewrite Hx, upd_set by (eapply val_lt; exact Hx).
    eapply res_weaken; [eapply put_ok; eassumption| |].
    + cbn beta; intros m' [Ht Hg']; destruct (Nat.ltb_spec pos (length x)); [eauto|lia].
    + intros [Ht|Ht]; [left; destruct (Nat.ltb_spec pos (length x)); [lia|reflexivity]|].
      right; intros Hs; specialize (Hsm _ _ Hx Hs); lia.
  - destruct (val_some _ _ Hle) as [x Hx].
    eapply res_weaken; [eapply reserve_ok; eassumption|eauto|].
    intros Hb; right; intros Hs; specialize (Hsm _ _ Hx Hs); destruct Hs as (_ & _ & Hn); lia.
  - destruct (val_some _ _ Hle) as [x Hx].
    eapply res_weaken; [eapply shrink_ok; eassumption|eauto|].
    intros Hb; right; intros Hs; specialize (Hsm _ _ Hx Hs); lia.
Qed.

Lemma good_init : good init [] [] None.
Proof.
  split; [intros s; cbn; destruct s; reflexivity|split; [reflexivity|]].
  intros [|h] o x _; discriminate.
Qed.

Lemma good_denotes m v : good m v [] None -> denotes m v /\ no_leak m.
Proof.
  intros [Hh [Hl Hv]]; split.
  - unfold denotes.
    assert (H : forall l w, length l = length w ->
      (forall h o x, nth_error l h = Some o -> nth_error w h = Some x -> fine m o x) ->
      Forall2 (shows m) l w).
    { induction l as [|o l IH]; intros [|x w] Hlen Hn; cbn in Hlen; try lia; [constructor|].
      constructor.
      - specialize (Hn 0%nat o x eq_refl eq_refl).
        destruct o as [o|], x as [x|]; try exact Hn.
        split; [exact (fine_all _ _ _ Hn)|apply Hn].
      - apply IH; [lia|]; intros h; apply (Hn (S h)). }
    apply H; [exact Hl|]; intros h o x; apply Hv; discriminate.
  - intros s; specialize (Hh s); cbn [occ] in Hh; split.
    + intros (o & Hin & Hs); apply In_nth_error in Hin as [h Eo].
      pose proof (owners_one _ _ _ s Eo) as H1; cbn in H1; rewrite Hs, hit_self in H1.
      destruct (nth_error (blocks m) s) as [[b|]|]; [eauto|lia|lia].
    + intros [b Eb]; rewrite Eb in Hh; apply owners_pos; lia.
Qed.


End Inv.

(* ---- executions ---- *)
Definition nothing (o : cstr) : Prop := True.
Lemma lined_start : forall s n, lined (Cstr (InStor s 0) n (Some s)).
Proof. intros s n; right; right; exists s; reflexivity. Qed.
Lemma lined_zstr : forall x, lined (Cstr zstr 0 x).
Proof. intros x; right; left; reflexivity. Qed.
Lemma lined_lit : forall p n, lined (Cstr p n None).
Proof. intros p n; left; reflexivity. Qed.

Lemma tame_careful m v s : good lined m v [] None -> legal v s -> tame m v s -> careful lined m s.
Proof.
  intros Hg Hle Ht.
  assert (Hobj : forall h o, val v h <> None -> obj m h = Ok o -> lined o /\ val v h <> None /\
            forall x, val v h = Some x -> length x = len o).
  { intros h o Hn Ho; destruct (val_some _ _ Hn) as [x Hx].
    destruct (good_obj (fun _ _ => 0) lined lined_start lined_lit _ _ _ _ _ Hg Hx) as (o' & _ & _ & Eo' & (_ & Hl & _ & Ha) & _).
    rewrite Eo' in Ho; injection Ho as ->; split; [exact Ha|split; [exact Hn|congruence]]. }
  destruct s; cbn in *; try exact I.
  - intros o Ho Hp Htn; destruct (Hobj _ _ Hle Ho) as (Ha & _ & Hlen).
    destruct (val_some _ _ Hle) as [x Hx]; rewrite Hx in Ht; specialize (Hlen x Hx).
    destruct Ht as [-> |[H|H]].
    + rewrite shifted_0, Nat.sub_0_r; destruct o; exact Ha.
    + right; left; cbn; lia.
    + lia.
  - intros o Ho; subst l; right; left; reflexivity.
  - intros o Ho; apply (Hobj h o); tauto.
  - intros o Ho; apply (Hobj h o); tauto.
  - destruct Hle as (x & Hx & _); intros o Ho; apply (Hobj h o); [congruence|exact Ho].
Qed.

Lemma reach_tame fresh m v : reach fresh tame m v -> good lined m v [] None.
Proof.
  induction 1 as [|m v s m' v' Hr IH Hle Ht Hrun Hdeep]; [apply good_init|].
  pose proof (step_ok fresh lined lined_start lined_zstr lined_lit m v s IH Hle (tame_careful _ _ _ IH Hle Ht)) as H.
  rewrite Hrun in H; destruct H as (w & Hw & Hg); congruence.
Qed.
Lemma at_start_careful m v s : at_start m v s -> careful nothing m s.
Proof.
  destruct s; cbn; intros H; try exact I; try (intros; exact I);
    intros o Ho; rewrite Ho in H; exact H.
Qed.
Lemma reach_start fresh m v : reach fresh at_start m v -> good nothing m v [] None.
Proof.
  induction 1 as [|m v s m' v' Hr IH Hle Ht Hrun Hdeep]; [apply good_init|].
  pose proof (step_ok fresh nothing (fun _ _ => I) (fun _ => I) (fun _ _ => I) m v s IH Hle
                (at_start_careful _ _ _ Ht)) as H.
  rewrite Hrun in H; destruct H as (w & Hw & Hg); congruence.
Qed.

Lemma tame_values fresh m v : reach fresh tame m v -> denotes m v /\ no_leak m.
Proof.
  intros H; eapply good_denotes; [exact fresh|apply lined_start|apply lined_lit|eapply reach_tame, H].
Qed.
Lemma start_values fresh m v : reach fresh at_start m v -> denotes m v /\ no_leak m.
Proof.
  intros H; eapply (good_denotes fresh nothing (fun _ _ => I) (fun _ _ => I)), reach_start, H.
Qed.

Lemma step_result al fresh m v s : res (run1 fresh m s)
  (fun m' => exists v', deep v s = Some v' /\ good al m' v' [] None) (deep v s = None \/ ~ small m s) ->
  match run1 fresh m s with
  | Ok m' => deep v s <> None
  | Throw => deep v s = None \/ ~ small m s
  | UB => False
  end.
Proof.
  destruct (run1 fresh m s); cbn; auto; intros (v' & -> & _); discriminate.
Qed.
Lemma tame_step fresh m v s : reach fresh tame m v -> legal v s -> tame m v s ->
  match run1 fresh m s with
  | Ok m' => deep v s <> None
  | Throw => deep v s = None \/ ~ small m s
  | UB => False
  end.
Proof.
  intros Hr Hle Ht; apply reach_tame in Hr.
  eapply step_result, step_ok;
    [apply lined_start|apply lined_zstr|apply lined_lit|exact Hr|exact Hle|eapply tame_careful; eassumption].
Qed.
Lemma start_step fresh m v s : reach fresh at_start m v -> legal v s -> at_start m v s ->
  match run1 fresh m s with
  | Ok m' => deep v s <> None
  | Throw => deep v s = None \/ ~ small m s
  | UB => False
  end.
Proof.
  intros Hr Hle Ht; apply reach_start in Hr.
  eapply step_result, (step_ok fresh nothing); try exact (fun _ => I); try exact (fun _ _ => I);
    [exact Hr|exact Hle|eapply at_start_careful; eassumption].
Qed.

(* ---- where the code goes wrong ---- *)
Definition bad_program : list stmt :=
  [NewLit []; AppendLit 0 [32; 32; 97; 98; 99]; NewSub 0 2 9; Drop 0; AppendLit 1 [121; 122]].
Definition trash_program : list stmt :=
  [NewLit []; AppendLit 0 [120]; SetLit 0 (repeat 97 30)].
Fixpoint deep_run (v : values) (p : list stmt) : option values :=
  match p with
  | [] => Some v
  | s :: p => match deep v s with Some v => deep_run v p | None => None end
  end.
Definition legalb (v : values) (s : stmt) : bool :=
  let has h := match val v h with Some _ => true | None => false end in
  match s with
  | NewLit _ => true
  | NewCopy j | NewMove j | NewSub j _ _ | Drop j | Clear j => has j
  | SetLit h _ | Put h _ _ | Reserve h _ | Shrink h | AppendLit h _ => has h
  | Assign h j | MoveAssign h j | Swap h j | Append h j => has h && has j
  | Pop h n => match val v h with Some x => (n <=? length x)%nat | None => false end
  end.
Lemma legalb_ok v s : legalb v s = true -> legal v s.
Proof.
  destruct s; cbn; auto; repeat (match goal with |- context [val v ?h] => destruct (val v h) eqn:? end);
    cbn; try discriminate; auto; try (intros; split; congruence); try (intros; congruence).
  intros H; eexists; split; [reflexivity|]; apply Nat.leb_le; exact H.
Qed.
Fixpoint legal_run (v : values) (p : list stmt) : bool :=
  match p with
  | [] => true
  | s :: p => legalb v s && match deep v s with Some v => legal_run v p | None => false end
  end.
Fixpoint runs (fresh : nat -> nat -> Z) (m : mem) (p : list stmt) : outcome mem :=
  match p with
  | [] => Ok m
  | s :: p => match run1 fresh m s with Ok m => runs fresh m p | Throw => Throw | UB => UB end
  end.
Lemma runs_reach fresh p m v m' v' : reach fresh any m v -> legal_run v p = true ->
  runs fresh m p = Ok m' -> deep_run v p = Some v' -> reach fresh any m' v'.
Proof.
  revert m v; induction p as [|s p IH]; cbn; intros m v Hr Hl Hm Hd; [congruence|].
  destruct (run1 fresh m s) as [m1| |] eqn:E1; try discriminate.
  destruct (deep v s) as [v1|] eqn:E2; try discriminate.
  apply andb_prop in Hl as [Hl1 Hl2]; apply legalb_ok in Hl1.
  apply (IH m1 v1); [exact (r_step fresh any m v s m1 v1 Hr Hl1 I E1 E2)|exact Hl2|exact Hm|exact Hd].
Qed.

Lemma string_refuted : forall fresh, exists m v, reach fresh any m v /\ ~ denotes m v.
Proof.
  intros fresh.
  destruct (runs fresh init bad_program) as [m| |] eqn:E; [|vm_compute in E; discriminate E..].
  exists m, [None; Some [97; 98; 99; 121; 122]]; split.
  - apply (runs_reach fresh bad_program init [] m); [apply r_init|reflexivity|exact E|reflexivity].
  - vm_compute in E; injection E as <-; intros H; inversion H as [|? ? ? ? _ H2]; subst; clear H.
    inversion H2 as [|? ? ? ? H3 _]; subst; clear H2; destruct H3 as [H3 _]; vm_compute in H3.
    discriminate H3.
Qed.
Lemma overflow_refuted : forall fresh, exists m v s,
  reach fresh any m v /\ legal v s /\ run1 fresh m s = UB.
Proof.
  intros fresh.
  destruct (runs fresh init trash_program) as [m| |] eqn:E; [|vm_compute in E; discriminate E..].
  exists m, [Some (repeat 97 30)], (AppendLit 0 [121]); split; [|split].
  - apply (runs_reach fresh trash_program init [] m); [apply r_init|reflexivity|exact E|reflexivity].
  - cbn; discriminate.
  - vm_compute in E; injection E as <-; vm_compute; reflexivity.
Qed.
