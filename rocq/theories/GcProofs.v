(* C33, C34: proofs about the garbage collector. *)
From Verif Require Import Base GcModel GcSpec.
From Coq Require Import Permutation.

(* ---- lists as sets ---- *)

Lemma memb_in v l : memb v l = true <-> In v l.
Proof.
  unfold memb. rewrite existsb_exists. split.
  - intros (x & Hx & E). apply Z.eqb_eq in E. subst. assumption.
  - intros H. exists v. split; [assumption | apply Z.eqb_refl].
Qed.

Lemma memb_not v l : memb v l = false <-> ~ In v l.
Proof. rewrite <- memb_in. destruct (memb v l); split; congruence. Qed.

Lemma vinsert_in l v x : In x (vinsert l v) <-> x = v \/ In x l.
Proof.
  unfold vinsert. destruct (memb v l) eqn:E; cbn [In].
  - apply memb_in in E. split; [auto | intros [-> | H]; assumption].
  - split; intros [H | H]; auto.
Qed.

Lemma vinsert_nodup l v : NoDup l -> NoDup (vinsert l v).
Proof.
  intros H. unfold vinsert. destruct (memb v l) eqn:E; [assumption|].
  apply memb_not in E. constructor; assumption.
Qed.

Lemma vinserts_in l : forall l0 x, In x (fold_left vinsert l l0) <-> In x l \/ In x l0.
Proof.
  induction l as [|v l IH]; intros l0 x; cbn [fold_left In]; [tauto|].
  rewrite IH, vinsert_in. split; intros H; [destruct H as [H | [H | H]] | destruct H as [[H|H]|H]]; auto.
Qed.

Lemma vinserts_nodup l : forall l0, NoDup l0 -> NoDup (fold_left vinsert l l0).
Proof. induction l; intros l0 H; cbn [fold_left]; [assumption|]. apply IHl, vinsert_nodup, H. Qed.

Lemma verase_in l v x : NoDup l -> (In x (verase l v) <-> In x l /\ x <> v).
Proof.
  induction l as [|y l IH]; intros H; cbn [verase In]; [tauto|].
  inversion H as [|? ? Hy Hl]; subst. destruct (Z.eqb_spec y v).
  - subst. split; [intros Hx; split; [auto | intros ->; contradiction]|].
    intros [[Hx | Hx] Hn]; [congruence | assumption].
  - cbn [In]. rewrite IH by assumption. split.
    + intros [-> | [Hx Hn]]; split; auto.
    + intros [[Hx | Hx] Hn]; auto.
Qed.

Lemma verase_nodup l v : NoDup l -> NoDup (verase l v).
Proof.
  induction l as [|y l IH]; intros H; cbn [verase]; [assumption|].
  inversion H as [|? ? Hy Hl]; subst. destruct (Z.eqb_spec y v); [assumption|].
  constructor; [|auto]. rewrite verase_in by assumption. tauto.
Qed.

Lemma extract_none {A} i (l : list A) : extract i l = None -> l = [].
Proof. destruct l; [reflexivity | discriminate]. Qed.

Lemma nth_split_perm {A} (l : list A) d : forall k, (k < length l)%nat ->
  Permutation l (nth k l d :: firstn k l ++ skipn (S k) l).
Proof.
  induction l as [|x l IH]; intros k H; [cbn in H; lia|].
  destruct k as [|k]; [reflexivity|]. cbn [length] in H.
  cbn [nth firstn app]. change (skipn (S (S k)) (x :: l)) with (skipn (S k) l).
  rewrite (IH k) at 1 by lia. apply perm_swap.
Qed.

Lemma extract_perm {A} i (l : list A) y l' : extract i l = Some (y, l') -> Permutation l (y :: l').
Proof.
  destruct l as [|x l]; [discriminate|]. unfold extract.
  set (k := Nat.modulo i (length (x :: l))).
  assert (Hk : (k < length (x :: l))%nat) by (apply Nat.mod_upper_bound; discriminate).
  clearbody k. intros H.
  pose proof (nth_split_perm (x :: l) x k Hk) as Hp.
  inversion H; subst. exact Hp.
Qed.

Lemma vcount_perm v l l' : Permutation l l' -> vcount v l = vcount v l'.
Proof. intros H. unfold vcount. rewrite (proj1 (Permutation_count_occ Z.eq_dec l l') H v). reflexivity. Qed.

Lemma vcount_nonneg v l : 0 <= vcount v l.
Proof. unfold vcount. lia. Qed.

Lemma vcount_not v l : ~ In v l -> vcount v l = 0.
Proof. intros H. unfold vcount. apply (count_occ_not_In Z.eq_dec) in H. rewrite H. reflexivity. Qed.

Lemma vcount_one v l : NoDup l -> In v l -> vcount v l = 1.
Proof.
  intros H Hv. unfold vcount. rewrite (proj1 (NoDup_count_occ' Z.eq_dec l) H v Hv). reflexivity.
Qed.

Lemma vcount_nodup v l : NoDup l -> vcount v l = if memb v l then 1 else 0.
Proof.
  intros H. destruct (memb v l) eqn:E; [apply memb_in in E; apply vcount_one; assumption|].
  apply memb_not in E. apply vcount_not. assumption.
Qed.

Lemma filter_perm {A} (f : A -> bool) l l' : Permutation l l' -> Permutation (filter f l) (filter f l').
Proof.
  induction 1 as [|x l l' H IH|x y l|l l' l'' H1 IH1 H2 IH2]; cbn [filter].
  - reflexivity.
  - destruct (f x); [constructor|]; assumption.
  - destruct (f x), (f y); try reflexivity. apply perm_swap.
  - etransitivity; eassumption.
Qed.

Lemma scount_perm v s s' : Permutation s s' -> scount v s = scount v s'.
Proof. intros H. unfold scount. rewrite (Permutation_length (filter_perm _ _ _ H)). reflexivity. Qed.

Lemma scount_nonneg v s : 0 <= scount v s.
Proof. unfold scount. lia. Qed.

Lemma scount_cons v e s : scount v (e :: s) = (if is_ref_to v e then 1 else 0) + scount v s.
Proof. unfold scount. cbn [filter]. destruct (is_ref_to v e); cbn [length]; lia. Qed.

Lemma scount_pos v s : 0 < scount v s <-> exists a, In (a, Some v) s.
Proof.
  unfold scount. split.
  - intros H. destruct (filter (is_ref_to v) s) as [|[a o] l] eqn:E; [cbn in H; lia|].
    assert (Hin : In (a, o) (filter (is_ref_to v) s)) by (rewrite E; left; reflexivity).
    apply filter_In in Hin as [Hin Hr]. unfold is_ref_to in Hr. cbn [snd] in Hr.
    destruct o as [w|]; [|discriminate]. apply Z.eqb_eq in Hr. subst. eauto.
  - intros (a & Ha).
    assert (Hin : In (a, Some v) (filter (is_ref_to v) s)).
    { apply filter_In. split; [assumption|]. unfold is_ref_to. cbn. apply Z.eqb_refl. }
    destruct (filter (is_ref_to v) s); [contradiction | cbn [length]; lia].
Qed.

(* ---- values ---- *)

Section Val_ind.
  Variable Q : val -> Prop.
  Hypothesis Hleaf : Q VLeaf.
  Hypothesis Href : forall a v, Q (VRef a v).
  Hypothesis Hnode : forall a kids, Forall Q kids -> Q (VNode a kids).
  Fixpoint val_ind2 (t : val) : Q t :=
    match t with
    | VLeaf => Hleaf
    | VRef a v => Href a v
    | VNode a kids =>
        Hnode a kids ((fix go l := match l return Forall Q l with
                                   | [] => Forall_nil _
                                   | k :: l => Forall_cons _ (val_ind2 k) (go l)
                                   end) kids)
    end.
End Val_ind.

Fixpoint size (t : val) : nat :=
  match t with VNode _ kids => S (list_sum (map size kids)) | _ => 1 end.

Lemma list_sum_in k kids : In k kids -> (size k <= list_sum (map size kids))%nat.
Proof.
  induction kids as [|x kids IH]; intros H; [contradiction|]. cbn [map].
  change (list_sum (size x :: map size kids)) with (size x + list_sum (map size kids))%nat.
  destruct H as [-> | H]; [lia|]. specialize (IH H). lia.
Qed.

Lemma part_size x t : part x t -> (size x <= size t)%nat.
Proof.
  induction 1 as [t | x a kids k Hk _ IH]; [lia|]. cbn [size].
  pose proof (list_sum_in _ _ Hk). lia.
Qed.

Lemma part_trans x y t : part x y -> part y t -> part x t.
Proof. intros H1 H2. induction H2; [assumption|]. econstructor; eauto. Qed.

Definition good (at_ : Z -> val) (t : val) : Prop :=
  forall x, part x t ->
    match x with VLeaf => True | VNode a _ => at_ a = x | VRef a _ => at_ a = x end.

Definition label (t : val) : option Z := match t with VRef _ v => Some v | _ => None end.

Lemma good_kid at_ a kids k : good at_ (VNode a kids) -> In k kids -> good at_ k.
Proof. intros H Hk x Hx. apply H. econstructor; eassumption. Qed.

(* the marks: correct, and complete below every node that is not open *)
Definition marks (at_ : Z -> val) (open : list Z) (s : staged) : Prop :=
  NoDup (map fst s) /\
  (forall a o, In (a, o) s -> label (at_ a) = o /\ at_ a <> VLeaf) /\
  (forall a b v, In (a, None) s -> ~ In a open -> part (VRef b v) (at_ a) -> In (b, Some v) s).

(* how a visit changes the marks and the work list *)
Definition grows (s s' : staged) (m m' : list Z) : Prop :=
  incl s s' /\ incl m m' /\
  (forall v, In v m' -> In v m \/ exists a, In (a, Some v) s' /\ ~ In (a, Some v) s) /\
  (forall a v, In (a, Some v) s' -> In (a, Some v) s \/ In v m').

Definition somes (s : staged) : nat :=
  length (filter (fun e => match snd e with Some _ => true | None => false end) s).

Lemma grows_refl s m : grows s s m m.
Proof. repeat split; auto using incl_refl. Qed.

Lemma grows_trans s1 s2 s3 m1 m2 m3 : grows s1 s2 m1 m2 -> grows s2 s3 m2 m3 -> grows s1 s3 m1 m3.
Proof.
  intros (A1 & A2 & A3 & A4) (B1 & B2 & B3 & B4). repeat split.
  - eauto using incl_tran.
  - eauto using incl_tran.
  - intros v H. destruct (B3 v H) as [H' | (a & Ha & Hn)].
    + destruct (A3 v H') as [? | (a & Ha & Hn)]; [auto|]. right. exists a. auto.
    + right. exists a. auto.
  - intros a v H. destruct (B4 a v H) as [H' | ?]; [|auto]. destruct (A4 a v H'); auto.
Qed.

Lemma has_key_in s a : has_key s a = true <-> exists o, In (a, o) s.
Proof.
  unfold has_key. rewrite memb_in, in_map_iff. split.
  - intros ([b o] & E & H). cbn in E. subst. eauto.
  - intros (o & H). exists (a, o). auto.
Qed.

Lemma has_key_not s a : has_key s a = false <-> forall o, ~ In (a, o) s.
Proof.
  split.
  - intros H o Ho. assert (has_key s a = true) by (apply has_key_in; eauto). congruence.
  - intros H. destruct (has_key s a) eqn:E; [|reflexivity]. apply has_key_in in E as (o & Ho).
    exfalso. eapply H; eassumption.
Qed.

Lemma vinsert_length l v : (length (vinsert l v) <= S (length l))%nat.
Proof. unfold vinsert. destruct (memb v l); cbn [length]; lia. Qed.

Section Visit.
  Variable at_ : Z -> val.

  Lemma visit_ok t : good at_ t -> forall open s m s' m',
    (forall x a, part x t -> In a open -> at_ a <> x \/ x = VLeaf) ->
    marks at_ open s -> NoDup m ->
    visit t (s, m) = (s', m') ->
    marks at_ open s' /\ NoDup m' /\ grows s s' m m' /\
    (forall a v, part (VRef a v) t -> In (a, Some v) s') /\
    (forall a v, In (a, Some v) s' -> In (a, Some v) s \/ part (VRef a v) t) /\
    (length m' + somes s <= length m + somes s')%nat.
  Proof.
    induction t as [|a v|a kids IH] using val_ind2; intros Hg open s m s' m' Ho Hm Hnd E.
    - inversion E; subst. split; [assumption|]. split; [assumption|]. split; [apply grows_refl|].
      split; [intros a v H; inversion H|]. split; [auto | lia].
    - cbn [visit] in E. pose proof (Hg _ (part_self _)) as Hat. cbn in Hat.
      destruct (has_key s a) eqn:Ek.
      + inversion E; subst. split; [assumption|]. split; [assumption|]. split; [apply grows_refl|].
        split; [|split; [auto | lia]].
        intros b w H. inversion H; subst. apply has_key_in in Ek as (o & Hin).
        destruct Hm as (_ & Hl & _). destruct (Hl _ _ Hin) as [Hlab _].
        rewrite Hat in Hlab. cbn in Hlab. subst. assumption.
      + inversion E; subst. pose proof (proj1 (has_key_not s a) Ek) as Hk.
        split; [|split; [apply vinsert_nodup; assumption|]].
        { destruct Hm as (H1 & H2 & H3). split; [|split].
          - cbn [map fst]. constructor; [|assumption]. intros Hin.
            apply in_map_iff in Hin as ([b o] & Eb & Hin). cbn in Eb. subst. eapply Hk; eassumption.
          - intros b o [Hin | Hin]; [|auto]. inversion Hin; subst. rewrite Hat. split; [reflexivity | discriminate].
          - intros b c w [Hin | Hin] Hop Hp; [discriminate|]. right. eapply H3; eassumption. }
        split; [|split; [|split]].
        * repeat split.
          -- intros x Hx. right. assumption.
          -- intros x Hx. apply vinsert_in. auto.
          -- intros w Hw. apply vinsert_in in Hw as [-> | Hw]; [|auto]. right. exists a.
             split; [left; reflexivity | apply Hk].
          -- intros b w [Hin | Hin]; [|auto]. inversion Hin; subst. right. apply vinsert_in. auto.
        * intros b w H. inversion H; subst. left. reflexivity.
        * intros b w [Hin | Hin]; [|auto]. inversion Hin; subst. right. constructor.
        * unfold somes. cbn [filter snd length]. pose proof (vinsert_length m v). lia.
    - cbn [visit] in E. pose proof (Hg _ (part_self _)) as Hat. cbn in Hat.
      destruct (has_key s a) eqn:Ek.
      + inversion E; subst. split; [assumption|]. split; [assumption|]. split; [apply grows_refl|].
        split; [|split; [auto | lia]].
        intros b w H. apply has_key_in in Ek as (o & Hin).
        destruct Hm as (_ & Hl & Hc). destruct (Hl _ _ Hin) as [Hlab _].
        rewrite Hat in Hlab. cbn in Hlab. subst.
        eapply Hc; [eassumption | | rewrite Hat; assumption].
        intros Hop. destruct (Ho _ _ (part_self _) Hop); congruence.
      + pose proof (proj1 (has_key_not s a) Ek) as Hk.
        (* the children, one after the other *)
        assert (Hkids : forall l s1 m1 s2 m2,
          incl l kids -> marks at_ (a :: open) s1 -> NoDup m1 ->
          fold_left (fun st k => visit k st) l (s1, m1) = (s2, m2) ->
          marks at_ (a :: open) s2 /\ NoDup m2 /\ grows s1 s2 m1 m2 /\
          (forall b v k, In k l -> part (VRef b v) k -> In (b, Some v) s2) /\
          (forall b v, In (b, Some v) s2 -> In (b, Some v) s1 \/ exists k, In k l /\ part (VRef b v) k) /\
          (length m2 + somes s1 <= length m1 + somes s2)%nat).
        { induction l as [|k l IHl]; intros s1 m1 s2 m2 Hincl Hm1 Hnd1 E1.
          - inversion E1; subst. split; [assumption|]. split; [assumption|]. split; [apply grows_refl|].
            split; [intros b v k []|]. split; [auto | lia].
          - cbn [fold_left] in E1. destruct (visit k (s1, m1)) as [s3 m3] eqn:Ev.
            assert (Hkin : In k kids) by (apply Hincl; left; reflexivity).
            rewrite Forall_forall in IH.
            destruct (IH k Hkin (good_kid _ _ _ _ Hg Hkin) (a :: open) s1 m1 s3 m3)
              as (A1 & A2 & A3 & A4 & A5 & A6); [|assumption|assumption|assumption|].
            { intros x b Hx [-> | Hb].
              - left. rewrite Hat. intros <-. pose proof (part_size _ _ Hx) as Hsz.
                pose proof (list_sum_in _ _ Hkin). cbn [size] in Hsz. lia.
              - apply Ho; [econstructor; eassumption | assumption]. }
            destruct (IHl s3 m3 s2 m2) as (B1 & B2 & B3 & B4 & B5 & B6); auto.
            { intros x Hx. apply Hincl. right. assumption. }
            split; [assumption|]. split; [assumption|].
            split; [eapply grows_trans; eassumption|]. split; [|split; [|lia]].
            + intros b v k' [<- | Hk'] Hp; [|eapply B4; eassumption].
              apply (proj1 B3). eapply A4. eassumption.
            + intros b v Hin. destruct (B5 b v Hin) as [Hin' | (k' & Hk' & Hp)].
              * destruct (A5 b v Hin') as [? | Hp]; [auto|]. right. exists k. split; [left; reflexivity | assumption].
              * right. exists k'. split; [right; assumption | assumption]. }
        assert (Hm1 : marks at_ (a :: open) ((a, None) :: s)).
        { destruct Hm as (H1 & H2 & H3). split; [|split].
          - cbn [map fst]. constructor; [|assumption]. intros Hin.
            apply in_map_iff in Hin as ([b o] & Eb & Hin). cbn in Eb. subst. eapply Hk; eassumption.
          - intros b o [Hin | Hin]; [|auto]. inversion Hin; subst. rewrite Hat. split; [reflexivity | discriminate].
          - intros b c w [Hin | Hin] Hop Hp.
            + inversion Hin; subst. exfalso. apply Hop. left. reflexivity.
            + right. eapply H3; [eassumption | | assumption]. intros Hb. apply Hop. right. assumption. }
        destruct (Hkids kids _ _ _ _ (incl_refl _) Hm1 Hnd E) as (B1 & B2 & B3 & B4 & B5 & B6).
        assert (Hslots : forall b v, part (VRef b v) (VNode a kids) -> In (b, Some v) s').
        { intros b v Hp. inversion Hp as [|? ? ? k Hk' Hp']; subst. eapply B4; eassumption. }
        split; [|split; [assumption|]].
        { destruct B1 as (H1 & H2 & H3). split; [assumption|]. split; [assumption|].
          intros b c w Hin Hop Hp. destruct (Z.eq_dec b a) as [-> | Hne].
          - rewrite Hat in Hp. apply Hslots. assumption.
          - eapply H3; [eassumption | | eassumption]. intros [Heq | Hb]; [congruence | contradiction]. }
        split; [|split; [assumption|split]].
        * destruct B3 as (G1 & G2 & G3 & G4). repeat split.
          -- intros x Hx. apply G1. right. assumption.
          -- assumption.
          -- intros v Hv. destruct (G3 v Hv) as [? | (b & Hb & Hn)]; [auto|].
             right. exists b. split; [assumption|]. intros Hb'. apply Hn. right. assumption.
          -- intros b v Hb. destruct (G4 b v Hb) as [[Hin | Hin] | ?]; [discriminate | auto | auto].
        * intros b v Hin. destruct (B5 b v Hin) as [[Hin' | Hin'] | (k & Hk' & Hp)];
            [discriminate | auto | right; econstructor; eassumption].
        * assert (Hs : somes ((a, None) :: s) = somes s) by reflexivity. lia.
  Qed.

End Visit.

(* ---- the walks of the first and fourth loop ---- *)

Inductive from (heap : Z -> val) (l0 : list Z) : Z -> Prop :=
  | from_in v : In v l0 -> from heap l0 v
  | from_step u v : from heap l0 u -> points (heap u) v -> from heap l0 v.

Lemma slots_in t a v : part (VRef a v) t -> In a (slots t).
Proof.
  intros H. remember (VRef a v) as x. induction H as [t | x b kids k Hk _ IH]; subst.
  - left. reflexivity.
  - cbn [slots]. apply in_flat_map. exists k. auto.
Qed.

Section Walk.
  Variable w : world.
  Variable at_ : Z -> val.
  Hypothesis Hat : forall x, somewhere w x ->
    match x with VLeaf => True | VNode a _ => at_ a = x | VRef a _ => at_ a = x end.
  Hypothesis Hclosed : closed w.
  Notation heap := (w_heap w).
  Notation vars := (w_vars w).

  Lemma good_heap v : In v vars -> good at_ (heap v).
  Proof. intros H x Hx. apply Hat. left. eauto. Qed.

  Lemma from_vars l0 v : incl l0 vars -> from heap l0 v -> In v vars.
  Proof.
    intros Hl H. induction H as [v Hv | u v Hu IH (a & Hp)]; [auto|].
    destruct Hclosed as (Hc & _). apply (Hc a). left. eauto.
  Qed.

  Record walk (l0 d : list Z) (s : staged) (m : list Z) : Prop := {
    k_marks : marks at_ [] s;
    k_nodup : NoDup m;
    k_done : forall u a v, In u d -> part (VRef a v) (heap u) -> In (a, Some v) s;
    k_only : forall a v, In (a, Some v) s -> exists u, In u d /\ part (VRef a v) (heap u);
    k_start : forall v, In v l0 -> In v d \/ In v m;
    k_target : forall a v, In (a, Some v) s -> In v d \/ In v m;
    k_from : forall v, In v d \/ In v m -> from heap l0 v;
    k_origin : forall v, In v m -> In v l0 \/ exists a, In (a, Some v) s
  }.

  Lemma walk_step l0 d s m v m1 s' m' :
    incl l0 vars -> walk l0 d s m -> Permutation m (v :: m1) ->
    visit (heap v) (s, m1) = (s', m') ->
    walk l0 (v :: d) s' m' /\ (length m' + somes s <= length m1 + somes s')%nat.
  Proof.
    intros Hl0 [K1 K2 K3 K4 K5 K6 K7 K8] Hp E.
    assert (Hin : forall x, In x m <-> x = v \/ In x m1).
    { intros x. split; intros H.
      - apply (Permutation_in _ Hp) in H. destruct H; auto.
      - apply (Permutation_in _ (Permutation_sym Hp)). destruct H; [left | right]; auto. }
    assert (Hv : from heap l0 v) by (apply K7; right; apply Hin; auto).
    assert (Hnd : NoDup m1) by (apply (Permutation_NoDup Hp) in K2; inversion K2; assumption).
    destruct (visit_ok at_ (heap v) (good_heap _ (from_vars _ _ Hl0 Hv)) [] s m1 s' m')
      as (V1 & V2 & (G1 & G2 & G3 & G4) & V4 & V5 & V6); auto.
    split; [|assumption]. constructor; auto.
    - intros u a x [<- | Hu] Hx; [auto|]. apply G1. eapply K3; eassumption.
    - intros a x Hx. destruct (V5 a x Hx) as [Hs | Hs].
      + destruct (K4 a x Hs) as (u & Hu & Hpu). exists u. split; [right|]; assumption.
      + exists v. split; [left; reflexivity | assumption].
    - intros x Hx. destruct (K5 x Hx) as [? | Hm]; [left; right; assumption|].
      apply Hin in Hm as [-> | Hm]; [left; left; reflexivity | right; apply G2; assumption].
    - intros a x Hx. destruct (G4 a x Hx) as [Hs | ?]; [|auto].
      destruct (K6 a x Hs) as [? | Hm]; [left; right; assumption|].
      apply Hin in Hm as [-> | Hm]; [left; left; reflexivity | right; apply G2; assumption].
    - intros x [[<- | Hx] | Hx]; [assumption | apply K7; auto |].
      destruct (G3 x Hx) as [Hm | (a & Ha & Hn)]; [apply K7; right; apply Hin; auto|].
      destruct (V5 a x Ha) as [? | Hpx]; [contradiction|].
      eapply from_step; [eassumption|]. exists a. assumption.
    - intros x Hx. destruct (G3 x Hx) as [Hm | (a & Ha & Hn)]; [|eauto].
      destruct (K8 x) as [? | (a & Ha)]; [apply Hin; auto | auto | eauto].
  Qed.

  Lemma walk_end l0 d s :
    walk l0 d s [] ->
    (forall v, In v d <-> from heap l0 v) /\
    (forall a v, In (a, Some v) s <-> exists u, from heap l0 u /\ part (VRef a v) (heap u)).
  Proof.
    intros [K1 K2 K3 K4 K5 K6 K7 K8].
    assert (Hd : forall v, In v d <-> from heap l0 v).
    { intros v. split; [intros H; apply K7; auto|].
      induction 1 as [v Hv | u v Hu IH (a & Hp)].
      - destruct (K5 v Hv) as [? | []]. assumption.
      - destruct (K6 a v) as [? | []]; [eapply K3; eassumption | assumption]. }
    split; [assumption|]. intros a v. split.
    - intros H. destruct (K4 a v H) as (u & Hu & Hp). exists u. split; [apply Hd|]; assumption.
    - intros (u & Hu & Hp). eapply K3; [apply Hd; eassumption | assumption].
  Qed.

  Lemma walk_start l0 m : NoDup m -> (forall v, In v l0 <-> In v m) -> walk l0 [] [] m.
  Proof.
    intros Hnd Hm. constructor; auto; try (intros; contradiction).
    - split; [constructor|]. split; intros; contradiction.
    - intros v H. right. apply Hm. assumption.
    - intros v [[] | H]. constructor. apply Hm. assumption.
    - intros v H. left. apply Hm. assumption.
  Qed.

  Lemma somes_bound l0 d s m : incl l0 vars -> walk l0 d s m -> (somes s <= length (universe w))%nat.
  Proof.
    intros Hl0 [K1 K2 K3 K4 K5 K6 K7 K8]. unfold somes.
    rewrite <- (map_length fst). apply NoDup_incl_length.
    - destruct K1 as (Hnd & _). clear - Hnd. induction s as [|[a o] s IH]; [constructor|].
      cbn [map fst] in Hnd. inversion Hnd; subst. cbn [filter snd].
      destruct o; cbn [map fst]; [|auto]. constructor; [|auto].
      intros Hin. apply in_map_iff in Hin as (e & E & He). apply filter_In in He as [He _].
      match goal with H : ~ In _ _ |- _ => apply H end. rewrite <- E. apply in_map. assumption.
    - intros a Ha. apply in_map_iff in Ha as ([b o] & E & He). cbn in E. subst.
      apply filter_In in He as [He Ho]. destruct o as [v|]; [|discriminate].
      destruct (K4 a v He) as (u & Hu & Hp). unfold universe. apply in_flat_map. exists u.
      split; [|eapply slots_in; eassumption].
      eapply from_vars; [eassumption|]. apply K7. auto.
  Qed.

  Variable base : Z -> Z.
  Variable pick : nat -> nat -> nat.
  Hypothesis Hcounts : exact_counts w base.

  Lemma base_nonneg v : In v vars -> 0 <= base v.
  Proof.
    intros H. destruct (Hcounts v H) as (l & _ & ->). destruct Hclosed as (_ & H1 & H2).
    specialize (H1 v). specialize (H2 v). lia.
  Qed.

  Lemma phase1_ok tracked n : forall d s m g,
    incl tracked vars -> NoDup tracked ->
    walk tracked d s m -> (forall v, In v d -> g v = 1) ->
    (length m + length (universe w) < n + somes s)%nat ->
    exists s' g' d', phase1 heap base pick n tracked s m g = GOk (s', g') /\
      walk tracked d' s' [] /\ forall v, In v d' -> g' v = 1.
  Proof.
    induction n as [|n IH]; intros d s m g Hl0 Hnd0 Hw Hg Hn.
    - pose proof (somes_bound _ _ _ _ Hl0 Hw). lia.
    - cbn [phase1]. destruct (extract (pick 1 n) m) as [[v m1]|] eqn:E.
      + apply extract_perm in E.
        assert (Hvm : In v m) by (apply (Permutation_in _ (Permutation_sym E)); left; reflexivity).
        assert (Hv : In v vars) by (eapply from_vars; [eassumption | apply (k_from _ _ _ _ Hw); auto]).
        pose proof (base_nonneg v Hv) as Hb.
        pose proof (vcount_nonneg v tracked). pose proof (vcount_nonneg v m1).
        pose proof (scount_nonneg v s).
        assert (Hpos : 1 <= vcount v tracked + scount v s).
        { destruct (k_origin _ _ _ _ Hw v Hvm) as [Ht | Hs].
          - rewrite (vcount_one v tracked Hnd0 Ht). lia.
          - apply scount_pos in Hs. lia. }
        destruct (Z.leb_spec 1 (base v + vcount v tracked + scount v s + vcount v m1 + 1 - 1)); [|lia].
        destruct (visit (heap v) (s, m1)) as [s' m'] eqn:Ev.
        destruct (walk_step _ _ _ _ _ _ _ _ Hl0 Hw E Ev) as [Hw' Hlen].
        apply Permutation_length in E. cbn [length] in E.
        eapply IH; [assumption | assumption | eassumption | | lia].
        intros u [<- | Hu]; unfold upd.
        * rewrite Z.eqb_refl. reflexivity.
        * destruct (Z.eqb_spec u v); [reflexivity | auto].
      + apply extract_none in E. subst m. exists s, g, d. auto.
  Qed.

  Lemma phase2_ok tracked n : forall s m g,
    (length s < n)%nat -> NoDup m ->
    (forall v, 0 < scount v s -> g v + scount v s <= base v + vcount v tracked) ->
    exists m' g', phase2 base pick n tracked s m g = GOk (m', g') /\ NoDup m' /\
      (forall v, In v m' <-> In v m \/ 0 < scount v s) /\
      (forall v, g' v = g v + scount v s).
  Proof.
    induction n as [|n IH]; intros s m g Hn Hnd Hc; [lia|]. cbn [phase2].
    destruct (extract (pick 2 n) s) as [[[a o] s1]|] eqn:E.
    - apply extract_perm in E. pose proof (Permutation_length E) as El. cbn [length] in El.
      assert (Es : forall v, scount v s = (if is_ref_to v (a, o) then 1 else 0) + scount v s1)
        by (intros v; rewrite (scount_perm v _ _ E); apply scount_cons).
      destruct o as [v|].
      + assert (Ev : scount v s = 1 + scount v s1).
        { rewrite Es. unfold is_ref_to. cbn. rewrite Z.eqb_refl. reflexivity. }
        pose proof (scount_nonneg v s1). pose proof (vcount_nonneg v m).
        specialize (Hc v ltac:(lia)) as Hcv.
        destruct (Z.leb_spec (g v + 1)
          (base v + vcount v tracked + scount v s1 + vcount v m + 1 - 1)); [|lia].
        destruct (IH s1 (vinsert m v) (upd g v (g v + 1))) as (m' & g' & -> & B1 & B2 & B3).
        * lia.
        * apply vinsert_nodup. assumption.
        * intros x Hx. unfold upd. destruct (Z.eqb_spec x v) as [-> | Hne]; [lia|].
          assert (Ex : scount x s = scount x s1).
          { rewrite Es. unfold is_ref_to. cbn. destruct (Z.eqb_spec v x); [congruence | lia]. }
          specialize (Hc x). lia.
        * exists m', g'. split; [reflexivity|]. split; [assumption|]. split.
          -- intros x. rewrite B2, vinsert_in, Es. unfold is_ref_to. cbn.
             pose proof (scount_nonneg x s1).
             destruct (Z.eqb_spec v x) as [-> | Hne]; [|].
             ++ split; [intros _; right; lia | intros _; left; left; reflexivity].
             ++ split; [intros [[Hx | Hx] | Hx] | intros [Hx | Hx]]; auto; try congruence; right; lia.
          -- intros x. rewrite B3, Es. unfold upd, is_ref_to. cbn.
             rewrite (Z.eqb_sym v x). destruct (Z.eqb_spec x v); subst; lia.
      + assert (Es' : forall v, scount v s = scount v s1) by (intros v; rewrite Es; reflexivity).
        destruct (IH s1 m g) as (m' & g' & -> & B1 & B2 & B3); [lia | assumption | |].
        * intros x Hx. rewrite <- Es' in *. auto.
        * exists m', g'. split; [reflexivity|]. split; [assumption|]. split; intros x; rewrite Es'; auto.
    - apply extract_none in E. subst s. exists m, g. split; [reflexivity|]. split; [assumption|].
      unfold scount. cbn. split; [|intros; lia]. intros v. split; [auto | intros [?|?]; [assumption | lia]].
  Qed.

  Lemma phase3_ok tracked n g : forall m t2 un,
    (length m < n)%nat -> NoDup (m ++ t2) -> NoDup (m ++ un) ->
    exists t2' un', phase3 base pick n tracked m t2 un g = GOk (t2', un') /\
      NoDup t2' /\ NoDup un' /\
      (forall v, In v t2' <-> In v t2 \/ In v m /\ g v <> base v + vcount v tracked) /\
      (forall v, In v un' <-> In v un \/ In v m /\ g v = base v + vcount v tracked).
  Proof.
    induction n as [|n IH]; intros m t2 un Hn H2 Hu; [lia|]. cbn [phase3].
    destruct (extract (pick 3 n) m) as [[v m1]|] eqn:E.
    - apply extract_perm in E. pose proof (Permutation_length E) as El. cbn [length] in El.
      assert (P2 : NoDup ((v :: m1) ++ t2))
        by (eapply Permutation_NoDup; [apply Permutation_app_tail; exact E | assumption]).
      assert (Pu : NoDup ((v :: m1) ++ un))
        by (eapply Permutation_NoDup; [apply Permutation_app_tail; exact E | assumption]).
      cbn [app] in P2, Pu. inversion P2 as [|? ? Hv2 Hn2]; inversion Pu as [|? ? Hvu Hnu]; subst.
      rewrite in_app_iff in Hv2, Hvu.
      rewrite (vcount_not v m1), (vcount_not v t2), (vcount_not v un) by tauto.
      assert (Hin : forall x, In x m <-> x = v \/ In x m1).
      { intros x. split; intros H.
        - apply (Permutation_in _ E) in H. destruct H; auto.
        - apply (Permutation_in _ (Permutation_sym E)). destruct H; [left | right]; auto. }
      assert (Hins : forall l, ~ (In v m1 \/ In v l) -> NoDup (m1 ++ l) -> NoDup (m1 ++ vinsert l v)).
      { intros l Hl Hndl. unfold vinsert. rewrite (proj2 (memb_not v l)) by tauto.
        apply (Permutation_NoDup (l := v :: m1 ++ l)); [apply Permutation_middle|].
        constructor; [rewrite in_app_iff; assumption | assumption]. }
      destruct (Z.eqb_spec (g v) (base v + vcount v tracked + 0 + 0 + 0 + 1 - 1)) as [Eg | Eg].
      + destruct (IH m1 t2 (vinsert un v)) as (t2' & un' & -> & B1 & B2 & B3 & B4);
          [lia | assumption | auto |].
        exists t2', un'. split; [reflexivity|]. split; [assumption|]. split; [assumption|].
        split; intros x.
        * rewrite B3, Hin. split; [intros [?|[? ?]]; auto|].
          intros [? | [[-> | ?] Hx]]; auto. exfalso. apply Hx. lia.
        * rewrite B4, Hin, vinsert_in. split.
          -- intros [[-> | ?] | [? ?]]; auto. right. split; [auto | lia].
          -- intros [? | [[-> | ?] ?]]; auto.
      + destruct (IH m1 (vinsert t2 v) un) as (t2' & un' & -> & B1 & B2 & B3 & B4);
          [lia | auto | assumption |].
        exists t2', un'. split; [reflexivity|]. split; [assumption|]. split; [assumption|].
        split; intros x.
        * rewrite B3, Hin, vinsert_in. split.
          -- intros [[-> | ?] | [? ?]]; auto. right. split; [auto | lia].
          -- intros [? | [[-> | ?] ?]]; auto.
        * rewrite B4, Hin. split; [intros [?|[? ?]]; auto|].
          intros [? | [[-> | ?] Hx]]; auto. exfalso. apply Eg. lia.
    - apply extract_none in E. subst m. cbn [app] in *.
      exists t2, un. split; [reflexivity|]. split; [assumption|]. split; [assumption|].
      cbn [In]. split; intros v; tauto.
  Qed.

  (* what the fourth loop has done to the other maps after marking [d] *)
  Record marked (d un0 un tr0 tr : list Z) (nx0 nx : option (list Z)) (grown : Z) (g0 g : Z -> Z)
    : Prop := {
    m_un : NoDup un /\ forall v, In v un <-> In v un0 /\ ~ In v d;
    m_g : forall v, In v d /\ g v = 0 \/ ~ In v d /\ g v = g0 v;
    m_tr : NoDup tr /\
           match nx0, nx with
           | None, None => grown = 0 /\ (forall v, In v tr <-> In v tr0)
           | Some n0, Some n1 =>
               (forall v, In v tr <-> In v tr0 /\ ~ In v d) /\
               (forall v, In v n1 <-> In v n0 \/ In v tr0 /\ In v d) /\
               grown = Z.of_nat (length tr0) - Z.of_nat (length tr)
           | _, _ => False
           end
  }.

  Lemma verase_length l v : In v l -> S (length (verase l v)) = length l.
  Proof.
    induction l as [|x l IH]; intros H; [contradiction|]. cbn [verase].
    destruct (Z.eqb_spec x v); [reflexivity|]. cbn [length].
    rewrite IH; [reflexivity | destruct H; [congruence | assumption]].
  Qed.

  Lemma phase4_ok l0 n un0 tr0 nx0 g0 : forall d s m un tr nx grown g,
    incl l0 vars ->
    walk l0 d s m -> marked d un0 un tr0 tr nx0 nx grown g0 g ->
    (length m + length (universe w) < n + somes s)%nat ->
    exists un' tr' nx' grown' g' d' s',
      phase4 heap pick n s m un tr nx grown g = GOk (un', tr', nx', grown', g') /\
      walk l0 d' s' [] /\ marked d' un0 un' tr0 tr' nx0 nx' grown' g0 g'.
  Proof.
    induction n as [|n IH]; intros d s m un tr nx grown g Hl0 Hw Hm Hn.
    - pose proof (somes_bound _ _ _ _ Hl0 Hw). lia.
    - cbn [phase4]. destruct (extract (pick 4 n) m) as [[v m1]|] eqn:E.
      + apply extract_perm in E.
        destruct (visit (heap v) (s, m1)) as [s' m'] eqn:Ev.
        destruct (walk_step _ _ _ _ _ _ _ _ Hl0 Hw E Ev) as [Hw' Hlen].
        apply Permutation_length in E. cbn [length] in E.
        destruct Hm as [[Hu1 Hu2] Hg [Ht1 Ht2]].
        assert (Hun : NoDup (verase un v) /\ forall x, In x (verase un v) <-> In x un0 /\ ~ In x (v :: d)).
        { split; [apply verase_nodup; assumption|]. intros x. rewrite verase_in, Hu2 by assumption.
          cbn [In]. split; [intros ([? ?] & ?); split; [assumption | intros [?|?]; congruence]|].
          intros [? Hx]. split; [split; [assumption|] |]; intros ?; apply Hx; auto. }
        assert (Hg' : forall x, In x (v :: d) /\ upd g v 0 x = 0 \/ ~ In x (v :: d) /\ upd g v 0 x = g0 x).
        { intros x. unfold upd. cbn [In]. destruct (Z.eqb_spec x v) as [-> | Hne]; [left; auto|].
          destruct (Hg x) as [[? ?] | [? ?]]; [left; auto|]. right. split; [|assumption].
          intros [?|?]; congruence. }
        destruct nx0 as [n0|], nx as [n1|]; try contradiction.
        * destruct Ht2 as (T1 & T2 & T3).
          destruct (memb v tr) eqn:Emb.
          -- apply memb_in in Emb. eapply IH; [assumption | eassumption | | lia].
             constructor; auto. split; [apply verase_nodup; assumption|].
             split; [|split].
             ++ intros x. rewrite verase_in, T1 by assumption. cbn [In].
                split; [intros ([? ?] & ?); split; [assumption | intros [?|?]; congruence]|].
                intros [? Hx]. split; [split; [assumption|] |]; intros ?; apply Hx; auto.
             ++ intros x. rewrite vinsert_in, T2. cbn [In]. apply T1 in Emb.
                split; [intros [-> | [? | [? ?]]]; tauto|].
                intros [? | [? [-> | ?]]]; auto.
             ++ pose proof (verase_length _ _ Emb). lia.
          -- apply memb_not in Emb. eapply IH; [assumption | eassumption | | lia].
             constructor; auto. split; [assumption|].
             split; [|split; [|assumption]].
             ++ intros x. rewrite T1. cbn [In]. split; [|tauto].
                intros [? ?]. split; [assumption|]. intros [<- | ?]; [|contradiction].
                apply Emb, T1. auto.
             ++ intros x. rewrite T2. cbn [In]. split; [tauto|].
                intros [? | [Hx [<- | ?]]]; auto.
                destruct (in_dec Z.eq_dec v d); [auto|]. exfalso. apply Emb, T1. auto.
        * eapply IH; [assumption | eassumption | | lia]. constructor; auto.
      + apply extract_none in E. subst m.
        exists un, tr, nx, grown, g, d, s. auto.
  Qed.

  Lemma phase5_ok g n : forall un tr cl,
    (length un < n)%nat -> NoDup un -> NoDup tr -> NoDup cl ->
    (forall v, In v un -> g v <> 0) -> (forall v, In v cl -> ~ In v tr) ->
    exists tr' cl', phase5 pick n un tr cl g = GOk (tr', cl') /\ NoDup tr' /\ NoDup cl' /\
      (forall v, In v cl' <-> In v cl \/ In v un /\ In v tr) /\
      (forall v, In v tr' <-> In v tr /\ ~ In v un).
  Proof.
    induction n as [|n IH]; intros un tr cl Hn Hu Ht Hc Hg Hd; [lia|]. cbn [phase5].
    destruct (extract (pick 5 n) un) as [[v un1]|] eqn:E.
    - apply extract_perm in E. pose proof (Permutation_length E) as El. cbn [length] in El.
      pose proof (Permutation_NoDup E Hu) as Hu'. inversion Hu' as [|? ? Hv1 Hnd1]; subst.
      assert (Hin : forall x, In x un <-> x = v \/ In x un1).
      { intros x. split; intros H.
        - apply (Permutation_in _ E) in H. destruct H; auto.
        - apply (Permutation_in _ (Permutation_sym E)). destruct H; [left | right]; auto. }
      destruct (memb v tr) eqn:Emb.
      + apply memb_in in Emb. destruct (Z.eqb_spec (g v) 0) as [Eg | Eg];
          [exfalso; apply (Hg v); [apply Hin; auto | assumption]|].
        destruct (IH un1 (verase tr v) (v :: cl)) as (tr' & cl' & -> & B1 & B2 & B3 & B4).
        * lia.
        * assumption.
        * apply verase_nodup. assumption.
        * constructor; [|assumption]. intros Hx. apply (Hd v Hx). assumption.
        * intros x Hx. apply Hg, Hin. auto.
        * intros x [<- | Hx]; rewrite verase_in by assumption; [tauto|]. intros [? ?].
          eapply Hd; eassumption.
        * exists tr', cl'. split; [reflexivity|]. split; [assumption|]. split; [assumption|].
          split; intros x.
          -- rewrite B3, Hin, verase_in by assumption. cbn [In]. split.
             ++ intros [[<- | ?] | (? & ? & ?)]; auto.
             ++ intros [? | [[-> | ?] ?]]; auto.
                destruct (Z.eq_dec x v) as [-> | ?]; auto.
          -- rewrite B4, Hin, verase_in by assumption. split.
             ++ intros [[? ?] ?]. split; [assumption|]. intros [?|?]; contradiction.
             ++ intros [? Hx]. split; [split; [assumption|] |]; intros ?; apply Hx; auto.
      + apply memb_not in Emb.
        destruct (IH un1 tr cl) as (tr' & cl' & -> & B1 & B2 & B3 & B4); auto; [lia | |].
        * intros x Hx. apply Hg, Hin. auto.
        * exists tr', cl'. split; [reflexivity|]. split; [assumption|]. split; [assumption|].
          split; intros x.
          -- rewrite B3, Hin. split; [intros [? | [? ?]]; auto|].
             intros [? | [[-> | ?] ?]]; auto. contradiction.
          -- rewrite B4, Hin. split.
             ++ intros [? ?]. split; [assumption|]. intros [-> | ?]; contradiction.
             ++ intros [? Hx]. split; [assumption|]. intros ?. apply Hx. auto.
    - apply extract_none in E. subst un. exists tr, cl. split; [reflexivity|].
      split; [assumption|]. split; [assumption|]. cbn [In]. split; intros v; tauto.
  Qed.

End Walk.

(* ---- a whole pass ---- *)

Lemma visited_from w tracked v : visited w tracked v <-> from (w_heap w) tracked v.
Proof.
  split; induction 1.
  - constructor; assumption.
  - eapply from_step; eassumption.
  - constructor; assumption.
  - eapply visited_step; eassumption.
Qed.

Lemma missing (l k : list Z) :
  (length k < length l)%nat -> NoDup l -> exists a, In a l /\ ~ In a k.
Proof.
  intros Hlen Hnd.
  destruct (Exists_dec (fun a => ~ In a k) l) as [H | H].
  - intros a. destruct (in_dec Z.eq_dec a k); [right; tauto | left; assumption].
  - apply Exists_exists in H as (a & Ha & Hk). eauto.
  - exfalso. assert (Hi : incl l k).
    { intros a Ha. destruct (in_dec Z.eq_dec a k); [assumption|]. exfalso. apply H.
      apply Exists_exists. eauto. }
    pose proof (NoDup_incl_length Hnd Hi). lia.
Qed.

Definition refs_to (v : Z) (s : staged) : list Z := map fst (filter (is_ref_to v) s).

Lemma refs_to_in v s a : In a (refs_to v s) <-> In (a, Some v) s.
Proof.
  unfold refs_to. rewrite in_map_iff. split.
  - intros ([b o] & E & H). cbn in E. subst. apply filter_In in H as [H Hr].
    unfold is_ref_to in Hr. cbn in Hr. destruct o; [|discriminate]. apply Z.eqb_eq in Hr. subst.
    assumption.
  - intros H. exists (a, Some v). split; [reflexivity|]. apply filter_In. split; [assumption|].
    unfold is_ref_to. cbn. apply Z.eqb_refl.
Qed.

Lemma refs_to_nodup v s : NoDup (map fst s) -> NoDup (refs_to v s).
Proof.
  unfold refs_to. induction s as [|e s IH]; intros H; [constructor|].
  cbn [map] in H. inversion H as [|? ? He Hs]; subst. cbn [filter].
  destruct (is_ref_to v e); [|auto]. cbn [map]. constructor; [|auto].
  intros Hin. apply He. apply in_map_iff in Hin as (x & E & Hx). apply filter_In in Hx as [Hx _].
  rewrite <- E. apply in_map. assumption.
Qed.

Lemma refs_to_count v s : scount v s = Z.of_nat (length (refs_to v s)).
Proof. unfold scount, refs_to. rewrite map_length. reflexivity. Qed.

Section Pass.
  Variable w : world.
  Variable base : Z -> Z.
  Variable tracked : list Z.
  Hypothesis Hclosed : closed w.
  Hypothesis Hcounts : exact_counts w base.
  Hypothesis Hown : incl tracked (w_vars w).
  Hypothesis Hnd : NoDup tracked.
  Notation heap := (w_heap w).

  Lemma visited_vars v : visited w tracked v -> In v (w_vars w).
  Proof. intros H. apply visited_from in H. eapply from_vars; eassumption. Qed.

  (* the references found by the first loop *)
  Variable s : staged.
  Hypothesis Hkeys : NoDup (map fst s).
  Hypothesis Hfound : forall a v,
    In (a, Some v) s <-> exists u, visited w tracked u /\ part (VRef a v) (heap u).

  Lemma found_le v l : holders w v l -> (length (refs_to v s) <= length l)%nat.
  Proof.
    intros [_ Hl]. apply NoDup_incl_length; [apply refs_to_nodup; assumption|].
    intros a Ha. apply refs_to_in, Hfound in Ha as (u & Hu & Hp). apply Hl. left. exists u.
    split; [apply visited_vars|]; assumption.
  Qed.

  Lemma count_held v :
    visited w tracked v -> managed w tracked ->
    1 + scount v s <> base v + vcount v tracked -> held w tracked v.
  Proof.
    intros Hv Hmg Hne. pose proof (visited_vars v Hv) as Hin.
    destruct (Hcounts v Hin) as (l & Hl & Hb). rewrite (vcount_nodup v tracked Hnd) in Hne.
    specialize (Hmg v Hin). rewrite refs_to_count in Hne.
    pose proof (found_le v l Hl) as Hle. destruct Hclosed as (_ & Hh & _). specialize (Hh v).
    destruct (Z_lt_dec 0 (w_handles w v)) as [Hp | Hp]; [apply held_handle; assumption|].
    destruct (missing l (refs_to v s)) as (a & Ha & Hna).
    - destruct (memb v tracked); lia.
    - apply Hl.
    - eapply held_elsewhere; [assumption | apply Hl; eassumption |].
      intros u Hu Hpu. apply Hna, refs_to_in, Hfound. eauto.
  Qed.

  Lemma count_handle v :
    visited w tracked v -> managed w tracked -> 0 < w_handles w v ->
    1 + scount v s <> base v + vcount v tracked.
  Proof.
    intros Hv Hmg Hp. pose proof (visited_vars v Hv) as Hin.
    destruct (Hcounts v Hin) as (l & Hl & Hb). rewrite (vcount_nodup v tracked Hnd).
    specialize (Hmg v Hin). rewrite refs_to_count. pose proof (found_le v l Hl) as Hle.
    destruct (memb v tracked); lia.
  Qed.

  Lemma count_elsewhere a v :
    visited w tracked v -> managed w tracked -> somewhere w (VRef a v) ->
    (forall u, visited w tracked u -> ~ part (VRef a v) (heap u)) ->
    1 + scount v s <> base v + vcount v tracked.
  Proof.
    intros Hv Hmg Ha Hn. pose proof (visited_vars v Hv) as Hin.
    destruct (Hcounts v Hin) as (l & Hl & Hb). rewrite (vcount_nodup v tracked Hnd).
    specialize (Hmg v Hin). rewrite refs_to_count.
    assert (Hle : (S (length (refs_to v s)) <= length l)%nat).
    { apply (NoDup_incl_length (l := a :: refs_to v s)).
      - constructor; [|apply refs_to_nodup; assumption].
        intros Hx. apply refs_to_in, Hfound in Hx as (u & Hu & Hp). eapply Hn; eassumption.
      - intros b [<- | Hb']; [apply Hl; assumption|].
        apply refs_to_in, Hfound in Hb' as (u & Hu & Hp). apply Hl. left. exists u.
        split; [apply visited_vars|]; assumption. }
    destruct Hclosed as (_ & Hh & _). specialize (Hh v). destruct (memb v tracked); lia.
  Qed.

  Lemma count_fits v :
    visited w tracked v -> 1 <= w_handles w v + w_maps w v + vcount v tracked ->
    1 + scount v s <= base v + vcount v tracked.
  Proof.
    intros Hv Hk. pose proof (visited_vars v Hv) as Hin.
    destruct (Hcounts v Hin) as (l & Hl & Hb). rewrite refs_to_count.
    pose proof (found_le v l Hl). lia.
  Qed.

End Pass.

Lemma nodup_same_length (l l' : list Z) :
  NoDup l -> NoDup l' -> (forall v, In v l <-> In v l') -> length l = length l'.
Proof.
  intros H H' E. apply Nat.le_antisymm; apply NoDup_incl_length; auto; intros v; apply E.
Qed.

Lemma nil_in (l : list Z) : (forall v, ~ In v l) -> l = [].
Proof. destruct l as [|x l]; [reflexivity|]. intros H. exfalso. apply (H x). left. reflexivity. Qed.

Lemma collect_ok w base tracked next pick n :
  coherent w -> closed w -> exact_counts w base -> managed w tracked ->
  incl tracked (w_vars w) -> NoDup tracked ->
  (length tracked + 2 * length (universe w) < n)%nat ->
  exists r, collect (w_heap w) base pick n tracked next = GOk r /\ pass_ok w tracked next r.
Proof.
  intros (at_ & Hat) Hclosed Hcounts Hmg Hown Hnd Hn. unfold collect.
  assert (Hin0 : forall v, In v tracked <-> In v (fold_left vinsert tracked []))
    by (intros v; rewrite vinserts_in; cbn [In]; tauto).
  assert (Hnd0 : NoDup (fold_left vinsert tracked [])) by (apply vinserts_nodup; constructor).
  assert (Hlen0 : length (fold_left vinsert tracked []) = length tracked)
    by (symmetry; apply nodup_same_length; assumption).
  destruct (phase1_ok w at_ Hat Hclosed base pick Hcounts tracked n [] [] _ (fun _ => 0) Hown Hnd
              (walk_start w at_ tracked _ Hnd0 Hin0))
    as (s & g1 & d1 & -> & W1 & G1); [intros v [] | cbn [somes filter length]; unfold somes; cbn; lia |].
  cbn [gbind].
  destruct (walk_end w at_ _ _ _ W1) as [D1 F1].
  assert (Hfound : forall a v,
    In (a, Some v) s <-> exists u, visited w tracked u /\ part (VRef a v) (w_heap w u)).
  { intros a v. rewrite F1. split; intros (u & Hu & Hp); exists u; split; auto;
      apply visited_from; assumption. }
  assert (Hkeys : NoDup (map fst s)) by apply (k_marks _ _ _ _ _ _ W1).
  assert (Hvis : forall v, 0 < scount v s -> visited w tracked v).
  { intros v Hp. apply scount_pos in Hp as (a & Ha). apply Hfound in Ha as (u & Hu & Hp).
    eapply visited_step; [eassumption|]. exists a. assumption. }
  assert (Hg1 : forall v, visited w tracked v -> g1 v = 1)
    by (intros v Hv; apply G1, D1, visited_from, Hv).
  assert (Hkept : forall v, visited w tracked v -> 1 <= w_handles w v + w_maps w v + vcount v tracked).
  { intros v Hv. pose proof (visited_vars w tracked Hclosed Hown v Hv) as Hin.
    rewrite (vcount_nodup v tracked Hnd), (Hmg v Hin). destruct Hclosed as (_ & Hh & _).
    specialize (Hh v). destruct (memb v tracked); lia. }
  destruct (phase2_ok base pick tracked (S (length s)) s [] g1) as (m2 & g2 & -> & N2 & I2 & G2);
    [lia | constructor | |].
  { intros v Hp. rewrite Hg1 by auto.
    eapply count_fits; eauto. }
  cbn [gbind].
  set (t1 := fold_left vinsert tracked m2).
  assert (Ht1 : forall v, In v t1 <-> visited w tracked v).
  { intros v. unfold t1. rewrite vinserts_in, I2. cbn [In]. split.
    - intros [H | [[] | H]]; [constructor; assumption | auto].
    - intros H. destruct H as [v H | u v H (a & Hp)]; [auto|]. right. right. apply scount_pos.
      exists a. apply Hfound. eauto. }
  assert (Hnt1 : NoDup t1) by (apply vinserts_nodup; assumption).
  destruct (phase3_ok base pick tracked (S (length t1)) g2 t1 [] [])
    as (t2 & un & -> & N3 & N3' & I3 & I3');
    [lia | rewrite app_nil_r; assumption | rewrite app_nil_r; assumption |].
  cbn [gbind].
  assert (Hg2 : forall v, visited w tracked v -> g2 v = 1 + scount v s)
    by (intros v Hv; rewrite G2, Hg1 by assumption; reflexivity).
  (* the variables that are held from elsewhere *)
  assert (Hheld : forall v, from (w_heap w) t2 v <-> held w tracked v).
  { intros v. split.
    - induction 1 as [v Hv | u v Hu IH Hp]; [|eapply held_step; eassumption].
      apply I3 in Hv as [[] | [Hv Hne]]. apply Ht1 in Hv. rewrite Hg2 in Hne by assumption.
      eapply count_held; eauto.
    - induction 1 as [v Hv Hp | a v Hv Ha Hno | u v Hu IH Hp]; [| |eapply from_step; eassumption];
        apply from_in, I3; right; (split; [apply Ht1; assumption|]);
        rewrite Hg2 by assumption; eauto using count_handle, count_elsewhere. }
  assert (Hown2 : incl t2 (w_vars w)).
  { intros v Hv. apply I3 in Hv as [[] | [Hv _]]. apply Ht1 in Hv.
    eapply visited_vars; eassumption. }
  (* every iteration of the fourth loop is one found by the first *)
  assert (Hlen2 : (length t2 <= length tracked + length (universe w))%nat).
  { transitivity (length (tracked ++ map (fun e => match snd e with Some v => v | None => 0 end)
                                       (filter (fun e => match snd e with Some _ => true | None => false end) s))).
    - apply NoDup_incl_length; [assumption|]. intros v Hv.
      apply I3 in Hv as [[] | [Hv _]]. apply Ht1 in Hv. apply in_app_iff.
      destruct Hv as [v Hv | u v Hu (a & Hp)]; [auto|]. right.
      apply in_map_iff. exists (a, Some v). split; [reflexivity|].
      apply filter_In. split; [apply Hfound; eauto | reflexivity].
    - rewrite app_length, map_length.
      pose proof (somes_bound w at_ Hclosed _ _ _ _ Hown W1) as Hsb. unfold somes in Hsb. lia. }
  destruct (phase4_ok w at_ Hat Hclosed pick t2 n un tracked next g2 [] [] t2 un tracked next 0 g2
              Hown2 (walk_start w at_ t2 t2 N3 (fun v => iff_refl _)))
    as (un4 & tr4 & nx4 & grown & g4 & d4 & s4 & -> & W4 & M4).
  { constructor.
    - split; [assumption|]. intros v. cbn [In]. tauto.
    - intros v. right. auto.
    - split; [assumption|]. destruct next; cbn [In].
      + split; [intros; tauto|]. split; [intros; tauto | lia].
      + split; [reflexivity | intros; tauto]. }
  { unfold somes. cbn [filter length]. lia. }
  cbn [gbind].
  destruct (walk_end w at_ _ _ _ W4) as [D4 _].
  assert (Hd4 : forall v, In v d4 <-> held w tracked v) by (intros v; rewrite D4; apply Hheld).
  destruct M4 as [[Nu4 Iu4] Ig4 [Nt4 It4]].
  assert (Hun4 : forall v, In v un4 <-> visited w tracked v /\ ~ held w tracked v).
  { intros v. rewrite Iu4, Hd4, I3'. cbn [In]. split.
    - intros [[[] | [Hv _]] Hno]. split; [apply Ht1|]; assumption.
    - intros [Hv Hno]. split; [|assumption]. right. split; [apply Ht1; assumption|].
      destruct (Z.eq_dec (g2 v) (base v + vcount v tracked)) as [E | E]; [assumption|].
      exfalso. apply Hno, Hheld, from_in, I3. right. split; [apply Ht1|]; assumption. }
  destruct (phase5_ok pick g4 (S (length un4)) un4 tr4 []) as (tr5 & cl & -> & N5 & N5' & I5 & I5');
    [lia | assumption | assumption | constructor | | intros v [] |].
  { intros v Hv. apply Hun4 in Hv as [Hv Hno].
    destruct (Ig4 v) as [[Hx _] | [_ ->]]; [exfalso; apply Hno, Hd4, Hx|].
    rewrite Hg2 by assumption. pose proof (scount_nonneg v s). lia. }
  cbn [gbind]. eexists. split; [reflexivity|]. unfold pass_ok. cbn [r_cleared r_tracked r_next r_promoted].
  assert (Hdec : forall v, In v tracked -> held w tracked v \/ ~ held w tracked v).
  { intros v Hv. destruct (in_dec Z.eq_dec v d4) as [Hx | Hx]; [left | right]; rewrite <- Hd4; assumption. }
  assert (Hcl : forall v, In v cl <-> In v tracked /\ ~ held w tracked v).
  { intros v. rewrite I5, Hun4. cbn [In]. destruct next as [n0|], nx4 as [n4|]; try contradiction.
    - destruct It4 as (T1 & _). rewrite T1, Hd4. split; [tauto|].
      intros [Hv Hno]. right. split; [split; [constructor|]|split]; assumption.
    - destruct It4 as (_ & T1). rewrite T1. split; [tauto|].
      intros [Hv Hno]. right. split; [split; [constructor|]|]; assumption. }
  split; [assumption|]. split; [assumption|].
  destruct next as [n0|], nx4 as [n4|]; try contradiction.
  - destruct It4 as (T1 & T2 & T3).
    assert (Htr : forall v, In v tr4 <-> In v tracked /\ ~ held w tracked v)
      by (intros v; rewrite T1, Hd4; reflexivity).
    split; [|split].
    + apply nil_in. intros v Hv. apply I5' in Hv as [Hv Hno]. apply Htr in Hv as [Hv Hh].
      apply Hno, Hun4. split; [constructor|]; assumption.
    + intros v. rewrite T2, Hd4. reflexivity.
    + rewrite T3. f_equal. f_equal. apply nodup_same_length; [assumption | assumption |].
      intros v. rewrite Htr, Hcl. reflexivity.
  - destruct It4 as (T1 & T2). split; [assumption|]. split; [|split; [reflexivity | assumption]].
    intros v. rewrite I5', T2, Hun4. split.
    + intros [Hv Hno]. split; [assumption|]. destruct (Hdec v Hv) as [? | Hn']; [assumption|].
      exfalso. apply Hno. split; [constructor|]; assumption.
    + intros [Hv Hh]. split; [assumption|]. tauto.
Qed.

(* ---- reachability ---- *)

Lemma reach_vars w v : closed w -> reach w v -> In v (w_vars w).
Proof.
  intros (Hc & _) H. induction H as [v Hv _ | t v Ht (a & Hp) | u v Hu IH (a & Hp)]; [assumption | |].
  - apply (Hc a). right. eauto.
  - apply (Hc a). left. eauto.
Qed.

Lemma reach_held w tracked v :
  closed w -> incl tracked (w_vars w) -> unshared w tracked ->
  (forall u, In u (w_vars w) -> visited w tracked u \/ ~ visited w tracked u) ->
  reach w v -> visited w tracked v -> held w tracked v.
Proof.
  intros Hc Hown Hun Hdec H. induction H as [v Hv Hp | t v Ht (a & Hp) | u v Hu IH (a & Hp)]; intros Hvis.
  - apply held_handle; assumption.
  - apply (held_elsewhere _ _ a); [assumption | right; eauto |].
    intros u Hu Hpu. destruct (Hun _ _ _ Hu Hpu) as [Hno _]. eapply Hno; eassumption.
  - pose proof (reach_vars _ _ Hc Hu) as Huv.
    destruct (Hdec u Huv) as [Hvu | Hnu].
    + eapply held_step; [apply IH; assumption|]. exists a. assumption.
    + apply (held_elsewhere _ _ a); [assumption | left; eauto |].
      intros u' Hu' Hpu'. apply Hnu. destruct (Hun _ _ _ Hu' Hpu') as [_ Hsh]. eapply Hsh; eassumption.
Qed.

Lemma visited_dec w base tracked :
  coherent w -> closed w -> exact_counts w base -> incl tracked (w_vars w) -> NoDup tracked ->
  forall u, visited w tracked u \/ ~ visited w tracked u.
Proof.
  intros (at_ & Hat) Hclosed Hcounts Hown Hnd.
  destruct (phase1_ok w at_ Hat Hclosed base (fun _ _ => 0%nat) Hcounts tracked
              (S (length tracked + length (universe w))) [] [] tracked (fun _ => 0) Hown Hnd
              (walk_start w at_ tracked tracked Hnd (fun v => iff_refl _)))
    as (s & g1 & d1 & _ & W1 & _); [intros v [] | unfold somes; cbn [filter length]; lia |].
  destruct (walk_end w at_ _ _ _ W1) as [D1 _].
  intros u. destruct (in_dec Z.eq_dec u d1) as [H | H]; [left | right]; rewrite visited_from, <- D1;
    assumption.
Qed.

Lemma collect_safe w base tracked next pick n r :
  coherent w -> closed w -> exact_counts w base -> managed w tracked -> unshared w tracked ->
  incl tracked (w_vars w) -> NoDup tracked ->
  (length tracked + 2 * length (universe w) < n)%nat ->
  collect (w_heap w) base pick n tracked next = GOk r ->
  forall v, In v (r_cleared r) -> ~ reach w v.
Proof.
  intros Hco Hcl Hex Hmg Hun Hown Hnd Hn E v Hv Hr.
  destruct (collect_ok w base tracked next pick n Hco Hcl Hex Hmg Hown Hnd Hn) as (r' & E' & Ho).
  rewrite E in E'. inversion E'; subst r'. destruct Ho as (_ & Hc & _).
  apply Hc in Hv as [Hv Hno]. apply Hno. eapply reach_held; eauto.
  - intros u _. eapply visited_dec; eassumption.
  - constructor. assumption.
Qed.

Lemma held_outside w tracked v :
  closed w -> incl tracked (w_vars w) -> held w tracked v -> outside w tracked v.
Proof.
  intros Hc Hown H.
  induction H as [v Hv Hp | a v Hv [(u & Hu & Hp) | (t & Ht & Hp)] Hno | u v Hu IH Hp].
  - apply outside_handle; [|assumption]. apply visited_from in Hv. eapply from_vars; eassumption.
  - eapply outside_other; [eassumption | | exists a; eassumption].
    intros Hx. apply (Hno u); [constructor|]; assumption.
  - eapply outside_outer; [eassumption|]. exists a. assumption.
  - eapply outside_step; eassumption.
Qed.

Lemma collect_complete w base tracked next pick n r :
  coherent w -> closed w -> exact_counts w base -> managed w tracked ->
  incl tracked (w_vars w) -> NoDup tracked ->
  (length tracked + 2 * length (universe w) < n)%nat ->
  collect (w_heap w) base pick n tracked next = GOk r ->
  forall v, In v tracked -> ~ outside w tracked v -> In v (r_cleared r).
Proof.
  intros Hco Hcl Hex Hmg Hown Hnd Hn E v Hv Hr.
  destruct (collect_ok w base tracked next pick n Hco Hcl Hex Hmg Hown Hnd Hn) as (r' & E' & Ho).
  rewrite E in E'. inversion E'; subst r'. destruct Ho as (_ & Hc & _).
  apply Hc. split; [assumption|]. intros Hh. apply Hr. apply held_outside; assumption.
Qed.

(* ---- counterexamples ---- *)

Definition cx_closure : list val := [VRef 101 2; VRef 102 3].
Definition cx_at (a : Z) : val :=
  match a with
  | 10 => VNode 10 cx_closure
  | 20 => VNode 20 cx_closure
  | 101 => VRef 101 2
  | 102 => VRef 102 3
  | _ => VLeaf
  end.
Definition cx_heap (v : Z) : val :=
  match v with 1 => VNode 10 cx_closure | 2 => VNode 20 cx_closure | _ => VLeaf end.

Definition cx1 : world :=
  mk_world [1; 2; 3] cx_heap [] (fun v => if v =? 1 then 1 else 0) (fun v => if v =? 1 then 1 else
    if (v =? 2) || (v =? 3) then 0 else 1).
Definition cx_heap2 (v : Z) : val := if v =? 2 then VNode 20 cx_closure else VLeaf.
Definition cx2 : world :=
  mk_world [2; 3] cx_heap2 [VNode 10 cx_closure] (fun _ => 0) (fun _ => 0).
Definition cx3 : world :=
  mk_world [1; 2] (fun v => if v =? 1 then VNode 10 [VRef 101 2] else VLeaf) [] (fun _ => 0) (fun _ => 0).

Ltac parts :=
  repeat match goal with
  | H : part _ (VNode _ _) |- _ => inversion H; clear H; subst
  | H : part _ (VRef _ _) |- _ => inversion H; clear H; subst
  | H : part _ VLeaf |- _ => inversion H; clear H; subst
  | H : In _ cx_closure |- _ => unfold cx_closure in H
  | H : In _ (_ :: _) |- _ => destruct H as [H | H]; [subst|]
  | H : In _ [] |- _ => destruct H
  end.

Ltac spots H :=
  destruct H as [(?u & ?Hu & ?Hp) | (?t & ?Ht & ?Hp)];
  cbn [w_vars w_outer cx1 cx2 cx3] in *; parts;
  cbn [w_heap cx1 cx2 cx3 cx_heap cx_heap2 Z.eqb Pos.eqb] in *; parts.

Lemma holders_one w v a :
  (forall b, somewhere w (VRef b v) <-> b = a) -> holders w v [a].
Proof.
  intros H. split; [constructor; [intros [] | constructor]|].
  intros b. rewrite H. cbn [In]. split; [intros [?|[]]; auto | auto].
Qed.

Lemma holders_none w v : (forall b, ~ somewhere w (VRef b v)) -> holders w v [].
Proof. intros H. split; [constructor|]. intros b. split; [intros [] | apply H]. Qed.

Lemma shared_refuted : exists w base tracked next pick n r v,
  coherent w /\ closed w /\ exact_counts w base /\ managed w tracked /\
  incl tracked (w_vars w) /\ NoDup tracked /\
  (length tracked + 2 * length (universe w) < n)%nat /\ w_outer w = [] /\
  collect (w_heap w) base pick n tracked next = GOk r /\
  In v (r_cleared r) /\ reach w v.
Proof.
  exists cx1, (fun v => if v =? 1 then 2 else 1), [2; 3], (Some [1]), (fun _ _ => 0%nat), 20%nat.
  eexists. exists 3.
  split; [|split; [|split; [|split; [|split; [|split; [|split; [|split; [|split; [|split]]]]]]]]].
  - exists cx_at. intros x Hx. spots Hx; cbn; auto.
  - split; [|split].
    + intros a v Hx. spots Hx; cbn; tauto.
    + intros v. cbn. destruct (v =? 1); lia.
    + intros v. cbn. destruct (v =? 1); [lia|]. destruct ((v =? 2) || (v =? 3)); lia.
  - intros v Hv. cbn in Hv. destruct Hv as [<- | [<- | [<- | []]]].
    + exists []. split; [|reflexivity]. apply holders_none. intros b Hx. spots Hx.
    + exists [101]. split; [|reflexivity]. apply holders_one. intros b. split.
      * intros Hx. spots Hx; reflexivity.
      * intros ->. left. exists 2. split; [cbn; tauto|]. cbn.
        eapply part_kid; [left; reflexivity | constructor].
    + exists [102]. split; [|reflexivity]. apply holders_one. intros b. split.
      * intros Hx. spots Hx; reflexivity.
      * intros ->. left. exists 2. split; [cbn; tauto|]. cbn.
        eapply part_kid; [right; left; reflexivity | constructor].
  - intros v Hv. cbn in Hv. destruct Hv as [<- | [<- | [<- | []]]]; reflexivity.
  - intros v Hv. cbn in *. tauto.
  - repeat constructor; cbn; intuition congruence.
  - cbn. lia.
  - reflexivity.
  - reflexivity.
  - cbn. tauto.
  - apply (reach_step _ 1); [apply reach_handle; cbn; [tauto | lia]|].
    exists 102. cbn. eapply part_kid; [right; left; reflexivity | constructor].
Qed.

Lemma temporary_refuted : exists w base tracked next pick n r v,
  coherent w /\ closed w /\ exact_counts w base /\ managed w tracked /\
  tracked = w_vars w /\ NoDup tracked /\
  (length tracked + 2 * length (universe w) < n)%nat /\
  collect (w_heap w) base pick n tracked next = GOk r /\
  In v (r_cleared r) /\ reach w v.
Proof.
  exists cx2, (fun v => 1), [2; 3], None, (fun _ _ => 0%nat), 20%nat.
  eexists. exists 3.
  split; [|split; [|split; [|split; [|split; [|split; [|split; [|split; [|split]]]]]]]].
  - exists cx_at. intros x Hx. spots Hx; cbn; auto.
  - split; [|split].
    + intros a v Hx. spots Hx; cbn; tauto.
    + intros v. cbn. lia.
    + intros v. cbn. lia.
  - intros v Hv. cbn in Hv. destruct Hv as [<- | [<- | []]].
    + exists [101]. split; [|reflexivity]. apply holders_one. intros b. split.
      * intros Hx. spots Hx; reflexivity.
      * intros ->. left. exists 2. split; [cbn; tauto|]. cbn.
        eapply part_kid; [left; reflexivity | constructor].
    + exists [102]. split; [|reflexivity]. apply holders_one. intros b. split.
      * intros Hx. spots Hx; reflexivity.
      * intros ->. left. exists 2. split; [cbn; tauto|]. cbn.
        eapply part_kid; [right; left; reflexivity | constructor].
  - intros v Hv. cbn in Hv. destruct Hv as [<- | [<- | []]]; reflexivity.
  - reflexivity.
  - repeat constructor; cbn; intuition congruence.
  - cbn. lia.
  - reflexivity.
  - cbn. tauto.
  - eapply reach_outer; [left; reflexivity|].
    exists 102. cbn. eapply part_kid; [right; left; reflexivity | constructor].
Qed.

Lemma assert_refuted : exists w base tracked next pick n,
  coherent w /\ closed w /\ exact_counts w base /\
  incl tracked (w_vars w) /\ NoDup tracked /\
  (length tracked + 2 * length (universe w) < n)%nat /\
  collect (w_heap w) base pick n tracked next = GAssert.
Proof.
  exists cx3, (fun v => if v =? 2 then 1 else 0), [1], None, (fun _ _ => 0%nat), 20%nat.
  split; [|split; [|split; [|split; [|split; [|split]]]]].
  - exists (fun a => if a =? 10 then VNode 10 [VRef 101 2] else VRef 101 2).
    intros x Hx. spots Hx; cbn; auto.
  - split; [|split].
    + intros a v Hx. spots Hx; cbn; tauto.
    + intros v. cbn. lia.
    + intros v. cbn. lia.
  - intros v Hv. cbn in Hv. destruct Hv as [<- | [<- | []]].
    + exists []. split; [|reflexivity]. apply holders_none. intros b Hx. spots Hx.
    + exists [101]. split; [|reflexivity]. apply holders_one. intros b. split.
      * intros Hx. spots Hx; reflexivity.
      * intros ->. left. exists 1. split; [cbn; tauto|]. cbn.
        eapply part_kid; [left; reflexivity | constructor].
  - intros v Hv. cbn in *. tauto.
  - repeat constructor; cbn; intuition congruence.
  - cbn. lia.
  - reflexivity.
Qed.
