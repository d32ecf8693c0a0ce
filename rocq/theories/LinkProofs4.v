(* Histories. *)
From Verif Require Import Base Monad Lists SeqModel CowBase HashModel HashProofs XmemModel LinkModel LinkSpec LinkProofs1 LinkProofs2 LinkProofs3.
From Coq Require Import Permutation.

Section Maps.
Context {K V : Type}.
Variable eqb : K -> K -> bool.
Variable hash : K -> Z.
Variable live : V -> bool.
Variables bsz least : Z.
Hypothesis eqb_ok : forall a b, reflect (a = b) (eqb a b).
Hypothesis bsz_pos : 0 < bsz.
Hypothesis least_ok : 5 <= least < 2 ^ 31.
Notation hmap := (hmap K V).
Notation good := (good hash bsz).
Notation does := (@does K V eqb live).
Notation run1 := (@run1 K V eqb hash live bsz least).
Notation run := (@run K V eqb hash live bsz least).

Definition rel (x : option hmap) (a : option (list (K * V))) : Prop :=
  match x, a with Some x, Some a => good x a | None, None => True | _, _ => False end.
Definition shown (m : mem K V) (v : values K V) : Prop := Forall2 rel m v.
Definition up (v : values K V) : list bool := map (fun x => match x with Some _ => true | None => false end) v.

Lemma forall2_nth {A B} (R : A -> B -> Prop) : forall l l', Forall2 R l l' -> forall i y, nth_error l' i = Some y ->
  exists x, nth_error l i = Some x /\ R x y.
Proof.
  intros l l' H. induction H as [|x y l l' Hxy H IH]; intros [|i] z E; try discriminate.
  - injection E as <-. exists x; auto.
  - exact (IH i z E).
Qed.
Lemma forall2_set {A B} (R : A -> B -> Prop) : forall l l', Forall2 R l l' -> forall i x y, R x y ->
  Forall2 R (set_nth l i x) (set_nth l' i y).
Proof.
  intros l l' H. induction H as [|x y l l' Hxy H IH]; intros [|i] a b Hab; cbn; constructor; auto.
Qed.
Lemma alive_get m v h : shown m v -> alive (up v) h ->
  exists x, obj m h = Ok x /\ good x (get v h) /\ (h < length v)%nat /\ val v h = Some (get v h).
Proof.
  intros Hs Ha. unfold alive, up in Ha. rewrite nth_error_map in Ha.
  destruct (nth_error v h) as [[a|]|] eqn:E; try discriminate.
  destruct (forall2_nth _ _ _ Hs _ _ E) as ([x|] & Ex & Hr); [|contradiction].
  exists x. unfold obj, get, val. rewrite Ex, E. split; [reflexivity|]. split; [exact Hr|].
  split; [eapply nth_lt; exact E|reflexivity].
Qed.
Lemma chg_set v h (x : option (list (K * V))) : (h < length v)%nat -> chg v h x = set_nth v h x.
Proof. intros H. unfold chg. symmetry. apply set_nth_split. exact H. Qed.
Lemma shown_chg m v h x a : shown m v -> (h < length v)%nat -> rel x a -> shown (set_obj m h x) (chg v h a).
Proof. intros Hs Hh Hr. rewrite chg_set by exact Hh. apply forall2_set; assumption. Qed.
Lemma up_chg v h (a : list (K * V)) : alive (up v) h -> up (chg v h (Some a)) = up v.
Proof.
  intros Ha. assert (Hh : (h < length v)%nat).
  { unfold alive in Ha. apply nth_lt in Ha. unfold up in Ha. rewrite map_length in Ha. exact Ha. }
  rewrite chg_set by exact Hh. unfold alive, up in *. revert h Ha Hh.
  induction v as [|x v IH]; intros [|h] Ha Hh; cbn in *; try lia.
  - injection Ha as ->. reflexivity.
  - f_equal. apply IH; [exact Ha|lia].
Qed.
Lemma chg_same v h (a : list (K * V)) : val v h = Some a -> chg v h (Some a) = v.
Proof.
  unfold val, chg. destruct (nth_error v h) as [[b|]|] eqn:E; try discriminate. intros H; injection H as <-.
  symmetry. apply split_nth. exact E.
Qed.
Lemma alive_chg v h j (a : list (K * V)) : alive (up v) h -> alive (up v) j -> alive (up (chg v h (Some a))) j.
Proof. intros Hh Hj. rewrite up_chg by exact Hh. exact Hj. Qed.
Lemma chg_length v h (x : option (list (K * V))) : (h < length v)%nat -> length (chg v h x) = length v.
Proof. intros H. rewrite chg_set by exact H. apply set_nth_length. Qed.

Theorem step_ok m v o : shown m v -> legal (up v) o ->
  match run1 m o with
  | Ok (m', r) => exists v', does v o r v' /\ shown m' v' /\ up v' = after (up v) o
  | Throw => refuses bsz least v o
  | UB => False
  end.
Proof.
  intros Hs Hl. destruct o as [|h|h j|h|h|h k x|h k def x|h k|h k x|h k|h j|h var]; cbn [LinkModel.run1 legal after] in *.
  - exists (v ++ [Some []]). split; [cbn; auto|]. split.
    + apply Forall2_app; [exact Hs|]. constructor; [|constructor]. left. auto.
    + unfold up. rewrite map_app. reflexivity.
  - destruct (alive_get m v h Hs Hl) as (x & E & Hg & Hh & Hv). rewrite E; cbn [obind].
    rewrite (destroy_ok hash bsz least least_ok x (get v h) Hg); cbn [obind].
    exists (chg v h None). split; [cbn; auto|]. split; [apply shown_chg; cbn; auto|].
    unfold chg, up. rewrite map_app. cbn [map]. rewrite firstn_map, skipn_map. reflexivity.
  - destruct Hl as [Hl1 Hl2]. destruct (alive_get m v h Hs Hl1) as (x & E & Hg & Hh & Hv). rewrite E; cbn [obind].
    destruct (alive_get m v j Hs Hl2) as (y & E' & Hg' & Hh' & Hv'). rewrite E'; cbn [obind].
    exists (chg (chg v h (Some (get v j))) j (Some (get v h))). split; [cbn; auto|]. split.
    + apply shown_chg; [apply shown_chg; assumption| |assumption]. rewrite chg_length; assumption.
    + rewrite !up_chg; try assumption; [reflexivity|]. apply alive_chg; assumption.
  - destruct (alive_get m v h Hs Hl) as (x & E & Hg & Hh & Hv). rewrite E; cbn [obind].
    destruct (clear_ok hash bsz least least_ok x (get v h) Hg) as (x' & E1 & Hg1). rewrite E1; cbn [obind].
    exists (chg v h (Some [])). split; [cbn; auto|]. split; [apply shown_chg; assumption|].
    apply up_chg; assumption.
  - destruct (alive_get m v h Hs Hl) as (x & E & Hg & Hh & Hv). rewrite E; cbn [obind].
    exists v. split; [cbn; rewrite (good_size _ _ _ _ Hg); auto|]. auto.
  - destruct (alive_get m v h Hs Hl) as (y & E & Hg & Hh & Hv). rewrite E; cbn [obind].
    pose proof (insert_ok eqb hash live bsz least eqb_ok bsz_pos least_ok y (get v h) k x Hg) as HI.
    destruct (insert eqb hash bsz least y k x) as [[[y' p] b]| |]; cbn [obind fst snd]; [|exact HI|exact HI].
    destruct HI as (n & o & HI). destruct b.
    + destruct HI as (Ha & Hd & _). exists (chg v h (Some ((k, x) :: get v h))).
      split; [cbn; rewrite Ha; auto|]. split; [apply shown_chg; [assumption|assumption|right; eauto]|apply up_chg; assumption].
    + destruct HI as (w & Ha & Hd & _). exists v. split; [cbn; rewrite Ha; auto|]. split; [|reflexivity].
      rewrite <- (chg_same v h _ Hv). apply shown_chg; [assumption|assumption|right; eauto].
  - destruct (alive_get m v h Hs Hl) as (y & E & Hg & Hh & Hv). rewrite E; cbn [obind].
    pose proof (insert_ok eqb hash live bsz least eqb_ok bsz_pos least_ok y (get v h) k def Hg) as HI.
    destruct (insert eqb hash bsz least y k def) as [[[y' p] b]| |]; cbn [obind fst snd]; [|exact HI|exact HI].
    destruct HI as (n & o & HI).
    assert (HR : exists y2, write_at y' p x = Ok y2 /\ good y2 ((k, x) :: without eqb (get v h) k) /\
              b = match assoc eqb (get v h) k with None => true | Some _ => false end).
    { destruct b.
      - destruct HI as (Ha & Hd & Hp). rewrite Ha.
        destruct (write_ok eqb hash live bsz least eqb_ok least_ok y' n o _ p k def x Hd Hp) as (y2 & E2 & H2).
        exists y2. split; [exact E2|]. split; [|reflexivity]. right. exists n, o.
        unfold without in H2. cbn [filter fst] in H2. destruct (eqb_ok k k) as [_|]; [|congruence]. exact H2.
      - destruct HI as (w & Ha & Hd & Hp). rewrite Ha.
        destruct (write_ok eqb hash live bsz least eqb_ok least_ok y' n o _ p k w x Hd Hp) as (y2 & E2 & H2).
        exists y2. split; [exact E2|]. split; [|reflexivity]. right; eauto. }
    destruct HR as (y2 & E2 & Hg2 & Eb). rewrite E2; cbn [obind].
    exists (chg v h (Some ((k, x) :: without eqb (get v h) k))).
    split; [cbn; rewrite Eb; auto|]. split; [apply shown_chg; assumption|apply up_chg; assumption].
  - destruct (alive_get m v h Hs Hl) as (y & E & Hg & Hh & Hv). rewrite E; cbn [obind].
    destruct (find_good eqb hash bsz least eqb_ok least_ok y (get v h) k Hg) as (r & E1 & E2 & _). rewrite E1; cbn [obind].
    exists v. split; [cbn; rewrite E2; auto|]. auto.
  - destruct (alive_get m v h Hs Hl) as (y & E & Hg & Hh & Hv). rewrite E; cbn [obind].
    destruct (find_good eqb hash bsz least eqb_ok least_ok y (get v h) k Hg) as (r & E1 & E2 & E3). rewrite E1; cbn [obind].
    destruct r as [[p w]|]; cbn [option_map snd] in E2.
    + destruct (E3 p w eq_refl) as (Hp & n & o & Hd).
      destruct (write_ok eqb hash live bsz least eqb_ok least_ok y n o _ p k w x Hd Hp) as (y2 & E4 & H2). rewrite E4; cbn [obind].
      exists (chg v h (Some ((k, x) :: without eqb (get v h) k))).
      split; [cbn; rewrite <- E2; auto|]. split; [apply shown_chg; [assumption|assumption|right; eauto]|apply up_chg; assumption].
    + exists v. split; [cbn; rewrite <- E2; auto|]. auto.
  - destruct (alive_get m v h Hs Hl) as (y & E & Hg & Hh & Hv). rewrite E; cbn [obind].
    destruct (erase_ok eqb hash live bsz least eqb_ok least_ok y (get v h) k Hg) as (y' & E1 & Hg1). rewrite E1; cbn [obind].
    exists (chg v h (Some (without eqb (get v h) k))). split; [cbn; auto|].
    split; [apply shown_chg; assumption|apply up_chg; assumption].
  - destruct Hl as [Hl1 Hl2]. destruct (alive_get m v h Hs Hl1) as (x & E & Hg & Hh & Hv). rewrite E; cbn [obind].
    destruct (alive_get m v j Hs Hl2) as (y & E' & Hg' & Hh' & Hv'). rewrite E'; cbn [obind].
    cbn [LinkSpec.does refuses]. destruct (Nat.eqb_spec h j) as [|Hne].
    + exists v. auto.
    + pose proof (merge_ok eqb hash live bsz least eqb_ok bsz_pos least_ok x (get v h) y (get v j) Hg Hg') as HM.
      destruct (merge_into eqb hash live bsz least x y) as [y'| |]; cbn [obind]; [|exact HM|exact HM].
      destruct HM as (w & Hgw & W1 & _ & W3). exists (chg v j (Some w)).
      split; [split; [reflexivity|exists w; auto]|]. split; [apply shown_chg; assumption|apply up_chg; assumption].
  - destruct (alive_get m v h Hs Hl) as (y & E & Hg & Hh & Hv). rewrite E; cbn [obind].
    unfold extract_variable.
    destruct (extract_ok eqb hash live bsz least eqb_ok least_ok (S (size y)) y (get v h) var Hg ltac:(lia))
      as (y' & b & x & w & gone & E1 & Hg1 & Hn & HX).
    rewrite E1; cbn [obind fst snd]. exists (chg v h (Some w)).
    split; [|split; [apply shown_chg; assumption|apply up_chg; assumption]].
    cbn [LinkSpec.does]. exists gone, w. split; [exact Hn|]. split; [reflexivity|]. destruct b.
    + left. destruct HX as (Hx & k & HP). exists k, x. auto.
    + right. destruct HX as (Hw & HP & H3 & H4). split; [exact Hw|]. split; [exact HP|]. exists x. auto.
Qed.

Lemma run_ok : forall l m v, shown m v -> all_legal (up v) l ->
  match run m l with
  | Ok rs => history eqb live v l rs
  | Throw => fails eqb live bsz least v l
  | UB => False
  end.
Proof.
  induction l as [|o l IH]; intros m v Hs Hl; cbn [LinkModel.run].
  - constructor.
  - destruct Hl as [Hl1 Hl2]. pose proof (step_ok m v o Hs Hl1) as HS.
    destruct (run1 m o) as [[m' r]| |]; cbn [obind]; [|apply fails_now; exact HS|exact HS].
    destruct HS as (v' & Hd & Hs' & Hu). rewrite <- Hu in Hl2. specialize (IH m' v' Hs' Hl2).
    destruct (run m' l) as [rs| |]; cbn [obind].
    + econstructor; eassumption.
    + eapply fails_later; eassumption.
    + exact IH.
Qed.
Theorem histories l : all_legal [] l ->
  match run [] l with
  | Ok rs => history eqb live [] l rs
  | Throw => fails eqb live bsz least [] l
  | UB => False
  end.
Proof. intros H. apply run_ok; [constructor|exact H]. Qed.
End Maps.

Lemma addresses l : all_legal [] l ->
  match run Z.eqb to_u64 (fun v : option Z => match v with Some _ => true | None => false end) 32 5 [] l with
  | Ok rs => history Z.eqb (fun v => match v with Some _ => true | None => false end) [] l rs
  | Throw => fails Z.eqb (fun v => match v with Some _ => true | None => false end) 32 5 [] l
  | UB => False
  end.
Proof. apply histories; [exact Z.eqb_spec|lia|lia]. Qed.
