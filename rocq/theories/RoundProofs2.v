From Verif Require Import Base Monad SortModel SortSpec ValueModel ValueSpec ValueProofs RoundModel RoundSpec.
Open Scope Z_scope.

(* ---- what the loop computes ---- *)
Fixpoint pick (w : compare) (res : value) (l : list value) : value :=
  match l with
  | [] => res
  | r :: l => pick w (match res with VNull => r | _ => if cmp_eqb (vcmp res r) w then r else res end) l
  end.
Lemma extreme_finishes w l : Forall wf_value l -> forall res, wf_value res ->
  finishes (fun fuel => extreme_from fuel w res l) (Ok (pick w res l)).
Proof.
  induction 1 as [|r l Wr Wl IH]; intros res W.
  - exists 0%nat. reflexivity.
  - destruct (compare_partial_ok res r W Wr) as [n H].
    destruct (IH (match res with VNull => r | _ => if cmp_eqb (vcmp res r) w then r else res end)) as [k K].
    { destruct res; try exact Wr; match goal with |- context [if ?b then _ else _] => destruct b end; assumption. }
    exists (Nat.max n k). intros fuel L. cbn [extreme_from pick]. rewrite (H fuel) by lia.
    destruct res; cbv beta iota; apply K; lia.
Qed.

(* the order seen from either side *)
Definition over (w : compare) (x y : value) : Prop := vcmp y x = w.
Definition side (w : compare) : Prop := w = Less \/ w = Greater.
Lemma gl a b : vcmp a b = Greater <-> vcmp b a = Less.
Proof. rewrite (vcmp_flip a b). destruct (vcmp a b); cbn; split; congruence. Qed.
Lemma over_trans w : side w -> forall x y z, over w x y -> over w y z -> over w x z.
Proof.
  intros [-> | ->] x y z; unfold over; intros A B; [exact (vcmp_less_trans _ _ _ B A)|].
  apply gl in A, B. apply gl. exact (vcmp_less_trans _ _ _ A B).
Qed.
Lemma over_irrefl w : side w -> forall x y, over w x y -> ~ over w y x.
Proof.
  intros [-> | ->] x y; unfold over; intros A B.
  - apply gl in A. congruence.
  - apply gl in A. congruence.
Qed.
(* y does not exceed x, which z exceeds *)
Lemma not_over w : side w -> forall x y z, vcmp x y <> Unordered -> ~ over w y x -> over w z x -> over w z y.
Proof.
  intros W x y z U N Z. unfold over in *. destruct (vcmp x y) eqn:E; try congruence.
  - destruct W as [-> | ->]; [congruence|]. apply (over_trans Greater (or_intror eq_refl) z x y); [exact Z|].
    unfold over. apply gl. exact E.
  - rewrite <- (vcmp_equal_l _ _ z E). exact Z.
  - destruct W as [-> | ->]; [|congruence]. apply (over_trans Less (or_introl eq_refl) z x y); [exact Z|].
    unfold over. apply gl. exact E.
Qed.

(* after the elements of done, res is the result *)
Lemma pick_first w : side w -> forall l done res,
  ordered (done ++ given l) -> res <> VNull -> first_extreme (over w) done res ->
  first_extreme (over w) (done ++ given l) (pick w res l).
Proof.
  intros W. induction l as [|r l IH]; intros done res O N F; cbn [pick given filter] in *.
  - now rewrite app_nil_r.
  - assert (Hn : match res with VNull => r | _ => if cmp_eqb (vcmp res r) w then r else res end = if cmp_eqb (vcmp res r) w then r else res)
      by (destruct res; congruence || reflexivity).
    rewrite Hn. clear Hn.
    destruct (match r with VNull => false | _ => true end) eqn:R.
    2:{ assert (r = VNull) as -> by (destruct r; congruence).
        assert (U : vcmp res VNull = Unordered \/ vcmp res VNull = Equal) by (destruct res as [| | |[]| | | | |]; cbn; auto).
        replace (cmp_eqb (vcmp res VNull) w) with false by (destruct W as [-> | ->], U as [-> | ->]; reflexivity).
        apply IH; assumption. }
    change (filter (fun v => match v with VNull => false | _ => true end) l) with (given l) in *.
    replace (done ++ r :: given l) with ((done ++ [r]) ++ given l) in * by (rewrite <- app_assoc; reflexivity).
    destruct F as (pre & post & -> & F1 & F2).
    assert (I : forall y, In y ((pre ++ res :: post) ++ [r]) -> In y (((pre ++ res :: post) ++ [r]) ++ given l))
      by (intros y Y; apply in_or_app; now left).
    destruct (cmp_eqb (vcmp res r) w) eqn:C.
    + assert (C' : over w r res) by (unfold over; destruct (vcmp res r), w; cbn in C; congruence).
      apply IH; [exact O|destruct r; congruence|]. exists (pre ++ res :: post), []. split; [reflexivity|]. split; [|contradiction].
      intros y Y. apply in_app_or in Y as [Y|[<-|Y]].
      * exact (over_trans w W _ _ _ C' (F1 y Y)).
      * exact C'.
      * apply (not_over w W res y r); [|exact (F2 y Y)|exact C']. apply O; apply I; apply in_or_app; left; apply in_or_app; right; cbn; auto.
    + apply IH; [exact O|exact N|]. exists pre, (post ++ [r]). split; [now rewrite <- app_assoc|]. split; [exact F1|].
      intros y Y. apply in_app_or in Y as [Y|[<-|[]]]; [exact (F2 y Y)|]. unfold over. intros E. rewrite E in C. destruct W as [-> | ->]; discriminate C.
Qed.
Lemma pick_ok w l : side w -> ordered (given l) ->
  (given l = [] /\ pick w VNull l = VNull) \/ first_extreme (over w) (given l) (pick w VNull l).
Proof.
  intros W. induction l as [|r l IH]; intros O; [now left|]. cbn [pick].
  destruct (match r with VNull => false | _ => true end) eqn:R.
  - right. assert (G : given (r :: l) = [r] ++ given l) by (unfold given; cbn [filter]; rewrite R; reflexivity).
    rewrite G in O |- *. apply pick_first; [exact W|exact O|destruct r; congruence|].
    exists [], []. split; [reflexivity|]. split; intros x [].
  - assert (r = VNull) as -> by (destruct r; congruence). exact (IH O).
Qed.

Lemma first_extreme_iff (b b' : value -> value -> Prop) l v : (forall x y, b x y <-> b' x y) -> first_extreme b l v -> first_extreme b' l v.
Proof.
  intros E (pre & post & H & A & B). exists pre, post. split; [exact H|]. split.
  - intros x X. apply E, A, X.
  - intros x X Y. apply (B x X), E, Y.
Qed.
Lemma max_ok l : Forall wf_value l -> ordered (given l) -> exists v, finishes (fun fuel => numeric_max fuel l) (Ok v) /\
  ((given l = [] /\ v = VNull) \/ first_extreme greater (given l) v).
Proof.
  intros W O. exists (pick Less VNull l). split; [exact (extreme_finishes Less l W VNull I)|].
  destruct (pick_ok Less l (or_introl eq_refl) O) as [H|H]; [now left|right].
  revert H. apply first_extreme_iff. intros x y. symmetry. apply gl.
Qed.
Lemma min_ok l : Forall wf_value l -> ordered (given l) -> exists v, finishes (fun fuel => numeric_min fuel l) (Ok v) /\
  ((given l = [] /\ v = VNull) \/ first_extreme less (given l) v).
Proof.
  intros W O. exists (pick Greater VNull l). split; [exact (extreme_finishes Greater l W VNull I)|].
  destruct (pick_ok Greater l (or_intror eq_refl) O) as [H|H]; [now left|right].
  revert H. apply first_extreme_iff. intros x y. apply gl.
Qed.
Lemma pick_in w l : forall res, pick w res l = res \/ In (pick w res l) l.
Proof.
  induction l as [|r l IH]; intros res; cbn [pick]; [now left|].
  destruct (IH (match res with VNull => r | _ => if cmp_eqb (vcmp res r) w then r else res end)) as [H|H].
  - rewrite H. destruct res; try (right; left; reflexivity); match goal with |- context [if ?b then _ else _] => destruct b end; auto; right; now left.
  - right. right. exact H.
Qed.
Lemma never_throws l : Forall wf_value l -> exists v v',
  finishes (fun fuel => numeric_max fuel l) (Ok v) /\ finishes (fun fuel => numeric_min fuel l) (Ok v') /\
  (v = VNull \/ In v l) /\ (v' = VNull \/ In v' l).
Proof.
  intros W. exists (pick Less VNull l), (pick Greater VNull l).
  split; [exact (extreme_finishes Less l W VNull I)|]. split; [exact (extreme_finishes Greater l W VNull I)|].
  split; apply pick_in.
Qed.

(* ---- clamping ---- *)
Lemma clamp_ok v lo hi : wf_value v -> wf_value lo -> wf_value hi ->
  finishes (fun fuel => numeric_clamp fuel v lo hi)
    (match vcmp v lo with
     | Unordered => Throw
     | Less => Ok lo
     | _ => match vcmp v hi with Unordered => Throw | Greater => Ok hi | _ => Ok v end
     end).
Proof.
  intros Wv Wl Wh. destruct (compare_total_ok v lo Wv Wl) as [n H]. destruct (compare_total_ok v hi Wv Wh) as [k K].
  exists (Nat.max n k). intros fuel L. unfold numeric_clamp. rewrite (H fuel), (K fuel) by lia.
  destruct (vcmp v lo); cbn [cmp_eqb]; try reflexivity; destruct (vcmp v hi); reflexivity.
Qed.
Lemma clamp_cases v lo hi : wf_value v -> wf_value lo -> wf_value hi ->
  exists r, finishes (fun fuel => numeric_clamp fuel v lo hi) r /\ clamped v lo hi r.
Proof.
  intros Wv Wl Wh. eexists. split; [exact (clamp_ok v lo hi Wv Wl Wh)|].
  pose proof (vcmp_flip v lo) as F. unfold clamped, at_most.
  destruct (vcmp v lo) eqn:E; cbn [flip] in F; rewrite F;
    [left; auto| | |right; right; right; left; auto];
    (destruct (vcmp v hi) eqn:G; [right; left; auto|right; left; auto|right; right; left; auto|do 4 right; auto]).
Qed.
Lemma clamp_between v lo hi r : wf_value v -> wf_value lo -> wf_value hi -> plain lo = true -> plain hi = true -> at_most lo hi ->
  finishes (fun fuel => numeric_clamp fuel v lo hi) (Ok r) -> at_most lo r /\ at_most r hi.
Proof.
  intros Wv Wl Wh Pl Ph LH [n H]. destruct (clamp_ok v lo hi Wv Wl Wh) as [k K].
  assert (E := H (Nat.max n k) ltac:(lia)). rewrite K in E by lia. clear H K.
  assert (RL : at_most lo lo) by (right; exact (vcmp_refl lo Pl)).
  assert (RH : at_most hi hi) by (right; exact (vcmp_refl hi Ph)).
  pose proof (vcmp_flip v lo) as F. unfold at_most in *.
  destruct (vcmp v lo); cbn [flip] in F; try discriminate E.
  - injection E as <-. split; [exact RL|exact LH].
  - destruct (vcmp v hi) eqn:G; try discriminate E; injection E as <-; rewrite ?F, ?G; auto.
  - destruct (vcmp v hi) eqn:G; try discriminate E; injection E as <-; rewrite ?F, ?G; auto.
Qed.

(* ---- what the documentation says otherwise ---- *)
Lemma max_unordered : exists a b c, vcmp a b = Unordered /\ vcmp b c = Unordered /\
  finishes (fun fuel => numeric_max fuel [a; b; c]) (Ok c) /\ finishes (fun fuel => numeric_max fuel [b; a; c]) (Ok b).
Proof.
  exists (VInt 1), (VReal RNan), (VInt 2). split; [reflexivity|]. split; [reflexivity|].
  split; exists 1%nat; intros [|fuel] L; try lia; reflexivity.
Qed.
Lemma clamp_unordered : exists v lo hi, vcmp v hi = Unordered /\ vcmp lo hi = Unordered /\
  finishes (fun fuel => numeric_clamp fuel v lo hi) (Ok lo).
Proof.
  exists (VInt 0), (VInt 1), (VReal RNan). split; [reflexivity|]. split; [reflexivity|].
  exists 1%nat; intros [|fuel] L; try lia; reflexivity.
Qed.
