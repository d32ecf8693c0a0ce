From Verif Require Import Base RemoveModel RemoveSpec.

Lemma name_eqb_ok a b : name_eqb a b = true <-> a = b.
Proof. unfold name_eqb. destruct (list_eq_dec Z.eq_dec a b); split; congruence. Qed.
Lemma path_eqb_ok p q : path_eqb p q = true <-> p = q.
Proof. unfold path_eqb. destruct (list_eq_dec (list_eq_dec Z.eq_dec) p q); split; congruence. Qed.
Lemma strip_ok p : forall q r, strip p q = Some r <-> q = p ++ r.
Proof.
  induction p as [|a p IH]; intros q r; cbn [strip app].
  - split; congruence.
  - destruct q as [|b q]; [split; discriminate|]. destruct (name_eqb a b) eqn:E.
    + apply name_eqb_ok in E as ->. rewrite IH. split; [intros ->; reflexivity|congruence].
    + split; [discriminate|]. intros H. injection H as -> _. assert (X : name_eqb a a = true) by now apply name_eqb_ok. congruence.
Qed.
Definition belowb (p q : path) : bool := match strip p q with Some _ => true | None => false end.
Lemma belowb_ok p q : belowb p q = true <-> below p q.
Proof.
  unfold belowb, below. split.
  - destruct (strip p q) as [r|] eqn:E; [|discriminate]. intros _. exists r. now apply strip_ok.
  - intros [r H]. apply strip_ok in H. now rewrite H.
Qed.
Definition without (t : fs) (p : path) : fs := filter (fun e => negb (belowb p (fst e))) t.
Lemma without_in t p e : In e (without t p) <-> In e t /\ ~ below p (fst e).
Proof.
  unfold without. rewrite filter_In, negb_true_iff. rewrite <- belowb_ok. destruct (belowb p (fst e)); intuition congruence.
Qed.
Lemma cut_without p t : cut p t (without t p).
Proof.
  induction t as [|[q k] t IH]; [constructor|]. unfold without. cbn [filter fst].
  destruct (belowb p q) eqn:E; cbn [negb].
  - apply cut_below; [now apply belowb_ok|exact IH].
  - apply cut_else; [|exact IH]. intros H. apply belowb_ok in H. congruence.
Qed.
Lemma below_refl p : below p p.
Proof. exists []. now rewrite app_nil_r. Qed.
Lemma below_app p q r : below p q -> below p (q ++ r).
Proof. intros [s ->]. exists (s ++ r). now rewrite app_assoc. Qed.
Lemma below_child p n q : below (p ++ [n]) q -> below p q.
Proof. intros [s ->]. exists (n :: s). now rewrite <- app_assoc. Qed.

(* ---- trees ---- *)
Lemma tree_without t p : tree t -> tree (without t p).
Proof.
  intros (N & C & R). split; [|split].
  - unfold without. clear C R. induction t as [|e t IH]; [constructor|]. cbn [map filter] in *. inversion N as [|? ? N1 N2]; subst.
    destruct (belowb p (fst e)); cbn [negb]; [exact (IH N2)|]. cbn [map]. constructor; [|exact (IH N2)].
    intros H. apply N1. apply in_map_iff in H as (x & E & H). apply filter_In in H as [H _]. rewrite <- E. now apply in_map.
  - intros q n k H. apply without_in in H as [H B]. destruct (C q n k H) as [E|E]; [now left|]. right.
    apply without_in. split; [exact E|]. cbn [fst] in *. intros X. apply B. now apply below_app.
  - intros H. apply without_in in H as [H _]. exact (R H).
Qed.
Lemma kind_at_ok t p k : tree t -> In (p, k) t -> kind_at t p = Some k.
Proof.
  intros [N _] H. unfold kind_at. induction t as [|[q j] t IH]; [contradiction|]. cbn [map fst] in N. inversion N as [|? ? N1 N2]; subst.
  cbn [find fst]. destruct (path_eqb q p) eqn:E.
  - apply path_eqb_ok in E as ->. destruct H as [H|H]; [injection H as ->; reflexivity|].
    exfalso. apply N1. apply in_map_iff. exists (p, k). auto.
  - destruct H as [H|H]; [|exact (IH N2 H)]. injection H as -> ->. assert (X : path_eqb p p = true) by now apply path_eqb_ok. congruence.
Qed.
Lemma kind_at_in t p k : kind_at t p = Some k -> In (p, k) t.
Proof.
  unfold kind_at. destruct (find (fun e => path_eqb (fst e) p) t) as [[q j]|] eqn:E; [|discriminate].
  apply find_some in E as [H E]. cbn in E. apply path_eqb_ok in E as ->. intros X. injection X as <-. exact H.
Qed.
Lemma entries_ok t p n k : In (n, k) (entries t p) <-> In (p ++ [n], k) t.
Proof.
  unfold entries. rewrite in_flat_map. split.
  - intros ([q j] & H & X). cbn [fst snd] in X. destruct (strip p q) as [[|m [|]]|] eqn:E; try contradiction.
    destruct X as [X|[]]. injection X as -> ->. apply strip_ok in E as ->. exact H.
  - intros H. exists (p ++ [n], k). split; [exact H|]. cbn [fst snd].
    assert (E : strip p (p ++ [n]) = Some [n]) by now apply strip_ok. rewrite E. now left.
Qed.
(* whatever is below a directory is below one of its entries *)
Lemma first_step t p c r k : tree t -> In (p ++ c :: r, k) t -> exists j, In (p ++ [c], j) t.
Proof.
  intros (_ & C & _). revert k. induction r as [|x r IH] using rev_ind; intros k H; [now exists k|].
  replace (p ++ c :: r ++ [x]) with ((p ++ c :: r) ++ [x]) in H by now rewrite <- app_assoc.
  destruct (C _ _ _ H) as [E|E]; [destruct p; discriminate E|]. exact (IH _ E).
Qed.
Lemma plain_alone t p q k : tree t -> In (p, Plain) t -> In (q, k) t -> below p q -> q = p.
Proof.
  intros T P Q [[|c r] ->]; [now rewrite app_nil_r|]. exfalso.
  destruct (first_step _ _ _ _ _ T Q) as [j J]. destruct (proj1 (proj2 T) _ _ _ J) as [E|E].
  - subst p. exact (proj2 (proj2 T) P).
  - pose proof (kind_at_ok _ _ _ T P). pose proof (kind_at_ok _ _ _ T E). congruence.
Qed.
Lemma drop_plain t p : tree t -> In (p, Plain) t -> drop t p = without t p.
Proof.
  intros T P. unfold drop, without. apply filter_ext_in. intros [q k] Q. cbn [fst]. f_equal.
  destruct (belowb p q) eqn:B.
  - apply path_eqb_ok. apply belowb_ok in B. exact (plain_alone _ _ _ _ T P Q B).
  - destruct (path_eqb q p) eqn:E; [|reflexivity]. apply path_eqb_ok in E as ->.
    assert (X : belowb p p = true) by (apply belowb_ok, below_refl). congruence.
Qed.
Lemma without_less t p : (length (without t p) <= length t)%nat.
Proof. unfold without. induction t as [|e t IH]; [reflexivity|]. cbn [filter]. destruct (negb _); cbn [length]; lia. Qed.
Lemma without_lt t p k : In (p, k) t -> (length (without t p) < length t)%nat.
Proof.
  intros H. induction t as [|[q j] t IH]; [contradiction|]. unfold without. cbn [filter fst]. destruct H as [H|H].
  - injection H as -> ->. assert (X : belowb p p = true) by (apply belowb_ok, below_refl). rewrite X. cbn [negb length].
    pose proof (without_less t p) as L. unfold without in L. lia.
  - specialize (IH H). unfold without in IH. destruct (belowb p q); cbn [negb length]; lia.
Qed.
Lemma entries_names t p : tree t -> NoDup (map fst (entries t p)).
Proof.
  intros (N & _ & _). induction t as [|[q j] t IH]; [constructor|]. cbn [map fst] in N. inversion N as [|? ? N1 N2]; subst.
  unfold entries. cbn [flat_map fst snd]. fold (entries t p). destruct (strip p q) as [[|m [|]]|] eqn:E; try exact (IH N2).
  cbn [app map fst]. constructor; [|exact (IH N2)]. intros H. apply in_map_iff in H as ([n k] & X & H). cbn in X. subst n.
  apply entries_ok in H. apply strip_ok in E as ->. apply N1. apply in_map_iff. exists (p ++ [m], k). auto.
Qed.

Lemma drop_length t p k : tree t -> In (p, k) t -> length t = S (length (drop t p)).
Proof.
  intros (N & _ & _) P. induction t as [|[q j] t IH]; [contradiction|]. cbn [map fst] in N. inversion N as [|? ? N1 N2]; subst.
  unfold drop. cbn [filter fst length]. destruct (path_eqb q p) eqn:E; cbn [negb length]; f_equal.
  - apply path_eqb_ok in E as ->. symmetry. clear IH. assert (X : forall e, In e t -> negb (path_eqb (fst e) p) = true).
    { intros e H. apply negb_true_iff. destruct (path_eqb (fst e) p) eqn:Y; [|reflexivity]. apply path_eqb_ok in Y. exfalso. apply N1. rewrite <- Y. now apply in_map. }
    clear N N1 N2 P. induction t as [|e t IH]; [reflexivity|]. cbn [filter]. rewrite (X e (or_introl eq_refl)). cbn [length]. f_equal.
    apply IH. intros x H. apply X. now right.
  - destruct P as [P|P]; [injection P as -> _; assert (X : path_eqb p p = true) by (now apply path_eqb_ok); congruence|].
    exact (IH N2 P).
Qed.

(* ---- the loop ---- *)
Section Loop.
Variable deny : path -> bool.
Notation loop := (remove_loop deny).

(* elements are processed within some steps *)
Definition runs (t : fs) (els : list element) (t' : fs) : Prop :=
  (length t' <= length t)%nat /\
  exists s, (s <= 2 * (length t - length t'))%nat /\
  forall fuel rest n, loop (s + fuel) t (els ++ rest) n = loop fuel t' rest (n + Z.of_nat (length t - length t')).
Lemma runs_nil t : runs t [] t.
Proof. split; [lia|]. exists 0%nat. split; [lia|]. intros fuel rest n. cbn [Nat.add app]. f_equal. lia. Qed.
Lemma runs_app t els t1 els' t2 : runs t els t1 -> runs t1 els' t2 -> runs t (els ++ els') t2.
Proof.
  intros [L1 (s1 & S1 & R1)] [L2 (s2 & S2 & R2)]. split; [lia|]. exists (s1 + s2)%nat. split; [lia|].
  intros fuel rest n. rewrite <- Nat.add_assoc, <- app_assoc, R1, R2. f_equal. lia.
Qed.

Hypothesis allowed : forall p, deny p = false.

Lemma runs_plain t p : tree t -> In (p, Plain) t -> runs t [(rm_disp_unlink, p)] (without t p).
Proof.
  intros T P. pose proof (without_lt _ _ _ P) as L. split; [lia|]. exists 1%nat. split; [lia|].
  intros fuel rest n. cbn [Nat.add app remove_loop]. unfold unlink. rewrite allowed, (kind_at_ok _ _ _ T P), (drop_plain _ _ T P).
  f_equal. f_equal. pose proof (drop_length _ _ _ T P) as E. rewrite (drop_plain _ _ T P) in E. lia.
Qed.

(* several entries of one directory *)
Definition outside (t : fs) (p : path) (ns : list name) : fs :=
  filter (fun e => forallb (fun n => negb (belowb (p ++ [n]) (fst e))) ns) t.
Lemma outside_nil t p : outside t p [] = t.
Proof. unfold outside. cbn [forallb]. induction t as [|e t IH]; [reflexivity|]. cbn [filter]. now rewrite IH. Qed.
Lemma outside_cons t p n ns : outside t p (n :: ns) = outside (without t (p ++ [n])) p ns.
Proof.
  unfold outside, without. induction t as [|e t IH]; [reflexivity|]. cbn [filter forallb].
  destruct (negb (belowb (p ++ [n]) (fst e))); cbn [andb filter]; [|exact IH].
  destruct (forallb _ ns); [f_equal|]; exact IH.
Qed.
Lemma runs_entries p (deeper : fs -> Prop) :
  (forall t q, deeper t -> deeper (without t q)) ->
  (forall t n, tree t -> deeper t -> In (p ++ [n], Directory) t -> runs t [(rm_disp_expand, p ++ [n])] (without t (p ++ [n]))) ->
  forall es t, tree t -> deeper t -> NoDup (map fst es) -> (forall n k, In (n, k) es -> In (p ++ [n], k) t) ->
  runs t (map (enext p) es) (outside t p (map fst es)).
Proof.
  intros DW DE. induction es as [|[n k] es IH]; intros t T D N H.
  - cbn [map]. rewrite outside_nil. apply runs_nil.
  - cbn [map fst] in *. inversion N as [|? ? N1 N2]; subst. rewrite outside_cons.
    change (enext p (n, k) :: map (enext p) es) with ([enext p (n, k)] ++ map (enext p) es).
    apply (runs_app _ _ (without t (p ++ [n]))).
    + unfold enext. cbn [fst snd]. pose proof (H n k (or_introl eq_refl)) as P. destruct k; [now apply runs_plain|now apply DE].
    + apply IH; [now apply tree_without|now apply DW|exact N2|].
      intros m j M. apply without_in. split; [apply H; now right|]. cbn [fst]. intros [r B].
      assert (m = n). { assert (X : [m] = n :: r) by (apply (app_inv_head p); rewrite B, <- app_assoc; reflexivity). congruence. }
      subst m. apply N1. apply in_map_iff. exists (n, j). auto.
Qed.

Lemma tree_outside p ns : forall t, tree t -> tree (outside t p ns).
Proof.
  induction ns as [|n ns IH]; intros t T; [now rewrite outside_nil|]. rewrite outside_cons. apply IH, tree_without, T.
Qed.
Lemma outside_in t p ns e : In e (outside t p ns) <-> In e t /\ forall n, In n ns -> ~ below (p ++ [n]) (fst e).
Proof.
  unfold outside. rewrite filter_In, forallb_forall. split; intros [H X]; (split; [exact H|]); intros n I.
  - intros B. apply belowb_ok in B. specialize (X n I). rewrite B in X. discriminate X.
  - apply negb_true_iff. destruct (belowb (p ++ [n]) (fst e)) eqn:B; [|reflexivity]. apply belowb_ok in B. destruct (X n I B).
Qed.
Lemma not_below_child p n : ~ below (p ++ [n]) p.
Proof.
  intros [r H]. apply (f_equal (@length name)) in H. rewrite !app_length in H. cbn in H. lia.
Qed.
Lemma runs_finish t p es : tree t -> In (p, Directory) t -> es = rev (entries t p) ->
  (forall n k, In (n, k) es <-> In (p ++ [n], k) t) ->
  runs t (map (enext p) es) (outside t p (map fst es)) -> runs t [(rm_disp_expand, p)] (without t p).
Proof.
  intros T P EE ES [L (s & S & R)]. set (t2 := outside t p (map fst es)) in *.
  assert (T2 : tree t2) by (apply tree_outside, T).
  assert (P2 : In (p, Directory) t2) by (apply outside_in; split; [exact P|]; intros n _; apply not_below_child).
  assert (E2 : entries t2 p = []).
  { destruct (entries t2 p) as [|[n k] l] eqn:E; [reflexivity|]. exfalso.
    assert (I : In (p ++ [n], k) t2) by (apply entries_ok; rewrite E; now left).
    apply outside_in in I as [I X]. apply (X n); [|apply below_refl]. apply in_map_iff. exists (n, k). split; [reflexivity|]. now apply ES. }
  assert (D2 : drop t2 p = without t p).
  { unfold drop, t2, outside, without. clear - T ES.
    assert (X : forall e, In e t -> (negb (path_eqb (fst e) p) && forallb (fun n => negb (belowb (p ++ [n]) (fst e))) (map fst es)) = negb (belowb p (fst e))).
    { intros [q k] Q. cbn [fst]. destruct (belowb p q) eqn:B; cbn [negb].
      - apply belowb_ok in B as [[|c r] ->].
        + rewrite app_nil_r. assert (Y : path_eqb p p = true) by now apply path_eqb_ok. now rewrite Y.
        + destruct (first_step _ _ _ _ _ T Q) as [j J]. apply andb_false_iff. right.
          destruct (forallb _ (map fst es)) eqn:F; [|reflexivity]. rewrite forallb_forall in F.
          assert (I : In c (map fst es)) by (apply in_map_iff; exists (c, j); split; [reflexivity|now apply ES]).
          specialize (F c I). assert (Y : belowb (p ++ [c]) (p ++ c :: r) = true) by (apply belowb_ok; exists r; now rewrite <- app_assoc).
          rewrite Y in F. discriminate F.
      - apply andb_true_iff. split.
        + apply negb_true_iff. destruct (path_eqb q p) eqn:Y; [|reflexivity]. apply path_eqb_ok in Y as ->.
          assert (Z : belowb p p = true) by (apply belowb_ok, below_refl). congruence.
        + apply forallb_forall. intros n _. apply negb_true_iff. destruct (belowb (p ++ [n]) q) eqn:Y; [|reflexivity].
          apply belowb_ok, below_child, belowb_ok in Y. congruence. }
    rewrite <- (filter_ext_in _ _ _ X). clear. induction t as [|e t IH]; [reflexivity|]. cbn [filter].
    destruct (forallb _ (map fst es)); cbn [filter]; [rewrite andb_true_r; destruct (negb _); [f_equal|]; exact IH|rewrite andb_false_r; exact IH]. }
  pose proof (drop_length _ _ _ T2 P2) as LD. rewrite D2 in LD.
  split; [lia|]. exists (1 + (s + 1))%nat. split; [lia|]. intros fuel rest n.
  replace (1 + (s + 1) + fuel)%nat with (Datatypes.S (s + (Datatypes.S fuel)))%nat by lia.
  cbn [app]. cbn [remove_loop]. unfold opendir. rewrite allowed, (kind_at_ok _ _ _ T P).
  rewrite <- map_rev, <- EE, R. cbn [remove_loop]. unfold rmdir. rewrite allowed, (kind_at_ok _ _ _ T2 P2), E2, D2.
  f_equal. lia.
Qed.
Lemma runs_directory : forall d t p, (forall e, In e t -> (length (fst e) <= length p + d)%nat) -> tree t -> In (p, Directory) t ->
  runs t [(rm_disp_expand, p)] (without t p).
Proof.
  induction d as [|d IH]; intros t p D T P;
    assert (ES : forall n k, In (n, k) (rev (entries t p)) <-> In (p ++ [n], k) t) by (intros n k; rewrite <- in_rev; apply entries_ok);
    assert (N : NoDup (map fst (rev (entries t p)))) by (rewrite map_rev; apply NoDup_rev, entries_names; exact T);
    apply (runs_finish t p _ T P eq_refl ES).
  - destruct (rev (entries t p)) as [|[n k] es']; [cbn [map]; rewrite outside_nil; apply runs_nil|]. exfalso.
    pose proof (D _ (proj1 (ES n k) (or_introl eq_refl))) as L. cbn [fst] in L. rewrite app_length in L. cbn in L. lia.
  - apply (runs_entries p (fun t => forall e, In e t -> (length (fst e) <= length p + S d)%nat)); [| |exact T|exact D|exact N|intros n k; apply ES].
    + intros u q U e E. apply without_in in E as [E _]. exact (U e E).
    + intros u n Tu Du Hu. apply IH; [|exact Tu|exact Hu]. intros e E. cbv beta in Du. specialize (Du e E). rewrite app_length. rewrite <- Nat.add_assoc. exact Du.
Qed.
End Loop.

Lemma depth_bound : forall t : fs, exists d, forall e, In e t -> (length (fst e) <= d)%nat.
Proof.
  induction t as [|e t [d IH]]; [exists 0%nat; contradiction|]. exists (Nat.max (length (fst e)) d).
  intros x [<-|H]; [apply Nat.le_max_l|]. eapply Nat.le_trans; [exact (IH x H)|apply Nat.le_max_r].
Qed.
Lemma kind_at_none t p : kind_at t p = None <-> forall k, ~ In (p, k) t.
Proof.
  unfold kind_at. split.
  - destruct (find (fun e => path_eqb (fst e) p) t) as [x|] eqn:E; [discriminate|]. intros _ k H.
    pose proof (find_none _ _ E _ H) as X. cbn in X. assert (Y : path_eqb p p = true) by now apply path_eqb_ok. congruence.
  - intros H. destruct (find (fun e => path_eqb (fst e) p) t) as [[q k]|] eqn:E; [|reflexivity].
    apply find_some in E as [I E]. cbn in E. apply path_eqb_ok in E as ->. destruct (H k I).
Qed.
Lemma cut_missing t p : tree t -> p <> [] -> (forall k, ~ In (p, k) t) -> forall e, In e t -> ~ below p (fst e).
Proof.
  intros T NE M [q k] Q [r E]. cbn [fst] in E. subst q. revert k Q. induction r as [|x r IH] using rev_ind; intros k Q.
  - rewrite app_nil_r in Q. exact (M k Q).
  - rewrite app_assoc in Q. destruct (proj1 (proj2 T) _ _ _ Q) as [E|E]; [destruct p; [now apply NE|discriminate E]|]. exact (IH _ E).
Qed.
Lemma cut_same p t : (forall e, In e t -> ~ below p (fst e)) -> cut p t t.
Proof.
  induction t as [|[q k] t IH]; intros H; [constructor|]. apply cut_else; [exact (H (q, k) (or_introl eq_refl))|].
  apply IH. intros e E. apply H. now right.
Qed.

(* ---- everything below the path is removed ---- *)
Lemma remove_ok deny t p : (forall q, deny q = false) -> tree t -> p <> [] ->
  exists t', remove_recursive deny t p = (t', Ok (Z.of_nat (length t - length t'))) /\ cut p t t' /\ (length t' <= length t)%nat.
Proof.
  intros A T NE. unfold remove_recursive, unlink. rewrite A. destruct (kind_at t p) as [[|]|] eqn:K.
  - apply kind_at_in in K. exists (without t p). rewrite (drop_plain _ _ T K).
    pose proof (drop_length _ _ _ T K) as L. rewrite (drop_plain _ _ T K) in L.
    split; [f_equal; f_equal; lia|]. split; [apply cut_without|lia].
  - pose proof (kind_at_in _ _ _ K) as I. unfold rmdir. rewrite A, K. destruct (entries t p) as [|x l] eqn:E.
    + pose proof (drop_length _ _ _ T I) as L.
      assert (D : drop t p = without t p).
      { unfold drop, without. apply filter_ext_in. intros [q k] Q. cbn [fst]. f_equal. destruct (belowb p q) eqn:B.
        - apply belowb_ok in B as [[|c r] ->]; [apply path_eqb_ok, app_nil_r|]. exfalso.
          destruct (first_step _ _ _ _ _ T Q) as [j J]. apply entries_ok in J. rewrite E in J. exact J.
        - destruct (path_eqb q p) eqn:Y; [|reflexivity]. apply path_eqb_ok in Y as ->.
          assert (X : belowb p p = true) by (apply belowb_ok, below_refl). congruence. }
      rewrite D in *. exists (without t p). split; [f_equal; f_equal; lia|]. split; [apply cut_without|lia].
    + destruct (depth_bound t) as [d D].
      destruct (runs_directory deny A d t p) as [L (s & S & R)]; [intros e H; eapply Nat.le_trans; [exact (D e H)|apply Nat.le_add_l]|exact T|exact I|].
      exists (without t p). split; [|split; [apply cut_without|exact L]].
      replace (2 * length t)%nat with (s + (2 * length t - s))%nat by lia.
      change [(rm_disp_expand, p)] with ([(rm_disp_expand, p)] ++ []). rewrite R. destruct (2 * length t - s)%nat; reflexivity.
  - exists t. rewrite Nat.sub_diag. split; [reflexivity|]. split; [|lia]. apply cut_same, cut_missing; [exact T|exact NE|].
    now apply kind_at_none.
Qed.

(* ---- nothing else is ever touched ---- *)
Definition safe (p : path) (t t' : fs) : Prop :=
  (forall e, In e t' -> In e t) /\ (forall e, In e t -> ~ below p (fst e) -> In e t').
Lemma safe_refl p t : safe p t t.
Proof. split; auto. Qed.
Lemma safe_drop p t q t' : below p q -> safe p (drop t q) t' -> safe p t t'.
Proof.
  intros B [S1 S2]. split.
  - intros e E. apply S1 in E. unfold drop in E. now apply filter_In in E.
  - intros e E N. apply S2; [|exact N]. unfold drop. apply filter_In. split; [exact E|]. apply negb_true_iff.
    destruct (path_eqb (fst e) q) eqn:X; [|reflexivity]. apply path_eqb_ok in X. rewrite X in N. contradiction.
Qed.
Lemma loop_safe deny p : forall fuel t stack n, Forall (fun el => below p (snd el)) stack ->
  safe p t (fst (remove_loop deny fuel t stack n)).
Proof.
  induction fuel as [|fuel IH]; intros t stack n F; destruct stack as [|[d q] stack]; cbn [remove_loop]; try apply safe_refl.
  inversion F as [|? ? B F']; subst. cbn [snd] in B. destruct d.
  - unfold rmdir. destruct (deny q); [apply safe_refl|]. destruct (kind_at t q) as [[|]|]; [apply safe_refl| |now apply IH].
    destruct (entries t q); [|apply safe_refl]. apply (safe_drop p t q); [exact B|now apply IH].
  - unfold unlink. destruct (deny q); [apply safe_refl|]. destruct (kind_at t q) as [[|]|]; [|apply safe_refl|now apply IH].
    apply (safe_drop p t q); [exact B|now apply IH].
  - unfold opendir. destruct (deny q); [apply safe_refl|]. destruct (kind_at t q) as [[|]|]; try apply safe_refl.
    apply IH. apply Forall_app. split; [|now constructor]. apply Forall_rev, Forall_map, Forall_forall.
    intros e _. unfold enext. cbn [snd]. now apply below_app.
Qed.
Lemma remove_safe deny t p : safe p t (fst (remove_recursive deny t p)).
Proof.
  unfold remove_recursive, unlink. destruct (deny p) eqn:D; [apply safe_refl|]. destruct (kind_at t p) as [[|]|] eqn:K; try apply safe_refl.
  - cbn [fst]. apply (safe_drop p t p); [apply below_refl|apply safe_refl].
  - unfold rmdir. rewrite D, K. destruct (entries t p).
    + cbn [fst]. apply (safe_drop p t p); [apply below_refl|apply safe_refl].
    + apply loop_safe. constructor; [apply below_refl|constructor].
Qed.

(* ---- what cannot be removed ---- *)
Notation free := (fun _ : path => false).
Lemma loop_deny deny : forall fuel t stack n,
  snd (remove_loop deny fuel t stack n) = Throw \/ remove_loop deny fuel t stack n = remove_loop free fuel t stack n.
Proof.
  induction fuel as [|fuel IH]; intros t stack n; destruct stack as [|[d q] stack]; cbn [remove_loop]; auto.
  destruct d; unfold rmdir, unlink, opendir; (destruct (deny q); [now left|]); destruct (kind_at t q) as [[|]|]; auto.
  destruct (entries t q); auto.
Qed.
Lemma loop_same deny p : (forall q, below p q -> deny q = false) -> forall fuel t stack n, Forall (fun el => below p (snd el)) stack ->
  remove_loop deny fuel t stack n = remove_loop free fuel t stack n.
Proof.
  intros A. induction fuel as [|fuel IH]; intros t stack n F; destruct stack as [|[d q] stack]; cbn [remove_loop]; auto.
  inversion F as [|? ? B F']; subst. cbn [snd] in B.
  destruct d; unfold rmdir, unlink, opendir; rewrite (A q B); destruct (kind_at t q) as [[|]|]; auto.
  - destruct (entries t q); auto.
  - apply IH. apply Forall_app. split; [|now constructor]. apply Forall_rev, Forall_map, Forall_forall.
    intros e _. unfold enext. cbn [snd]. now apply below_app.
Qed.
Lemma remove_deny deny t p : snd (remove_recursive deny t p) = Throw \/ remove_recursive deny t p = remove_recursive free t p.
Proof.
  unfold remove_recursive, unlink. destruct (deny p) eqn:D; [now left|]. destruct (kind_at t p) as [[|]|] eqn:K; auto.
  unfold rmdir. rewrite D, K. destruct (entries t p); [now right|]. apply loop_deny.
Qed.
Lemma remove_same deny t p : (forall q, below p q -> deny q = false) -> remove_recursive deny t p = remove_recursive free t p.
Proof.
  intros A. unfold remove_recursive, unlink, rmdir. rewrite (A p (below_refl p)). destruct (kind_at t p) as [[|]|] eqn:K; auto.
  destruct (entries t p); [reflexivity|]. apply (loop_same deny p A). constructor; [apply below_refl|constructor].
Qed.
Lemma remove_complete deny t p : tree t -> p <> [] -> (forall q, below p q -> deny q = false) ->
  exists t', remove_recursive deny t p = (t', Ok (Z.of_nat (length t - length t'))) /\ cut p t t' /\ (length t' <= length t)%nat.
Proof. intros T NE A. rewrite (remove_same _ _ _ A). now apply remove_ok. Qed.
Lemma remove_result deny t p : tree t -> p <> [] ->
  exists t' r, remove_recursive deny t p = (t', r) /\
    (r = Throw \/ r = Ok (Z.of_nat (length t - length t')) /\ cut p t t').
Proof.
  intros T NE. destruct (remove_deny deny t p) as [E|E].
  - destruct (remove_recursive deny t p) as [t' r]. exists t', r. auto.
  - rewrite E. destruct (remove_ok free t p (fun _ => eq_refl) T NE) as (t' & R & C & _). rewrite R. exists t', (Ok (Z.of_nat (length t - length t'))). auto.
Qed.
Lemma remove_only deny t p t' r : remove_recursive deny t p = (t', r) ->
  (forall e, In e t' -> In e t) /\ (forall e, In e t -> ~ below p (fst e) -> In e t').
Proof. intros E. pose proof (remove_safe deny t p) as S. rewrite E in S. exact S. Qed.
Lemma cut_gone p t t' : cut p t t' -> forall e, In e t' <-> In e t /\ ~ below p (fst e).
Proof.
  induction 1 as [|q k t t' B C IH|q k t t' B C IH]; intros e.
  - cbn. tauto.
  - rewrite IH. cbn. split; [tauto|]. intros [[<-|H] N]; [contradiction|auto].
  - cbn. rewrite IH. split; [|tauto]. intros [<-|[H N]]; auto.
Qed.
