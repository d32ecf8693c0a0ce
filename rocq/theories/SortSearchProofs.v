From Verif Require Import Base Lists SortModel SortSpec SortProofs.

(* a list whose elements change from q = false to q = true at position p *)
Definition splits {A} (q : A -> bool) (l : list A) (lo hi : nat) : Prop :=
  (forall i x, (i < lo)%nat -> nth_error l i = Some x -> q x = false) /\
  (forall i x, (hi <= i)%nat -> nth_error l i = Some x -> q x = true).
Lemma splits_count {A} (q : A -> bool) (l : list A) : forall p, (p <= length l)%nat ->
  splits q l p p -> count (fun x => negb (q x)) l = p.
Proof.
  unfold count. induction l as [|x t IH]; intros p Hp [H1 H2]; cbn [length] in Hp; [cbn; lia|].
  cbn [filter]. destruct p as [|p].
  - rewrite (H2 O x ltac:(lia) eq_refl). cbn [negb]. apply IH; [lia|]. split; [intros; lia|].
    intros i y Hi Hy. apply (H2 (S i)); [lia|exact Hy].
  - rewrite (H1 O x ltac:(lia) eq_refl). cbn [negb length]. f_equal. apply IH; [lia|]. split.
    + intros i y Hi Hy. apply (H1 (S i)); [lia|exact Hy].
    + intros i y Hi Hy. apply (H2 (S i)); [lia|exact Hy].
Qed.
Lemma nth_error_some {A} (l : list A) i : (i < length l)%nat -> exists x, nth_error l i = Some x.
Proof. intros H. destruct (nth_error l i) eqn:E; [eauto|]. apply nth_error_None in E. lia. Qed.
Lemma half_lt d : (0 < d)%nat -> (d / 2 < d)%nat. Proof. intros. apply Nat.div_lt; lia. Qed.

Section Any.
Context {A St : Type}.
Variable comp : St -> A -> A -> St * option compare.
Lemma bound_any pred l t fuel : forall st b e, (e <= length l)%nat -> (e <= b + fuel)%nat -> (b <= e)%nat ->
  match snd (bound comp pred fuel st l b e t) with Ok p => (b <= p <= e)%nat | Throw => True | UB => False end.
Proof.
  induction fuel as [|fuel IH]; intros st b e He Hf Hb; cbn [bound].
  - destruct (Nat.leb_spec e b); [|lia]. cbn. lia.
  - destruct (Nat.leb_spec e b); [cbn; lia|]. cbv zeta.
    pose proof (half_lt (e - b) ltac:(lia)). set (m := (b + (e - b) / 2)%nat) in *.
    assert (b <= m < e)%nat by (unfold m; lia).
    destruct (nth_error_some l m ltac:(lia)) as (x & Ex). rewrite Ex.
    destruct (comp st t x) as [st' [r|]]; [|exact I]. destruct (pred r).
    + specialize (IH st' b m ltac:(lia) ltac:(lia) ltac:(lia)). destruct (snd _); auto. lia.
    + specialize (IH st' (m + 1)%nat e ltac:(lia) ltac:(lia) ltac:(lia)). destruct (snd _); auto. lia.
Qed.
Lemma bsearch_any l t fuel : forall st b e, (e <= length l)%nat -> (e <= b + fuel)%nat -> (b <= e)%nat ->
  match snd (bsearch comp fuel st l b e t) with
  | Ok (p, f) => (b <= p <= e)%nat /\ (f = true -> p < e)%nat | Throw => True | UB => False end.
Proof.
  induction fuel as [|fuel IH]; intros st b e He Hf Hb; cbn [bsearch].
  - destruct (Nat.leb_spec e b); [|lia]. cbn. split; [lia|discriminate].
  - destruct (Nat.leb_spec e b); [cbn; split; [lia|discriminate]|]. cbv zeta.
    pose proof (half_lt (e - b) ltac:(lia)). set (m := (b + (e - b) / 2)%nat) in *.
    assert (b <= m < e)%nat by (unfold m; lia).
    destruct (nth_error_some l m ltac:(lia)) as (x & Ex). rewrite Ex.
    destruct (comp st t x) as [st' [r|]]; [|exact I].
    destruct r; [| cbn; lia | |].
    + specialize (IH st' b m ltac:(lia) ltac:(lia) ltac:(lia)). destruct (snd _) as [[p f]| |]; auto.
      destruct IH as [? Hp]. split; [lia|]. intros F. specialize (Hp F). lia.
    + specialize (IH st' (m + 1)%nat e ltac:(lia) ltac:(lia) ltac:(lia)). destruct (snd _) as [[p f]| |]; auto.
      destruct IH as [? Hp]. split; [lia|]. intros F. specialize (Hp F). lia.
    + specialize (IH st' (m + 1)%nat e ltac:(lia) ltac:(lia) ltac:(lia)). destruct (snd _) as [[p f]| |]; auto.
      destruct IH as [? Hp]. split; [lia|]. intros F. specialize (Hp F). lia.
Qed.
Lemma search_any st l t :
  (match snd (array_binary_search comp st l t) with Ok (Some p) => (p < length l)%nat | Ok None => True | Throw => True | UB => False end) /\
  (match snd (array_lower_bound comp st l t) with Ok p => (p <= length l)%nat | Throw => True | UB => False end) /\
  (match snd (array_upper_bound comp st l t) with Ok p => (p <= length l)%nat | Throw => True | UB => False end) /\
  (match snd (array_equal_range comp st l t) with Ok (p, n) => (p + n <= length l)%nat | Throw => True | UB => False end).
Proof.
  assert (B : forall pred st b e, (e <= length l)%nat -> (b <= e)%nat ->
    match snd (bound comp pred (length l) st l b e t) with Ok p => (b <= p <= e)%nat | Throw => True | UB => False end).
  { intros. apply bound_any; lia. }
  pose proof (bsearch_any l t (length l) st 0 (length l) ltac:(lia) ltac:(lia) ltac:(lia)) as S.
  repeat split.
  - unfold array_binary_search. destruct (bsearch _ _ _ _ _ _ _) as [st' [[p f]| |]]; cbn in *; auto.
    destruct f; cbn; auto. destruct S as [_ S]. auto.
  - unfold array_lower_bound. pose proof (B pred_lower st 0%nat (length l) ltac:(lia) ltac:(lia)) as B0.
    destruct (bound comp pred_lower _ _ _ _ _ _) as [st2 [p| |]]; cbn in *; auto. lia.
  - unfold array_upper_bound. pose proof (B pred_upper st 0%nat (length l) ltac:(lia) ltac:(lia)) as B0.
    destruct (bound comp pred_upper _ _ _ _ _ _) as [st2 [p| |]]; cbn in *; auto. lia.
  - unfold array_equal_range. destruct (bsearch _ _ _ _ _ _ _) as [st' [[p f]| |]]; cbn in *; auto.
    destruct S as [S _].
    pose proof (B pred_lower st' 0%nat p ltac:(lia) ltac:(lia)) as B0.
    destruct (bound comp pred_lower _ _ _ _ _ _) as [st2 [lo| |]]; cbn in *; auto.
    pose proof (B pred_upper st2 p (length l) ltac:(lia) ltac:(lia)) as B1.
    destruct (bound comp pred_upper _ _ _ _ _ _) as [st3 [hi| |]]; cbn in *; auto. lia.
Qed.
End Any.

Section Pure.
Context {A St : Type}.
Variable c : A -> A -> compare.
Hypothesis TP : total_preorder c.
Notation comp := (pure (St := St) c).

Lemma sorted_nth l : StronglySorted (not_after c) l -> forall i j x y, (i <= j)%nat ->
  nth_error l i = Some x -> nth_error l j = Some y -> not_after c x y.
Proof.
  induction 1 as [|z t Hs IH Hf]; intros i j x y Hij Hx Hy.
  - destruct i; discriminate.
  - destruct j as [|j], i as [|i]; try lia; cbn in *.
    + replace y with x by congruence. apply le_refl, TP.
    + replace x with z by congruence. apply nth_error_In in Hy. rewrite Forall_forall in Hf. auto.
    + apply (IH i j); auto. lia.
Qed.
(* a predicate that is monotone along the order of the elements *)
Definition mono (q : A -> bool) : Prop := forall x y, not_after c x y -> q x = true -> q y = true.

Lemma bound_pure pred l t (q := fun x => pred (c t x)) : mono q -> StronglySorted (not_after c) l ->
  forall fuel st b e, (b <= e <= length l)%nat -> (e <= b + fuel)%nat -> splits q l b e ->
  exists p, bound comp pred fuel st l b e t = (st, Ok p) /\ (p <= length l)%nat /\ splits q l p p.
Proof.
  intros M HS. induction fuel as [|fuel IH]; intros st b e He Hf [S1 S2]; cbn [bound].
  - destruct (Nat.leb_spec e b); [|lia]. assert (e = b) by lia. subst. exists b. repeat split; auto. lia.
  - destruct (Nat.leb_spec e b); [assert (e = b) by lia; subst; exists b; repeat split; auto; lia|].
    cbv zeta. pose proof (half_lt (e - b) ltac:(lia)). set (m := (b + (e - b) / 2)%nat) in *.
    assert (b <= m < e)%nat by (unfold m; lia).
    destruct (nth_error_some l m ltac:(lia)) as (x & Ex). rewrite Ex. cbn [pure].
    destruct (pred (c t x)) eqn:E; change (pred (c t x)) with (q x) in E.
    + apply IH; try lia. split; auto. intros i y Hi Hy. apply (M x y); auto. eapply (sorted_nth l HS m i); eauto.
    + apply IH; try lia. split; auto. intros i y Hi Hy. destruct (q y) eqn:Ey; auto.
      assert (Hx : q x = true); [|congruence]. apply (M y x); auto. eapply (sorted_nth l HS i m); eauto. lia.
Qed.
Lemma mono_lower t : mono (fun x => pred_lower (c t x)).
Proof.
  intros x y L. unfold pred_lower. intros H. assert (N : c t x <> Greater) by (destruct (c t x); cbn in H; congruence).
  pose proof (tp_trans c TP t x y N L). destruct (c t y); auto.
Qed.
Lemma mono_upper t : mono (fun x => pred_upper (c t x)).
Proof.
  intros x y L. unfold pred_upper. intros H. assert (N : c t x = Less) by (destruct (c t x); cbn in H; congruence).
  rewrite (lt_of_le c TP t x y N L). reflexivity.
Qed.
Lemma count_ext {B} (p q : B -> bool) l : (forall x, p x = q x) -> count p l = count q l.
Proof. intros H. unfold count. f_equal. apply filter_ext, H. Qed.
Lemma neg_lower t x : negb (pred_lower (c t x)) = cmp_eqb (c x t) Less.
Proof.
  unfold pred_lower. rewrite negb_involutive. rewrite (tp_flip c TP t x). pose proof (tp_total c TP t x).
  destruct (c t x); reflexivity.
Qed.
Lemma neg_upper t x : negb (pred_upper (c t x)) = negb (cmp_eqb (c x t) Greater).
Proof.
  unfold pred_upper. rewrite (tp_flip c TP t x). destruct (c t x); reflexivity.
Qed.
Lemma splits_all (q : A -> bool) (l : list A) : splits q l 0 (length l).
Proof.
  split; [intros; lia|]. intros i x Hi Hx. assert (nth_error l i <> None) by congruence.
  apply nth_error_Some in H. lia.
Qed.
Lemma lower_bound_ok st l t : StronglySorted (not_after c) l ->
  array_lower_bound comp st l t = (st, Ok (count (fun x => cmp_eqb (c x t) Less) l)).
Proof.
  intros HS. unfold array_lower_bound.
  destruct (bound_pure pred_lower l t (mono_lower t) HS (length l) st 0 (length l)) as (p & E & L & S);
    [lia|lia|apply splits_all|]. rewrite E. repeat f_equal.
  rewrite <- (splits_count _ _ _ L S). apply count_ext, neg_lower.
Qed.
Lemma upper_bound_ok st l t : StronglySorted (not_after c) l ->
  array_upper_bound comp st l t = (st, Ok (count (fun x => negb (cmp_eqb (c x t) Greater)) l)).
Proof.
  intros HS. unfold array_upper_bound.
  destruct (bound_pure pred_upper l t (mono_upper t) HS (length l) st 0 (length l)) as (p & E & L & S);
    [lia|lia|apply splits_all|]. rewrite E. repeat f_equal.
  rewrite <- (splits_count _ _ _ L S). apply count_ext, neg_upper.
Qed.

Definition lowq t x := pred_lower (c t x).
Definition upq t x := pred_upper (c t x).
Lemma bsearch_pure l t : StronglySorted (not_after c) l ->
  forall fuel st b e, (b <= e <= length l)%nat -> (e <= b + fuel)%nat ->
  splits (lowq t) l b e -> splits (upq t) l b e ->
  exists p f, bsearch comp fuel st l b e t = (st, Ok (p, f)) /\ (p <= length l)%nat /\
   splits (lowq t) l 0 p /\ splits (upq t) l p (length l) /\
   if f then exists x, nth_error l p = Some x /\ c x t = Equal
   else forall i x, nth_error l i = Some x -> c x t <> Equal.
Proof.
  intros HS. 
  assert (BASE : forall b, (b <= length l)%nat -> splits (lowq t) l b b -> splits (upq t) l b b ->
    (b <= length l)%nat /\ splits (lowq t) l 0 b /\ splits (upq t) l b (length l) /\
    forall i x, nth_error l i = Some x -> c x t <> Equal).
  { intros b Hb [L1 L2] [U1 U2]. split; [exact Hb|]. split; [split; auto; intros; lia|].
    split; [split; [auto|apply (splits_all (upq t) l)]|]. intros i x Hx He.
    rewrite (tp_flip c TP t x) in He. destruct (Nat.ltb_spec i b).
    - specialize (L1 i x ltac:(lia) Hx). unfold lowq, pred_lower in L1. destruct (c t x); cbn in *; congruence.
    - specialize (U2 i x ltac:(lia) Hx). unfold upq, pred_upper in U2. destruct (c t x); cbn in *; congruence. }
  induction fuel as [|fuel IH]; intros st b e He Hf S U; cbn [bsearch].
  - destruct (Nat.leb_spec e b); [|lia]. assert (e = b) by lia. subst. exists b, false. split; [reflexivity|].
    apply BASE; auto; lia.
  - destruct (Nat.leb_spec e b); [assert (e = b) by lia; subst; exists b, false; split; [reflexivity|]; apply BASE; auto; lia|].
    cbv zeta. pose proof (half_lt (e - b) ltac:(lia)). set (m := (b + (e - b) / 2)%nat) in *.
    assert (b <= m < e)%nat by (unfold m; lia).
    destruct (nth_error_some l m ltac:(lia)) as (x & Ex). rewrite Ex. cbn [pure].
    pose proof (tp_total c TP t x) as NU. pose proof (sorted_nth l HS) as SN.
    pose proof (mono_lower t) as ML. pose proof (mono_upper t) as MU.
    destruct S as [S1 S2], U as [U1 U2].
    destruct (c t x) eqn:E; [| | |congruence].
    + apply IH; try lia; (split; [auto|]); intros i y Hi Hy.
      * apply (ML x y); [eapply (SN m i); eauto|rewrite E; reflexivity].
      * apply (MU x y); [eapply (SN m i); eauto|rewrite E; reflexivity].
    + exists m, true. split; [reflexivity|]. split; [lia|]. split; [|split].
      * split; [intros; lia|]. intros i y Hi Hy. apply (ML x y); [eapply (SN m i); eauto|rewrite E; reflexivity].
      * split; [|apply (splits_all (upq t) l)]. intros i y Hi Hy. destruct (upq t y) eqn:Ey; auto.
        assert (Hu : pred_upper (c t x) = true); [|rewrite E in Hu; discriminate].
        apply (MU y x); auto. eapply (SN i m); eauto. lia.
      * exists x. split; [exact Ex|]. apply (eq_sym c TP). exact E.
    + apply IH; try lia; (split; [|auto]); intros i y Hi Hy.
      * destruct (lowq t y) eqn:Ey; auto. assert (Hu : pred_lower (c t x) = true); [|rewrite E in Hu; discriminate].
        apply (ML y x); auto. eapply (SN i m); eauto. lia.
      * destruct (upq t y) eqn:Ey; auto. assert (Hu : pred_upper (c t x) = true); [|rewrite E in Hu; discriminate].
        apply (MU y x); auto. eapply (SN i m); eauto. lia.
Qed.
Lemma binary_search_ok st l t : StronglySorted (not_after c) l ->
  (exists i x, array_binary_search comp st l t = (st, Ok (Some i)) /\ nth_error l i = Some x /\ c x t = Equal) \/
  (array_binary_search comp st l t = (st, Ok None) /\ forall x, In x l -> c x t <> Equal).
Proof.
  intros HS. unfold array_binary_search.
  destruct (bsearch_pure l t HS (length l) st 0 (length l)) as (p & f & E & _ & _ & _ & F);
    [lia|lia|apply splits_all|apply splits_all|]. rewrite E. destruct f.
  - left. destruct F as (x & ? & ?). eauto.
  - right. split; [reflexivity|]. intros x Hx. apply In_nth_error in Hx as [i Hi]. eauto.
Qed.
Lemma equal_range_ok st l t : StronglySorted (not_after c) l ->
  array_equal_range comp st l t =
    (st, Ok (count (fun x => cmp_eqb (c x t) Less) l, count (fun x => cmp_eqb (c x t) Equal) l)).
Proof.
  intros HS. unfold array_equal_range.
  destruct (bsearch_pure l t HS (length l) st 0 (length l)) as (p & f & E & Lp & S & U & _);
    [lia|lia|apply splits_all|apply splits_all|]. rewrite E.
  destruct (bound_pure pred_lower l t (mono_lower t) HS (length l) st 0 p) as (lo & El & Ll & Sl);
    [lia|lia|exact S|]. rewrite El.
  destruct (bound_pure pred_upper l t (mono_upper t) HS (length l) st p (length l)) as (hi & Eh & Lh & Sh);
    [lia|lia|exact U|]. rewrite Eh.
  pose proof (splits_count _ _ _ Ll Sl) as C1. pose proof (splits_count _ _ _ Lh Sh) as C2.
  rewrite (count_ext _ (fun x => cmp_eqb (c x t) Less)) in C1 by apply neg_lower.
  rewrite (count_ext _ (fun x => negb (cmp_eqb (c x t) Greater))) in C2 by apply neg_upper.
  rewrite C1. repeat f_equal. rewrite <- C1, <- C2. clear - TP. unfold count.
  induction l as [|x l' IH]; cbn [filter length]; [reflexivity|].
  pose proof (tp_total c TP x t). destruct (c x t); cbn [cmp_eqb negb length]; try congruence; try lia.
  assert (LL : (length (filter (fun x => cmp_eqb (c x t) Less) l') <= length (filter (fun x => negb (cmp_eqb (c x t) Greater)) l'))%nat).
  { clear IH. induction l' as [|y l' IH]; cbn; [lia|]. destruct (c y t); cbn; lia. }
  lia.
Qed.

(* is_sorted, max_of, min_of *)
Lemma is_sorted_loop_ok l : forall st p, exists b, is_sorted_loop comp st p l = (st, Ok b) /\
  (b = true <-> StronglySorted (not_after c) (p :: l)).
Proof.
  induction l as [|x t IH]; intros st p; cbn [is_sorted_loop].
  - exists true. split; [reflexivity|]. split; [repeat constructor|auto].
  - cbn [pure]. pose proof (tp_total c TP p x). destruct (IH st x) as (b & E & I).
    destruct (c p x) eqn:Epx; try congruence.
    3:{ exists false. split; [reflexivity|]. split; [discriminate|]. intros S. exfalso.
        inversion S as [|? ? _ F]; subst. inversion F as [|? ? N _]; subst. apply N, Epx. }
    all: exists b; split; [exact E|]; rewrite I; split; intros S.
    1,3: inversion S as [|? ? Sx Fx]; subst; constructor; [exact S|]; assert (L : not_after c p x) by (unfold not_after; rewrite Epx; discriminate);
      constructor; [exact L|]; rewrite Forall_forall in *; intros z Hz; eapply (tp_trans c TP); [exact L|apply Fx, Hz].
    all: inversion S; auto.
Qed.
Lemma is_sorted_ok st l : exists b, array_is_sorted comp st l = (st, Ok b) /\
  (b = true <-> StronglySorted (not_after c) l).
Proof.
  destruct l as [|x t]; cbn [array_is_sorted].
  - exists true. split; [reflexivity|]. split; [constructor|auto].
  - cbn [pure]. rewrite (c_refl c TP x). apply is_sorted_loop_ok.
Qed.
End Pure.
