(* The tables with their lists behave like those of HashModel.v. *)
From Verif Require Import Base Monad Lists SeqModel CowBase HashModel HashProofs XmemModel LinkModel LinkProofs1.
From Coq Require Import Permutation.

Section Maps.
Context {K V : Type}.
Variable eqb : K -> K -> bool.
Variable hash : K -> Z.
Variable live : V -> bool.
Variables bsz least : Z.
Hypothesis eqb_ok : forall a b, reflect (a = b) (eqb a b).
Hypothesis bsz_pos : 0 < bsz.
Hypothesis least_ok : 5 <= least < 2 ^ 31.
Notation cell := (cell K V).
Notation hmap := (hmap K V).
Notation view := (@view K V).
Notation place := (place hash).
Notation relocate := (LinkModel.relocate hash).
Notation wf := (@wf K V hash).
Notation adopt := (HashModel.adopt hash).

Lemma place_sim (cs : list cell) n order s kv t' : ring cs n order ->
  adopt (Table s (view cs)) kv = Ok t' ->
  exists cs' order', place cs kv = Ok cs' /\ ring cs' n order' /\ view cs' = bkts t'.
Proof.
  intros H E. unfold HashModel.adopt in E. cbn [bkts] in E. rewrite (view_length _ _ _ H) in E.
  unfold LinkModel.place. rewrite (ring_head _ _ _ H).
  destruct (linear_probe _ (view cs) _ _ _) as [[q|]| |]; cbn [obind] in *; try discriminate.
  unfold adopt_at in E. cbn [bkts nelem] in E.
  destruct (nth_error (view cs) q) as [[|]|] eqn:Eq; try discriminate. injection E as <-.
  assert (Hq : (q < n)%nat) by (rewrite <- (view_length _ _ _ H); eapply nth_lt; exact Eq).
  assert (Hni : ~ In q order).
  { intros Hin. destruct (view_in _ _ _ _ H Hin) as (kv' & _ & E'). congruence. }
  destruct (ring_attach cs n order q kv H Hq Hni) as (c1 & cs' & E1 & _ & E2 & Hr & Hv).
  rewrite E1; cbn [obind]. rewrite E2. exists cs', (q :: order). auto.
Qed.
Lemma in_split_order (cs : list cell) n order p kv : ring cs n order ->
  nth_error (view cs) p = Some (Some kv) -> exists l1 l2, order = l1 ++ p :: l2.
Proof. intros H E. apply in_split. exact (proj1 (view_iff _ _ _ _ _ H E)). Qed.
Lemma relocate_sim n : forall cnt k (cs : list cell) order s t' stop, ring cs n order ->
  HashModel.relocate hash cnt k (Table s (view cs)) = Ok (t', stop) ->
  exists cs' order', relocate cnt k cs = Ok (cs', stop) /\ ring cs' n order' /\ view cs' = bkts t'.
Proof.
  induction cnt as [|cnt IH]; intros k cs order s t' stop H E; cbn [HashModel.relocate LinkModel.relocate bkts] in *.
  { injection E as <- <-. exists cs, order. auto. }
  destruct (nth_error (view cs) k) as [[kv|]|] eqn:Ek; try discriminate.
  - unfold extract in E. cbn [bkts nelem] in E. rewrite Ek in E.
    destruct s as [|s]; [discriminate|]. cbn [obind] in E.
    destruct (in_split_order _ _ _ _ _ H Ek) as (l1 & l2 & ->).
    destruct (ring_detach _ _ _ _ _ H) as (c1 & E1 & H1 & V1).
    rewrite E1; cbn [obind]. rewrite <- V1 in E.
    destruct (adopt (Table s (view c1)) kv) as [t1| |] eqn:Ea; try discriminate. cbn [obind] in E.
    destruct (place_sim _ _ _ _ _ _ H1 Ea) as (c2 & o2 & E2 & H2 & V2).
    rewrite E2; cbn [obind]. destruct t1 as [s1 b1]. cbn [bkts] in V2. subst b1.
    exact (IH _ _ _ _ _ _ H2 E).
  - injection E as <- <-. exists cs, order. auto.
Qed.

Lemma nodup_perm_keys (a b : list (K * V)) : Permutation a b -> NoDup (map fst a) -> NoDup (map fst b).
Proof. intros HP. apply Permutation_NoDup, Permutation_map, HP. Qed.
Lemma place_ok (cs : list cell) n order s kv : ring cs n order -> wf (Table s (view cs)) -> (s < n)%nat ->
  ~ In (fst kv) (keys (view cs)) ->
  exists cs' order', place cs kv = Ok cs' /\ ring cs' n order' /\ wf (Table (S s) (view cs')) /\
    Permutation (entries (view cs')) (kv :: entries (view cs)).
Proof.
  intros H Hw Hs Hk.
  destruct (adopt_ok eqb hash eqb_ok (Table s (view cs)) kv Hw) as (t' & E & Hw' & Hl & _ & HP).
  - cbn [bkts nelem]. rewrite (view_length _ _ _ H). exact Hs.
  - exact Hk.
  - destruct (place_sim _ _ _ _ _ _ H E) as (cs' & order' & E' & H' & Hv).
    exists cs', order'. split; [exact E'|]. split; [exact H'|]. rewrite Hv. split; [|exact HP].
    replace (S s) with (nelem t'); [destruct t'; exact Hw'|].
    rewrite (wf_count _ _ Hw'), (Permutation_length HP). cbn [length bkts].
    pose proof (wf_count _ _ Hw) as Hc. cbn [nelem bkts] in Hc. congruence.
Qed.
Lemma remove_ok (cs : list cell) n order s p kv : ring cs n order -> wf (Table s (view cs)) -> (s < n)%nat ->
  nth_error (view cs) p = Some (Some kv) ->
  exists cs' order', remove_at hash cs p = Ok cs' /\ ring cs' n order' /\ wf (Table (s - 1) (view cs')) /\
    (0 < s)%nat /\ Permutation (entries (view cs)) (kv :: entries (view cs')).
Proof.
  intros H Hw Hs Ep.
  assert (Hp : (p < n)%nat) by (rewrite <- (view_length _ _ _ H); eapply nth_lt; exact Ep).
  pose proof (view_length _ _ _ H) as Hvl.
  destruct (erase_range_ok eqb hash eqb_ok (Table s (view cs)) p 1 Hw) as (t' & E & Hw' & Hl & HP).
  - cbn [bkts nelem]. lia.
  - cbn [bkts]. lia.
  - cbn [bkts] in *.
    assert (HP' : Permutation (entries (view cs)) (kv :: entries (bkts t'))).
    { rewrite (split_nth _ _ _ Ep) at 1. rewrite entries_app. cbn [entries].
      replace (p + 1)%nat with (S p) in HP by lia. rewrite HP. symmetry. apply Permutation_middle. }
    assert (Hs0 : s = S (length (entries (bkts t')))).
    { pose proof (wf_count _ _ Hw) as Hc. cbn [nelem bkts] in Hc. rewrite Hc, (Permutation_length HP'). reflexivity. }
    assert (Hst : nelem t' = (s - 1)%nat) by (rewrite (wf_count _ _ Hw'); lia).
    enough (HE : exists cs' order', remove_at hash cs p = Ok cs' /\ ring cs' n order' /\ view cs' = bkts t').
    { destruct HE as (cs' & order' & E1 & E2 & E3). exists cs', order'. split; [exact E1|]. split; [exact E2|].
      rewrite E3, <- Hst. split; [destruct t'; exact Hw'|]. split; [lia|exact HP']. }
    unfold erase_range in E. cbn [Nat.eqb clear_range obind] in E. unfold extract in E. cbn [bkts nelem] in E.
    rewrite Ep in E. destruct s as [|s]; [discriminate|]. cbn [obind bkts] in E.
    rewrite set_nth_length, Hvl in E.
    destruct (in_split_order _ _ _ _ _ H Ep) as (l1 & l2 & ->).
    destruct (ring_detach _ _ _ _ _ H) as (c1 & E1 & H1 & V1).
    unfold remove_at. rewrite E1; cbn [obind]. rewrite (ring_head _ _ _ H1), <- V1 in *.
    destruct (n <? p + 1)%nat; [discriminate|].
    destruct (HashModel.relocate hash (n - (p + 1)) (p + 1) (Table s (view c1))) as [[t1 st]| |] eqn:E2; try discriminate.
    cbn [obind] in E. destruct (relocate_sim _ _ _ _ _ _ _ _ H1 E2) as (c2 & o2 & E3 & H3 & V3).
    rewrite E3; cbn [obind]. destruct st.
    + injection E as <-. exists c2, o2. auto.
    + destruct t1 as [s1 b1]. cbn [bkts] in V3. subst b1.
      destruct (HashModel.relocate hash p 0 (Table s1 (view c2))) as [[t2 st]| |] eqn:E4; try discriminate.
      cbn [obind] in E. injection E as <-.
      destruct (relocate_sim _ _ _ _ _ _ _ _ H3 E4) as (c3 & o3 & E5 & H5 & V5).
      rewrite E5; cbn [obind]. exists c3, o3. auto.
Qed.

(* ---- storage ---- *)

Definition pooled (p : Z) (n : nat) : Prop :=
  (exists r, pool_for_size (bsz * (Z.of_nat n + 1)) = Ok (p, r)) /\
  (exists r, pool_for_size (bsz * Z.of_nat n) = Ok (p, r)) /\ bsz * (Z.of_nat n + 1) <= 2 ^ 31.
Lemma pool_spec s : 0 < s <= 2 ^ 31 ->
  exists si, pool_for_size s = Ok (si, 2 ^ si) /\ 5 <= si <= 31 /\ s <= 2 ^ si /\
    forall s', 2 ^ si < 2 * s' -> s' <= 2 ^ si -> pool_for_size s' = Ok (si, 2 ^ si).
Proof.
  intros Hs. unfold pool_for_size.
  assert (Hbig : forall x, 32 < x <= 2 ^ 31 -> let si := Z.log2 (x - 1) + 1 in
            64 - lzcnt64 (x - 1) = si /\ 6 <= si <= 31 /\ 2 ^ (si - 1) < x <= 2 ^ si).
  { intros x Hx si. unfold lzcnt64. destruct (Z.eqb_spec (x - 1) 0); [lia|].
    pose proof (Z.log2_spec (x - 1) ltac:(lia)) as HL.
    pose proof (Z.log2_le_mono 32 (x - 1) ltac:(lia)) as H5. change (Z.log2 32) with 5 in H5.
    pose proof (Z.log2_lt_pow2 (x - 1) 31 ltac:(lia)) as H6.
    split; [unfold si; lia|]. split; [unfold si; lia|]. unfold si.
    replace (Z.log2 (x - 1) + 1 - 1) with (Z.log2 (x - 1)) by lia.
    replace (Z.succ (Z.log2 (x - 1))) with (Z.log2 (x - 1) + 1) in HL by lia. lia. }
  destruct (Z.gtb_spec s 32) as [Hg|Hg].
  - destruct (Hbig s ltac:(lia)) as (H1 & H2 & H3). rewrite H1. set (si := Z.log2 (s - 1) + 1) in *.
    exists si. destruct (Z.ltb_spec si 64); [|lia]. destruct (Z.leb_spec s (2 ^ si)); [|lia].
    split; [reflexivity|]. split; [lia|]. split; [lia|]. intros s' Hs1 Hs2.
    assert (Hp : 2 ^ si = 2 * 2 ^ (si - 1)) by (rewrite <- Z.pow_succ_r by lia; f_equal; lia).
    pose proof (Z.pow_le_mono_r 2 5 (si - 1) ltac:(lia) ltac:(lia)) as H5. change (2 ^ 5) with 32 in H5.
    pose proof (Z.pow_le_mono_r 2 si 31 ltac:(lia) ltac:(lia)) as H6.
    destruct (Z.gtb_spec s' 32) as [Hg'|]; [|lia].
    destruct (Hbig s' ltac:(lia)) as (H1' & H2' & H3'). rewrite H1'. set (sj := Z.log2 (s' - 1) + 1) in *.
    assert (Hji : sj = si).
    { destruct (Z.lt_trichotomy sj si) as [Hlt|[He|Hlt]]; [|exact He|].
      - pose proof (Z.pow_le_mono_r 2 sj (si - 1) ltac:(lia) ltac:(lia)). lia.
      - pose proof (Z.pow_le_mono_r 2 si (sj - 1) ltac:(lia) ltac:(lia)). lia. }
    rewrite Hji. destruct (Z.ltb_spec si 64); [|lia]. destruct (Z.leb_spec s' (2 ^ si)); [reflexivity|lia].
  - exists 5. split; [reflexivity|]. split; [lia|]. split; [change (2 ^ 5) with 32; lia|].
    intros s' _ Hs2. change (2 ^ 5) with 32 in *. destruct (Z.gtb_spec s' 32); [lia|reflexivity].
Qed.
Lemma view_fresh h : view (repeat (Cell None None None) h ++ [Cell (Some h) (Some h) None]) = repeat None h.
Proof.
  unfold LinkModel.view, head. rewrite app_length, repeat_length. cbn [length].
  replace (pred (h + 1)) with h by lia. rewrite firstn_app, repeat_length, Nat.sub_diag. cbn [firstn].
  rewrite app_nil_r, firstn_all2 by (rewrite repeat_length; lia). clear. induction h as [|h IH]; [reflexivity|]. cbn [repeat map]. f_equal. exact IH.
Qed.
Lemma ring_fresh h : ring (repeat (Cell None None None : cell) h ++ [Cell (Some h) (Some h) None]) h [].
Proof.
  set (cs := repeat (Cell None None None) h ++ _).
  assert (Hh : nth_error cs h = Some (Cell (Some h) (Some h) None)).
  { unfold cs. rewrite nth_error_app2; rewrite repeat_length; [rewrite Nat.sub_diag; reflexivity|lia]. }
  assert (Hp : forall p, (p < h)%nat -> nth_error cs p = Some (Cell None None None)).
  { intros p H. unfold cs. rewrite nth_error_app1 by (rewrite repeat_length; exact H).
    apply nth_error_repeat. exact H. }
  split.
  - unfold cs. rewrite app_length, repeat_length. cbn. lia.
  - constructor.
  - contradiction.
  - cbn [chain]. unfold nx, pv. rewrite Hh. auto.
  - intros p H Hn. exfalso. apply Hn. unfold nx. rewrite (Hp p H). reflexivity.
  - contradiction.
Qed.
Lemma allocate_ok n : 5 <= n ->
  match allocate bsz n with
  | Ok (p, cs) => exists h, (Z.to_nat n <= h)%nat /\ @ring K V cs h [] /\ view cs = repeat None h /\ pooled p h
  | Throw => 0x7FFE0000 / bsz <= n
  | UB => False
  end.
Proof.
  intros Hn. unfold allocate. destruct (Z.leb_spec (0x7FFE0000 / bsz) n) as [Hl|Hl]; [exact Hl|].
  assert (Hb : bsz * (n + 1) <= 0x7FFE0000).
  { pose proof (Z.mul_div_le 0x7FFE0000 bsz bsz_pos). nia. }
  destruct (pool_spec (bsz * (n + 1))) as (si & E & Hsi & Hle & Huniq); [nia|].
  rewrite E; cbn [obind]. set (r := 2 ^ si) in *.
  assert (Hr31 : r <= 2 ^ 31) by (apply Z.pow_le_mono_r; lia).
  pose proof (Z.mul_div_le r bsz bsz_pos) as Hd1.
  pose proof (Z.mul_succ_div_gt r bsz bsz_pos) as Hd2.
  set (c := r / bsz) in *.
  assert (Hc : n + 1 <= c) by (apply Z.div_le_lower_bound; lia).
  exists (Z.to_nat (c - 1)). split; [lia|]. split; [apply ring_fresh|]. split; [apply view_fresh|].
  unfold pooled. rewrite Z2Nat.id by lia. replace (c - 1 + 1) with c by lia.
  assert (Hr6 : 6 * bsz <= r) by nia.
  split; [|split; [|lia]].
  - exists r. apply Huniq; nia.
  - exists r. apply Huniq; nia.
Qed.
End Maps.
