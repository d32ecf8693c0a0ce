(* Copy-on-write maps: every statement. *)
From Verif Require Import Base Monad Lists SeqModel CowBase HashModel HashSpec HashProofs HashMapProofs.
From Coq Require Import Permutation.

Section Steps.
Context {K V : Type}.
Variable eqb : K -> K -> bool.
Variable hash : K -> Z.
Hypothesis eqb_ok : forall a b, reflect (a = b) (eqb a b).
Variables bkt_size block_size : Z.
Variable max_size : nat.
Hypothesis sizes_ok : 0 < bkt_size < block_size.
Implicit Types (m : mem K V) (v : values K V).
Notation table := (table K V).
Notation pairs := (pairs K V).
Notation wf := (wf hash).
Notation tok := (@tok K V hash).
Notation good := (@good K V hash).
Notation handle := (handle hash).
Notation has := (@has K V eqb).
Notation buckets_for := (buckets_for bkt_size block_size).

Lemma buckets_for_ok cap : (2 * cap <= buckets_for cap)%nat /\ (0 < buckets_for cap)%nat /\
  Z.of_nat (buckets_for cap) <= 2 * Z.of_nat cap + block_size.
Proof.
  unfold HashModel.buckets_for.
  set (x := (Z.of_nat cap * 2 - 1) * bkt_size + block_size - 1).
  assert (Hx : 0 <= x) by (unfold x; nia).
  pose proof (Z.div_mod x block_size ltac:(lia)) as Hd.
  pose proof (Z.mod_pos_bound x block_size ltac:(lia)) as Hm.
  set (q := x / block_size) in *.
  assert (Hq : 0 <= q) by (apply Z.div_pos; lia).
  replace (q + 1 - 1) with q by lia.
  pose proof (Z.div_mod (q * block_size) bkt_size ltac:(lia)) as Hd2.
  pose proof (Z.mod_pos_bound (q * block_size) bkt_size ltac:(lia)) as Hm2.
  set (r := q * block_size / bkt_size) in *.
  assert (Hr : 0 <= r) by (apply Z.div_pos; nia).
  assert (H1 : (Z.of_nat cap * 2 - 1) * bkt_size <= q * block_size) by lia.
  assert (H2 : Z.of_nat cap * 2 - 1 <= r).
  { assert (Z.of_nat cap * 2 - 1 < r + 1); [|lia].
    apply (Z.mul_lt_mono_pos_r bkt_size); [lia|]. nia. }
  assert (H3 : r <= Z.of_nat cap * 2 - 1 + block_size).
  { assert (r < Z.of_nat cap * 2 - 1 + block_size + 1); [|lia].
    apply (Z.mul_lt_mono_pos_r bkt_size); [lia|].
    assert (block_size <= block_size * bkt_size) by nia. nia. }
  lia.
Qed.
Lemma half_cap cap : (cap <= buckets_for cap / 2)%nat.
Proof.
  pose proof (buckets_for_ok cap) as [H _].
  apply Nat.div_le_lower_bound; lia.
Qed.

(* ---- reading a handle ---- *)
Lemma tok_nodup (t : table) (l : pairs) : tok t -> Permutation (entries (bkts t)) l -> NoDup (map fst l).
Proof.
  intros (Hw & _) HP. eapply Permutation_NoDup; [apply Permutation_map; exact HP|]. apply (wf_keys hash _ Hw).
Qed.
Lemma handle_nodup m h o l : handle m h o l -> NoDup (map fst l).
Proof.
  intros (_ & _ & H). destruct o as [s|]; [|subst; constructor].
  destruct H as (b & _ & _ & Ht & HP & _). eapply tok_nodup; eassumption.
Qed.
Lemma handle_size m h o l : handle m h o l -> size m o = Ok (length l).
Proof.
  intros (_ & _ & H). destruct o as [s|]; [|subst; reflexivity].
  destruct H as (b & Hb & _ & Ht & HP & _). cbn. rewrite (block_live _ _ _ Hb). cbn.
  rewrite (wf_count hash _ (proj1 Ht)), (Permutation_length HP). reflexivity.
Qed.
Definition cap_of m (o : option nat) : nat :=
  match o with
  | None => 0
  | Some s => match nth_error (blocks m) s with Some (Live b) => capacity_of (tab b) | _ => 0 end
  end%nat.
Lemma handle_cap m h o l : handle m h o l -> capacity m o = Ok (cap_of m o) /\ (length l <= cap_of m o)%nat.
Proof.
  intros (_ & _ & H). destruct o as [s|]; [|subst; auto].
  destruct H as (b & Hb & _ & Ht & HP & _). cbn. rewrite (block_live _ _ _ Hb).
  unfold live in Hb; rewrite Hb. cbn. split; [reflexivity|].
  rewrite <- (Permutation_length HP), <- (wf_count hash _ (proj1 Ht)). apply Ht.
Qed.
Definition sole m (o : option nat) : bool :=
  match o with
  | None => false
  | Some s => match nth_error (blocks m) s with Some (Live b) => nref b =? 1 | _ => false end
  end.
Lemma handle_unique m h o l : handle m h o l -> unique m o = Ok (sole m o).
Proof.
  intros (_ & _ & H). destruct o as [s|]; [|reflexivity].
  destruct H as (b & Hb & _). cbn. rewrite (block_live _ _ _ Hb).
  unfold live in Hb; rewrite Hb. reflexivity.
Qed.
Lemma handle_writable m h o l : handle m h o l ->
  writable m o = Ok (match o with None => true | _ => sole m o end).
Proof.
  intros (_ & _ & H). destruct o as [s|]; [|reflexivity].
  destruct H as (b & Hb & _). cbn. rewrite (block_live _ _ _ Hb).
  unfold live in Hb; rewrite Hb. reflexivity.
Qed.
Lemma find_pairs (t : table) (l : pairs) k : tok t -> Permutation (entries (bkts t)) l ->
  exists p x, find eqb hash t k = Ok (p, x) /\ nth_error (bkts t) p = Some x /\
    match x with
    | Some kv => fst kv = k /\ In kv l
    | None => ~ In k (map fst l)
    end.
Proof.
  intros Ht HP. destruct (find_ok eqb hash eqb_ok t k (proj1 Ht) (tok_room hash t Ht)) as (p & x & E & Ex & _ & Hx).
  exists p, x. split; [exact E|]. split; [exact Ex|].
  destruct x as [kv|].
  - split; [exact Hx|]. eapply Permutation_in; [exact HP|]. apply entries_in; eauto.
  - intros H; apply Hx. eapply Permutation_in; [|exact H]. apply Permutation_map; symmetry; exact HP.
Qed.
Lemma lookup_ok m h o l k : handle m h o l ->
  exists r, lookup eqb hash m o k = Ok r /\
    match r with
    | None => ~ In k (map fst l)
    | Some (p, w) => In (k, w) l /\ exists s b, o = Some s /\ live m s b /\
        nth_error (bkts (tab b)) p = Some (Some (k, w))
    end.
Proof.
  intros (_ & _ & H). destruct o as [s|]; cbn.
  - destruct H as (b & Hb & _ & Ht & HP & _). rewrite (block_live _ _ _ Hb). cbn [obind].
    destruct (find_pairs _ _ k Ht HP) as (p & x & E & Ex & Hx). rewrite E; cbn [obind].
    eexists; split; [reflexivity|]. destruct x as [[k' w]|]; cbn in *; [|exact Hx].
    destruct Hx as [-> Hi]. split; [exact Hi|]. exists s, b; auto.
  - subst l. exists None; split; [reflexivity|]. auto.
Qed.

(* ---- new storage ---- *)
Lemma fresh_tok cap : tok (empty_table (buckets_for cap)).
Proof.
  split; [apply empty_wf|]. unfold empty_table, capacity_of; cbn. rewrite repeat_length.
  split; [lia|]. apply buckets_for_ok.
Qed.
Lemma fresh_cap cap : (cap <= capacity_of (@empty_table K V (buckets_for cap)))%nat.
Proof. unfold empty_table, capacity_of; cbn. rewrite repeat_length. apply half_cap. Qed.
Lemma fresh_entries n : entries (bkts (@empty_table K V n)) = [].
Proof. apply entries_none. Qed.
Lemma move_over m h o l new : handle m h o l -> wf new ->
  NoDup (map fst l ++ keys (bkts new)) -> (length l + nelem new <= capacity_of new)%nat ->
  (0 < length (bkts new))%nat ->
  forall s b, o = Some s -> live m s b ->
  exists old new', dispatch_transfer hash (nref b =? 1) (tab b) new = Ok (old, new') /\
    emptied m o (set_block m s (Live (Storage (nref b) old))) /\
    tok new' /\ (forall q y, nth_error (bkts new) q = Some (Some y) -> nth_error (bkts new') q = Some (Some y)) /\
    Permutation (entries (bkts new')) (l ++ entries (bkts new)).
Proof.
  intros (_ & _ & H) Hw Hnd Hr Hp s b -> Hb.
  destruct H as (b' & Hb' & _ & Ht & HP & _).
  unfold live in *. assert (b' = b) by congruence; subst b'.
  assert (Hcl : (capacity_of new < length (bkts new))%nat)
    by (unfold capacity_of; apply Nat.div_lt; lia).
  destruct (transfer_ok eqb hash eqb_ok (nref b =? 1) (length (bkts (tab b))) 0 (tab b) new) as (old & new' & E & Hu & Hw' & Hl' & Hq & HP').
  - reflexivity.
  - exact Hw.
  - apply (wf_count hash), Ht.
  - cbn [skipn]. eapply Permutation_NoDup; [|exact Hnd].
    apply Permutation_app; [|reflexivity]. apply Permutation_map; symmetry; exact HP.
  - cbn [skipn]. rewrite (Permutation_length HP). lia.
  - cbn [skipn] in HP'. exists old, new'. split; [exact E|].
    assert (HPl : Permutation (entries (bkts new')) (l ++ entries (bkts new))).
    { rewrite HP'. apply Permutation_app; [exact HP|reflexivity]. }
    split; [|split; [|split; [exact Hq|exact HPl]]].
    + destruct (Z.eqb_spec (nref b) 1) as [E1|E1].
      * right. exists s, b, old. rewrite E1. auto.
      * left. rewrite (Hu eq_refl). unfold set_block. destruct b; cbn in *.
        rewrite set_nth_same by exact Hb. destruct m; reflexivity.
    + split; [exact Hw'|]. split; [|lia].
      rewrite (wf_count hash _ Hw'), (Permutation_length HPl), app_length, <- (wf_count hash _ Hw).
      unfold capacity_of in *. rewrite Hl'. exact Hr.
Qed.
Lemma reserve_full m h o l add : handle m h o l ->
  res (reallocate_reserve hash bkt_size block_size max_size m o true add)
    (fun '(m1, new) => emptied m o m1 /\ tok new /\ Permutation (entries (bkts new)) l)
    (max_size < length l + add)%nat.
Proof.
  intros Hd. unfold reallocate_reserve. rewrite (handle_size _ _ _ _ Hd). cbn [obind].
  destruct (Nat.ltb_spec max_size (length l + add)) as [Hl|_]; [exact Hl|].
  destruct (Nat.eqb_spec (length l) 0) as [Ez|Hz]; cbn [negb andb].
  - cbn [obind res]. split; [left; reflexivity|]. split; [apply fresh_tok|].
    rewrite fresh_entries. destruct l; [constructor|discriminate].
  - pose proof Hd as (_ & _ & H). destruct o as [s|]; [|subst l; contradiction].
    destruct H as (b & Hb & _). rewrite (block_live _ _ _ Hb). cbn [obind].
    destruct (move_over m h (Some s) l (empty_table (buckets_for (length l + add))) Hd
                (empty_wf hash _)) with (s := s) (b := b) as (old & new' & E & He & Ht & _ & HP); auto.
    + unfold keys. rewrite fresh_entries, app_nil_r. eapply handle_nodup; exact Hd.
    + pose proof (fresh_cap (length l + add)). cbn [nelem empty_table]. lia.
    + apply fresh_tok.
    + rewrite E. cbn [obind res]. split; [exact He|]. split; [exact Ht|].
      rewrite fresh_entries, app_nil_r in HP. exact HP.
Qed.
Lemma reserve_fresh m h o l add : handle m h o l ->
  res (reallocate_reserve hash bkt_size block_size max_size m o false add)
    (fun '(m1, new) => m1 = m /\ new = empty_table (buckets_for (length l + add)))
    (max_size < length l + add)%nat.
Proof.
  intros Hd. unfold reallocate_reserve. rewrite (handle_size _ _ _ _ Hd). cbn [obind].
  destruct (Nat.ltb_spec max_size (length l + add)) as [Hl|_]; [exact Hl|]. cbn. auto.
Qed.
Lemma finish_ok m h o l new : handle m h o l -> wf new ->
  NoDup (map fst l ++ keys (bkts new)) -> (length l + nelem new <= capacity_of new)%nat ->
  (0 < length (bkts new))%nat ->
  exists m1 new', reallocate_finish hash m o new = Ok (m1, new') /\ emptied m o m1 /\ tok new' /\
    (forall q y, nth_error (bkts new) q = Some (Some y) -> nth_error (bkts new') q = Some (Some y)) /\
    Permutation (entries (bkts new')) (l ++ entries (bkts new)).
Proof.
  intros Hd Hw Hnd Hr Hp. unfold reallocate_finish. destruct o as [s|].
  - pose proof Hd as (_ & _ & (b & Hb & _)). rewrite (block_live _ _ _ Hb). cbn [obind].
    destruct (move_over m h (Some s) l new Hd Hw Hnd Hr Hp s b eq_refl Hb) as (old & new' & E & H).
    rewrite E. cbn [obind]. eexists _, new'. split; [reflexivity|exact H].
  - pose proof Hd as (_ & _ & ->). exists m, new. split; [reflexivity|]. split; [left; reflexivity|].
    split; [split; [exact Hw|]|auto]. cbn in Hr. split; [exact Hr|exact Hp].
Qed.

(* ---- statements ---- *)
(* a new value for one map *)
Definition becomes v h (x : pairs) m' : Prop := good m' (set_nth v h (Some x)) [].
Lemma same_value v h l : val v h = Some l -> set_nth v h (Some l) = v.
Proof. intros H; apply set_nth_same, val_nth, H. Qed.

Lemma good_same m v h l : val v h = Some l -> good m (set_nth v h (Some l)) [] -> good m v [].
Proof. intros H; rewrite (same_value _ _ _ H); auto. Qed.

Lemma mut_buckets_ok m v h o l : good m v [] -> handle m h o l -> val v h = Some l ->
  exists m' o', mut_buckets m h = Ok (m', o') /\ good m' v [] /\ obj m' h = Ok o' /\
    match o with
    | None => o' = None
    | Some s => exists b s' b', live m s b /\ o' = Some s' /\ live m' s' b' /\ nref b' = 1 /\
        bkts (tab b') = bkts (tab b)
    end.
Proof.
  intros Hg Hd Ev. unfold mut_buckets. rewrite (proj1 (proj2 Hd)). cbn [obind].
  rewrite (handle_writable _ _ _ _ Hd). cbn [obind].
  destruct o as [s|].
  2:{ exists m, None. split; [reflexivity|]. split; [exact Hg|]. split; [apply Hd|reflexivity]. }
  pose proof Hd as (_ & Eo & (b & Hb & Hn & Ht & HP & _)).
  pose proof Hb as Hb'. unfold live in Hb'. unfold sole. rewrite Hb'.
  destruct (Z.eqb_spec (nref b) 1) as [E1|E1].
  - exists m, (Some s). split; [reflexivity|]. split; [exact Hg|]. split; [exact Eo|].
    exists b, s, b. auto.
  - rewrite (block_live _ _ _ Hb). cbn [obind].
    assert (HC : exists new, (if negb (nelem (tab b) =? 0)%nat
        then clone (length (bkts (tab b))) 0 (tab b) (empty_table (length (bkts (tab b))))
        else Ok (empty_table (length (bkts (tab b))))) = Ok new /\ tok new /\ bkts new = bkts (tab b)).
    { pose proof (wf_count hash _ (proj1 Ht)) as Hc.
      assert (HT : forall new, bkts new = bkts (tab b) -> nelem new = length (entries (bkts (tab b))) -> tok new).
      { intros new Eb En. destruct Ht as ([H1 H2 H3] & H4 & H5). destruct new as [ne bk]; cbn in *; subst bk ne.
        split; [split; cbn; auto|]. unfold capacity_of in *; cbn. split; [congruence|exact H5]. }
      destruct (Nat.eqb_spec (nelem (tab b)) 0) as [Ez|Hz]; cbn [negb].
      - eexists; split; [reflexivity|]. rewrite Hc in Ez.
        assert (Eb : bkts (@empty_table K V (length (bkts (tab b)))) = bkts (tab b)).
        { cbn. generalize Ez. generalize (bkts (tab b)). intros q; induction q as [|[x|] q IH]; cbn; intros Hq.
          - reflexivity.
          - discriminate.
          - rewrite IH by exact Hq; reflexivity. }
        split; [|exact Eb]. apply HT; [exact Eb|]. cbn. congruence.
      - destruct (clone_ok (tab b) (length (bkts (tab b))) 0 (empty_table (length (bkts (tab b)))))
          as (new & E & Eb & En); try reflexivity.
        exists new. split; [exact E|]. split; [apply HT; assumption|exact Eb]. }
    destruct HC as (new & -> & Htn & Eb). cbn [obind].
    destruct (install_ok hash m m v h (Some s) l new l Hg Hd Ev) as (m' & E & Hg' & Eo' & Hl').
    + left; reflexivity.
    + exact Htn.
    + rewrite Eb; exact HP.
    + rewrite E. cbn [obind]. apply (good_same _ _ _ _ Ev) in Hg'.
      eexists m', _. split; [reflexivity|]. split; [exact Hg'|]. split; [exact Eo'|].
      exists b, (length (blocks m)), (Storage 1 new). cbn. auto.
Qed.

(* the result of try_emplace: a map that is not shared, with the key at p *)
Definition placed v h (l : pairs) k (x : V) m' (p : nat) (new : bool) : Prop :=
  (exists s b w, obj m' h = Ok (Some s) /\ live m' s b /\ nref b = 1 /\
     nth_error (bkts (tab b)) p = Some (Some (k, w)) /\ (new = true -> w = x)) /\
  if new then ~ In k (map fst l) /\ becomes v h ((k, x) :: l) m'
  else In k (map fst l) /\ good m' v [].
Lemma keyed_wf_cap (t : table) k x : wf t -> (nelem t < capacity_of t)%nat ->
  exists p new t', keyed_try_emplace eqb hash t k x = Ok (p, new, t') /\ wf t' /\
    (0 < length (bkts t') -> tok t')%nat /\ capacity_of t' = capacity_of t /\
    (nelem t' <= S (nelem t))%nat /\ length (bkts t') = length (bkts t) /\
    if new : bool
    then ~ In k (keys (bkts t)) /\ Permutation (entries (bkts t')) ((k, x) :: entries (bkts t)) /\
         nth_error (bkts t') p = Some (Some (k, x))
    else t' = t /\ exists w, nth_error (bkts t) p = Some (Some (k, w)).
Proof.
  intros Hw Hc. destruct (keyed_ok eqb hash eqb_ok t k x Hw Hc) as (p & new & t' & E & Hw' & Hl & H).
  assert (Hcap : capacity_of t' = capacity_of t) by (unfold capacity_of; rewrite Hl; reflexivity).
  assert (Hn : (nelem t' <= S (nelem t))%nat).
  { destruct new; [|destruct H as [-> _]; lia]. destruct H as (_ & HP & _).
    rewrite (wf_count hash _ Hw'), (Permutation_length HP), (wf_count hash _ Hw). cbn; lia. }
  exists p, new, t'. repeat (split; [first [exact E|exact Hw'|exact Hcap|exact Hn|exact Hl|
    intros; split; [exact Hw'|split; [lia|assumption]]]|]). exact H.
Qed.

Lemma try_emplace_ok m v h l k x : good m v [] -> val v h = Some l ->
  res (try_emplace eqb hash bkt_size block_size max_size m h k x)
    (fun '(m', (p, new)) => placed v h l k x m' p new)
    (exists o, obj m h = Ok o /\ max_size < length l + Z.to_nat (Z.lor 17 (Z.of_nat (cap_of m o / 2))))%nat.
Proof.
  intros Hg Ev. destruct (good_view hash m v [] h l Hg Ev) as (o & Hd).
  unfold try_emplace. rewrite (proj1 (proj2 Hd)). cbn [obind].
  rewrite (handle_writable _ _ _ _ Hd), (proj1 (handle_cap _ _ _ _ Hd)), (handle_size _ _ _ _ Hd). cbn [obind].
  pose proof (lookup_ok m h o l k Hd) as (r & Er & Hr).
  set (fast := match o with None => true | _ => sole m o end && (length l <? cap_of m o)%nat).
  destruct (if fast then o else None) as [s|] eqn:Ef.
  - (* in place *)
    destruct fast eqn:Eb; [|discriminate]. subst o.
    apply andb_true_iff in Eb. destruct Eb as [E1 E2]. apply Nat.ltb_lt in E2.
    pose proof Hd as (_ & Eo & (b & Hb & Hn & Ht & HP & _)).
    cbn [sole cap_of] in E1, E2. pose proof Hb as Hb'. unfold live in Hb'. rewrite Hb' in E1, E2. apply Z.eqb_eq in E1.
    rewrite (block_live _ _ _ Hb). cbn [obind].
    assert (Hc : (nelem (tab b) < capacity_of (tab b))%nat).
    { rewrite (wf_count hash _ (proj1 Ht)), (Permutation_length HP). exact E2. }
    destruct (keyed_wf_cap (tab b) k x (proj1 Ht) Hc) as (p & new & t' & E & Hw' & Ht' & _ & _ & Hlt & H).
    rewrite E. cbn [obind]. specialize (Ht' ltac:(rewrite Hlt; apply Ht)).
    set (l' := if new then (k, x) :: l else l).
    assert (HP' : Permutation (entries (bkts t')) l').
    { unfold l'; destruct new; [|destruct H as [-> _]; exact HP].
      destruct H as (_ & H & _). rewrite H. constructor; exact HP. }
    destruct (edit_ok hash m v h s b t' l l' Hg Hd Ev Hb E1 Ht' HP') as (m' & Es & Hg' & Em).
    rewrite Es. cbn [obind res]. unfold placed. split.
    + exists s, (Storage 1 t').
      assert (Ho : obj m' h = Ok (Some s)) by (rewrite Em; exact Eo).
      assert (Hl' : live m' s (Storage 1 t')).
      { unfold live. rewrite Em, (set_live _ _ _ _ Hb), Nat.eqb_refl; reflexivity. }
      destruct new.
      * destruct H as (_ & _ & Hp). exists x. auto.
      * destruct H as [-> [w Hp]]. exists w. repeat (split; [assumption || reflexivity|]). discriminate.
    + destruct new.
      * destruct H as (Hk & _). split; [|exact Hg'].
        intros Hi; apply Hk. unfold keys. eapply Permutation_in; [|exact Hi].
        apply Permutation_map; symmetry; exact HP.
      * destruct H as [-> [w Hp]]. split.
        -- apply (in_map fst) with (x := (k, w)). eapply Permutation_in; [exact HP|].
           apply entries_in; eauto.
        -- unfold l' in Hg'. apply (good_same _ _ _ _ Ev) in Hg'. exact Hg'.
  - rewrite Er. cbn [obind]. destruct r as [[p w]|].
    + (* it exists *)
      destruct Hr as (Hi & s & b & -> & Hb & Hp).
      destruct (mut_buckets_ok m v h (Some s) l Hg Hd Ev) as (m' & o' & E & Hg' & Eo' & Hx).
      destruct Hx as (b0 & s' & b' & Hb0 & -> & Hb' & Hn' & Ebk).
      unfold live in Hb, Hb0. assert (b0 = b) by congruence. subst b0.
      rewrite E. cbn [obind res]. split.
      * exists s', b', w. rewrite Ebk. repeat (split; [assumption|]). discriminate.
      * split; [|exact Hg']. apply (in_map fst) with (x := (k, w)); exact Hi.
    + (* new storage *)
      set (add := Z.to_nat (Z.lor 17 (Z.of_nat (cap_of m o / 2)))).
      eapply res_bind.
      { eapply res_weaken; [apply (reserve_fresh m h o l add Hd)|intros a Ha; exact Ha|].
        intros Hm. exists o. split; [first [reflexivity|apply Hd]|exact Hm]. }
      intros [m1 new0] [-> ->].
      assert (Hadd : (1 <= add)%nat).
      { pose proof (lor_le 17 (Z.of_nat (cap_of m o / 2)) ltac:(lia) ltac:(lia)). unfold add. lia. }
      pose proof (fresh_cap (length l + add)) as Hfc.
      pose proof (fresh_tok (length l + add)) as Hft.
      set (new0 := empty_table (buckets_for (length l + add))) in *.
      destruct (keyed_wf_cap new0 k x (proj1 Hft)) as (p & new & t' & E & Hw' & Ht' & Hc' & Hn' & Hlt & H).
      { change (nelem new0) with 0%nat. lia. }
      rewrite E. cbn [obind].
      destruct new.
      2:{ exfalso. destruct H as [_ [w Hw]]. apply nth_error_In, repeat_spec in Hw. discriminate. }
      destruct H as (_ & HP' & Hp'). unfold new0 in HP'. rewrite fresh_entries in HP'.
      destruct (finish_ok m h o l t' Hd Hw') as (m1 & new' & Ef' & He & Htn & Hq & HPn).
      * unfold keys. eapply Permutation_NoDup.
        { apply Permutation_app; [reflexivity|]. apply Permutation_map; symmetry; exact HP'. }
        eapply Permutation_NoDup; [apply Permutation_cons_append|]. constructor; [exact Hr|].
        eapply handle_nodup; exact Hd.
      * rewrite Hc'. change (nelem new0) with 0%nat in Hn'. lia.
      * rewrite Hlt. apply Hft.
      * rewrite Ef'. cbn [obind].
        assert (HPx : Permutation (entries (bkts new')) ((k, x) :: l)).
        { rewrite HPn, HP'. symmetry. apply Permutation_cons_append. }
        destruct (install_ok hash m m1 v h o l new' ((k, x) :: l) Hg Hd Ev He Htn HPx)
          as (m' & Ei & Hg' & Eo' & Hl').
        rewrite Ei. cbn [obind res fst]. split.
        -- exists (length (blocks m)), (Storage 1 new'), x. split; [exact Eo'|]. split; [exact Hl'|].
           split; [reflexivity|]. split; [apply Hq, Hp'|auto].
        -- split; [exact Hr|exact Hg'].
Qed.

(* writing through a reference *)
Lemma write_ok m v h s b l p k w x : good m v [] -> val v h = Some l -> obj m h = Ok (Some s) ->
  live m s b -> nref b = 1 -> nth_error (bkts (tab b)) p = Some (Some (k, w)) ->
  exists m', write_at m (Some s) p x = Ok m' /\ becomes v h (put eqb l k x) m'.
Proof.
  intros Hg Ev Eo Hb H1 Hp.
  destruct (good_view hash m v [] h l Hg Ev) as (o & Hd).
  assert (o = Some s) by (pose proof (proj1 (proj2 Hd)); congruence). subst o.
  pose proof Hd as (_ & _ & (b' & Hb' & _ & Ht & HP & _)).
  unfold live in Hb'. unfold live in Hb. assert (b' = b) by congruence. subst b'.
  unfold write_at. rewrite (block_live _ _ _ Hb). cbn [obind]. rewrite Hp.
  set (t' := Table (nelem (tab b)) (set_nth (bkts (tab b)) p (Some (k, x)))).
  pose proof (entries_set_none _ _ _ Hp) as HP1.
  set (b0 := set_nth (bkts (tab b)) p None) in *.
  assert (Hlt : (p < length (bkts (tab b)))%nat) by (eapply nth_lt; exact Hp).
  assert (Hp0 : nth_error b0 p = Some None) by (apply nth_set_same; exact Hlt).
  pose proof (entries_set_some b0 p (k, x) Hp0) as HP2.
  unfold b0 in HP2. rewrite set_nth_twice in HP2. fold b0 in HP2.
  assert (HPl : Permutation l ((k, w) :: entries b0)) by (rewrite <- HP; exact HP1).
  pose proof (tok_nodup _ _ Ht HP) as Hnd.
  destruct (without_cons eqb eqb_ok l (entries b0) k w Hnd HPl) as [Hwo Hk0].
  assert (HPt : Permutation (entries (bkts t')) (put eqb l k x)).
  { cbn [t' bkts]. rewrite HP2. unfold put. constructor. symmetry; exact Hwo. }
  assert (Htt : tok t').
  { destruct Ht as ([Hl1 Hl2 Hl3] & Hc & Hpos).
    assert (Hlen : length (bkts t') = length (bkts (tab b))) by (cbn; apply set_nth_length).
    split; [split|].
    - intros q kv Eq q' Hq' Hbt Eq'. rewrite Hlen in Hq', Hbt. cbn [t' bkts] in Eq, Eq'.
      rewrite nth_set in Eq, Eq' by exact Hlt.
      destruct (Nat.eqb_spec p q') as [|]; [discriminate|].
      destruct (Nat.eqb_spec p q) as [<-|].
      + injection Eq as <-. cbn in Hbt. exact (Hl1 p (k, w) Hp q' Hq' Hbt Eq').
      + exact (Hl1 q kv Eq q' Hq' Hbt Eq').
    - unfold keys. cbn [t' bkts]. eapply Permutation_NoDup; [symmetry; apply Permutation_map; exact HP2|].
      cbn. constructor; [exact Hk0|].
      unfold keys in Hl2. eapply Permutation_NoDup in Hl2; [|apply Permutation_map; exact HP1].
      cbn in Hl2. inversion Hl2; assumption.
    - cbn [t' bkts nelem]. rewrite Hl3, (Permutation_length HP1), (Permutation_length HP2). reflexivity.
    - unfold capacity_of in *. rewrite Hlen. cbn [t' nelem]. auto. }
  destruct (edit_ok hash m v h s b t' l _ Hg Hd Ev Hb H1 Htt HPt) as (m' & Es & Hg' & _).
  exists m'. split; [exact Es|exact Hg'].
Qed.

Lemma put_present (l : pairs) k x : put eqb ((k, x) :: l) k x = put eqb l k x.
Proof. unfold put, without; cbn. destruct (eqb_ok k k); [reflexivity|congruence]. Qed.
Lemma put_absent (l : pairs) k x : ~ In k (map fst l) -> put eqb l k x = (k, x) :: l.
Proof. intros H; unfold put. rewrite (without_absent eqb eqb_ok) by exact H; reflexivity. Qed.
Lemma put_replaced (l : pairs) k d x : put eqb ((k, d) :: l) k x = put eqb l k x.
Proof. unfold put, without; cbn. destruct (eqb_ok k k); [reflexivity|congruence]. Qed.
Lemma val_set v h l x : val v h = Some l -> val (set_nth v h (Some x)) h = Some x.
Proof.
  intros H. apply val_nth in H. unfold val. rewrite nth_set_same by (eapply nth_lt; exact H). reflexivity.
Qed.

Definition too_big m h (l : pairs) : Prop :=
  (exists o, obj m h = Ok o /\ max_size < length l + Z.to_nat (Z.lor 17 (Z.of_nat (cap_of m o / 2))))%nat.
Lemma insert_or_assign_ok m v h l k x : good m v [] -> val v h = Some l ->
  res (insert_or_assign eqb hash bkt_size block_size max_size m h k x)
    (becomes v h (put eqb l k x)) (too_big m h l).
Proof.
  intros Hg Ev. unfold insert_or_assign.
  eapply res_bind; [apply (try_emplace_ok m v h l k x Hg Ev)|].
  intros [m' [p new]] [(s & b & w & Eo & Hb & H1 & Hp & _) H]. cbn [fst snd].
  destruct new.
  - destruct H as [Hk Hg']. cbn. rewrite put_absent by exact Hk. exact Hg'.
  - destruct H as [Hk Hg']. rewrite Eo. cbn [obind].
    destruct (write_ok m' v h s b l p k w x Hg' Ev Eo Hb H1 Hp) as (m2 & E & Hb2).
    rewrite E. exact Hb2.
Qed.
Lemma index_ok m v h l k d x : good m v [] -> val v h = Some l ->
  res (index_assign eqb hash bkt_size block_size max_size m h k d x)
    (becomes v h (put eqb l k x)) (too_big m h l).
Proof.
  intros Hg Ev. unfold index_assign.
  eapply res_bind; [apply (try_emplace_ok m v h l k d Hg Ev)|].
  intros [m' [p new]] [(s & b & w & Eo & Hb & H1 & Hp & _) H]. cbn [fst snd]. rewrite Eo. cbn [obind].
  destruct new.
  - destruct H as [Hk Hg'].
    destruct (write_ok m' _ h s b _ p k w x Hg' (val_set _ _ _ _ Ev) Eo Hb H1 Hp) as (m2 & E & Hb2).
    rewrite E. unfold becomes in *. rewrite set_nth_twice, put_replaced in Hb2. exact Hb2.
  - destruct H as [Hk Hg'].
    destruct (write_ok m' v h s b l p k w x Hg' Ev Eo Hb H1 Hp) as (m2 & E & Hb2).
    rewrite E. exact Hb2.
Qed.
Lemma find_and_assign_ok m v h l k x : good m v [] -> val v h = Some l ->
  exists m', find_and_assign eqb hash m h k x = Ok m' /\
    becomes v h (if has l k then put eqb l k x else l) m'.
Proof.
  intros Hg Ev. destruct (good_view hash m v [] h l Hg Ev) as (o & Hd).
  unfold find_and_assign. rewrite (proj1 (proj2 Hd)). cbn [obind].
  destruct (lookup_ok m h o l k Hd) as (r & Er & Hr). rewrite Er. cbn [obind].
  destruct r as [[p w]|].
  - destruct Hr as (Hi & s & b & -> & Hb & Hp).
    destruct (mut_buckets_ok m v h (Some s) l Hg Hd Ev) as (m' & o' & E & Hg' & Eo' & Hx).
    destruct Hx as (b0 & s' & b' & Hb0 & -> & Hb' & Hn' & Ebk).
    unfold live in Hb, Hb0. assert (b0 = b) by congruence. subst b0.
    rewrite E. cbn [obind]. rewrite <- Ebk in Hp.
    destruct (write_ok m' v h s' b' l p k w x Hg' Ev Eo' Hb' Hn' Hp) as (m2 & E2 & Hb2).
    exists m2. split; [exact E2|].
    rewrite (proj2 (has_in eqb eqb_ok l k)); [exact Hb2|].
    apply (in_map fst) with (x := (k, w)); exact Hi.
  - exists m. split; [reflexivity|].
    rewrite (proj2 (has_not eqb eqb_ok l k) Hr). unfold becomes. rewrite (same_value _ _ _ Ev). exact Hg.
Qed.

Lemma erase_unchecked_ok m v h l s b tpos tlen : good m v [] -> val v h = Some l ->
  obj m h = Ok (Some s) -> live m s b -> (tpos + tlen <= length (bkts (tab b)))%nat ->
  exists m', erase_unchecked hash m h tpos tlen = Ok m' /\
    forall x, Permutation (entries (firstn tpos (bkts (tab b))) ++ entries (skipn (tpos + tlen) (bkts (tab b)))) x ->
    becomes v h x m'.
Proof.
  intros Hg Ev Eo Hb Hr.
  destruct (good_view hash m v [] h l Hg Ev) as (o & Hd).
  assert (o = Some s) by (pose proof (proj1 (proj2 Hd)); congruence). subst o.
  unfold erase_unchecked.
  destruct (mut_buckets_ok m v h (Some s) l Hg Hd Ev) as (m' & o' & E & Hg' & Eo' & Hx).
  destruct Hx as (b0 & s' & b' & Hb0 & -> & Hb' & Hn' & Ebk).
  unfold live in Hb, Hb0. assert (b0 = b) by congruence. subst b0.
  rewrite E. cbn [obind]. rewrite (block_live _ _ _ Hb'). cbn [obind].
  destruct (good_view hash m' v [] h l Hg' Ev) as (o & Hd').
  assert (o = Some s') by (pose proof (proj1 (proj2 Hd')); congruence). subst o.
  pose proof Hd' as (_ & _ & (b1 & Hb1 & _ & Ht & HP & _)).
  unfold live in Hb1, Hb'. assert (b1 = b') by congruence. subst b1.
  destruct (erase_range_ok eqb hash eqb_ok (tab b') tpos tlen (proj1 Ht) (tok_room hash _ Ht)) as (t' & Et & Hw' & Hl' & HP').
  { rewrite Ebk; exact Hr. }
  rewrite Et. cbn [obind]. rewrite Ebk in HP'.
  assert (Htt : tok t').
  { split; [exact Hw'|]. split; [|rewrite Hl'; apply Ht].
    unfold capacity_of. rewrite Hl'. destruct Ht as (Hw & Hc & _). unfold capacity_of in Hc.
    rewrite (wf_count hash _ Hw'), (Permutation_length HP'), app_length.
    rewrite (wf_count hash _ Hw) in Hc. rewrite <- Ebk.
    rewrite <- (firstn_skipn tpos (bkts (tab b'))) in Hc.
    rewrite entries_app, app_length in Hc.
    rewrite firstn_skipn in Hc.
    rewrite <- (firstn_skipn tlen (skipn tpos (bkts (tab b')))), entries_app, app_length, skipn_skipn in Hc.
    replace (tlen + tpos)%nat with (tpos + tlen)%nat in Hc by lia.
    lia. }
  destruct (edit_ok hash m' v h s' b' t' l _ Hg' Hd' Ev Hb' Hn' Htt HP') as (m2 & Es & Hg2 & _).
  exists m2. split; [exact Es|]. intros x Hx.
  assert (HPx : Permutation (entries (bkts t')) x) by (rewrite HP'; exact Hx).
  destruct (edit_ok hash m' v h s' b' t' l _ Hg' Hd' Ev Hb' Hn' Htt HPx) as (m3 & Es3 & Hg3 & _).
  assert (m3 = m2) by congruence. subst m3. exact Hg3.
Qed.
Lemma erase_ok m v h l k : good m v [] -> val v h = Some l ->
  exists m', erase eqb hash m h k = Ok m' /\ becomes v h (without eqb l k) m'.
Proof.
  intros Hg Ev. destruct (good_view hash m v [] h l Hg Ev) as (o & Hd).
  unfold erase. rewrite (proj1 (proj2 Hd)). cbn [obind].
  destruct (lookup_ok m h o l k Hd) as (r & Er & Hr). rewrite Er. cbn [obind].
  destruct r as [[p w]|].
  - destruct Hr as (Hi & s & b & -> & Hb & Hp).
    pose proof (nth_lt _ _ _ Hp) as Hlt.
    destruct (erase_unchecked_ok m v h l s b p 1 Hg Ev (proj1 (proj2 Hd)) Hb ltac:(lia)) as (m' & E & Hx).
    exists m'. split; [exact E|]. apply Hx.
    pose proof Hd as (_ & _ & (b1 & Hb1 & _ & Ht & HP & _)).
    unfold live in Hb1, Hb. assert (b1 = b) by congruence. subst b1.
    rewrite (split_nth _ _ _ Hp), entries_app in HP. cbn [entries] in HP.
    assert (HPl : Permutation l ((k, w) :: entries (firstn p (bkts (tab b))) ++ entries (skipn (p + 1) (bkts (tab b))))).
    { rewrite <- HP. replace (p + 1)%nat with (S p) by lia. symmetry. apply Permutation_middle. }
    symmetry. eapply without_cons; [exact eqb_ok|eapply handle_nodup; exact Hd|exact HPl].
  - exists m. split; [reflexivity|]. rewrite (without_absent eqb eqb_ok) by exact Hr.
    unfold becomes. rewrite (same_value _ _ _ Ev). exact Hg.
Qed.

(* insert(first, last) *)
Lemma emplace_all_ok l0 : forall (t : table) (y : pairs), tok t ->
  Permutation (entries (bkts t)) y -> (nelem t + length l0 <= capacity_of t)%nat ->
  exists t', emplace_all eqb hash t l0 = Ok t' /\ tok t' /\ Permutation (entries (bkts t')) (add_all eqb y l0).
Proof.
  induction l0 as [|[k x] l0 IH]; intros t y Ht HP Hc; cbn [emplace_all].
  - exists t. auto.
  - cbn [length] in Hc.
    destruct (keyed_wf_cap t k x (proj1 Ht) ltac:(lia)) as (p & new & t' & E & Hw' & Ht' & Hc' & Hn' & Hlt & H).
    rewrite E. cbn [obind]. specialize (Ht' ltac:(rewrite Hlt; apply Ht)).
    unfold add_all; cbn [fold_left fst snd]. fold (add_all eqb (add eqb y k x) l0).
    apply IH; [exact Ht'| |].
    + unfold add. destruct new.
      * destruct H as (Hk & HP' & _).
        rewrite (proj2 (has_not eqb eqb_ok y k)); [rewrite HP'; constructor; exact HP|].
        intros Hi; apply Hk. unfold keys. eapply Permutation_in; [|exact Hi].
        apply Permutation_map; symmetry; exact HP.
      * destruct H as [-> [w Hw]]. rewrite (proj2 (has_in eqb eqb_ok y k)); [exact HP|].
        apply (in_map fst) with (x := (k, w)). eapply Permutation_in; [exact HP|].
        apply entries_in; eauto.
    + rewrite Hc'. lia.
Qed.
Lemma emplace_new_ok m h o l l0 : handle m h o l -> forall (t : table) (y : pairs), tok t ->
  NoDup (map fst l ++ keys (bkts t)) ->
  Permutation (l ++ entries (bkts t)) y -> (nelem t + length l0 <= capacity_of t)%nat ->
  exists t', emplace_new eqb hash m o t l0 = Ok t' /\ tok t' /\ NoDup (map fst l ++ keys (bkts t')) /\
    capacity_of t' = capacity_of t /\ (nelem t' <= nelem t + length l0)%nat /\
    Permutation (l ++ entries (bkts t')) (add_all eqb y l0).
Proof.
  intros Hd; induction l0 as [|[k x] l0 IH]; intros t y Ht Hnd HP Hc; cbn [emplace_new].
  - exists t. split; [reflexivity|]. split; [exact Ht|]. split; [exact Hnd|]. split; [reflexivity|]. cbn. split; [lia|exact HP].
  - cbn [length] in Hc.
    destruct (lookup_ok m h o l k Hd) as (r & Er & Hr). rewrite Er. cbn [obind].
    unfold add_all; cbn [fold_left fst snd]. fold (add_all eqb (add eqb y k x) l0).
    destruct r as [[p w]|].
    + destruct Hr as [Hi _]. unfold add. rewrite (proj2 (has_in eqb eqb_ok y k)).
      * destruct (IH t y Ht Hnd HP ltac:(lia)) as (t' & H1 & H2 & H3 & H4 & H5 & H6).
        exists t'. cbn [length]. repeat (split; [assumption || lia|]). exact H6.
      * apply (in_map fst) with (x := (k, w)). eapply Permutation_in; [exact HP|]. apply in_or_app; auto.
    + destruct (keyed_wf_cap t k x (proj1 Ht) ltac:(lia)) as (p & new & t' & E & Hw' & Ht' & Hc' & Hn' & Hlt & H).
      rewrite E. cbn [obind]. specialize (Ht' ltac:(rewrite Hlt; apply Ht)).
      assert (HP2 : Permutation (l ++ entries (bkts t')) (add eqb y k x) /\ NoDup (map fst l ++ keys (bkts t'))).
      { unfold add. destruct new.
        - destruct H as (Hk & HP' & _). split.
          + rewrite (proj2 (has_not eqb eqb_ok y k)).
            * rewrite HP'. rewrite <- Permutation_middle. constructor; exact HP.
            * intros Hi. assert (Hi2 : In k (map fst (l ++ entries (bkts t)))).
              { eapply Permutation_in; [|exact Hi]. apply Permutation_map; symmetry; exact HP. }
              rewrite map_app, in_app_iff in Hi2. tauto.
          + unfold keys. rewrite HP'. cbn [map fst]. rewrite <- Permutation_middle. constructor; [|exact Hnd].
            rewrite in_app_iff. tauto.
        - destruct H as [-> [w Hw]]. split; [|exact Hnd]. rewrite (proj2 (has_in eqb eqb_ok y k)); [exact HP|].
          apply (in_map fst) with (x := (k, w)). eapply Permutation_in; [exact HP|].
          apply in_or_app; right. apply entries_in; eauto. }
      destruct HP2 as [HP2 Hnd2].
      destruct (IH t' _ Ht' Hnd2 HP2 ltac:(rewrite Hc'; lia)) as (t2 & H1 & H2 & H3 & H4 & H5 & H6).
      exists t2. split; [exact H1|]. split; [exact H2|]. split; [exact H3|]. split; [congruence|].
      cbn [length]. split; [lia|exact H6].
Qed.
Definition too_many m h (l : pairs) (n : nat) : Prop :=
  (exists o, obj m h = Ok o /\ max_size < length l + Z.to_nat (Z.lor (Z.of_nat n) (Z.of_nat (cap_of m o / 2))))%nat.
Lemma insert_ok m v h l l0 : good m v [] -> val v h = Some l ->
  res (insert eqb hash bkt_size block_size max_size m h true l0)
    (becomes v h (add_all eqb l l0)) (too_many m h l (length l0)).
Proof.
  intros Hg Ev. destruct (good_view hash m v [] h l Hg Ev) as (o & Hd).
  unfold insert. rewrite (proj1 (proj2 Hd)). cbn [obind].
  destruct (Nat.eqb_spec (length l0) 0) as [Ez|Hz].
  { destruct l0; [|discriminate]. cbn. unfold becomes. rewrite (same_value _ _ _ Ev). exact Hg. }
  rewrite (handle_writable _ _ _ _ Hd), (proj1 (handle_cap _ _ _ _ Hd)), (handle_size _ _ _ _ Hd). cbn [obind].
  cbn [andb].
  set (fast := match o with None => true | _ => sole m o end && (length l0 <=? cap_of m o - length l)%nat).
  pose proof (handle_cap _ _ _ _ Hd) as [_ Hlc].
  destruct (if fast then o else None) as [s|] eqn:Ef.
  - destruct fast eqn:Eb; [|discriminate]. subst o.
    apply andb_true_iff in Eb. destruct Eb as [E1 E2]. apply Nat.leb_le in E2.
    pose proof Hd as (_ & Eo & (b & Hb & Hn & Ht & HP & _)).
    cbn [sole cap_of] in E1, E2, Hlc. pose proof Hb as Hb'. unfold live in Hb'. rewrite Hb' in E1, E2, Hlc. apply Z.eqb_eq in E1.
    rewrite (block_live _ _ _ Hb). cbn [obind].
    destruct (emplace_all_ok l0 (tab b) l Ht HP) as (t' & E & Ht' & HP').
    { rewrite (wf_count hash _ (proj1 Ht)), (Permutation_length HP). idtac. clear - E2 Hlc. lia. }
    rewrite E. cbn [obind].
    destruct (edit_ok hash m v h s b t' l _ Hg Hd Ev Hb E1 Ht' HP') as (m' & Es & Hg' & _).
    rewrite Es. exact Hg'.
  - set (ad := Z.to_nat (Z.lor (Z.of_nat (length l0)) (Z.of_nat (cap_of m o / 2)))).
    eapply res_bind.
    { eapply res_weaken; [apply (reserve_fresh m h o l ad Hd)|intros a Ha; exact Ha|].
      intros Hm. exists o. split; [first [reflexivity|apply Hd]|exact Hm]. }
    intros [m1 new0] [-> ->].
    assert (Hadd : (length l0 <= ad)%nat).
    { pose proof (lor_le (Z.of_nat (length l0)) (Z.of_nat (cap_of m o / 2)) ltac:(lia) ltac:(lia)). unfold ad. lia. }
    pose proof (fresh_cap (length l + ad)) as Hfc.
    pose proof (fresh_tok (length l + ad)) as Hft.
    set (new0 := empty_table (buckets_for (length l + ad))) in *.
    destruct (emplace_new_ok m h o l l0 Hd new0 l Hft) as (t' & E & Ht' & Hnd & Hc' & Hn' & HP').
    + unfold keys, new0. rewrite fresh_entries, app_nil_r. eapply handle_nodup; exact Hd.
    + unfold new0. rewrite fresh_entries, app_nil_r. reflexivity.
    + change (nelem new0) with 0%nat. lia.
    + rewrite E. cbn [obind].
      destruct (finish_ok m h o l t' Hd (proj1 Ht') Hnd) as (m1 & new' & Ef' & He & Htn & _ & HPn).
      * rewrite Hc'. change (nelem new0) with 0%nat in Hn'. lia.
      * apply Ht'.
      * rewrite Ef'. cbn [obind].
        assert (HPx : Permutation (entries (bkts new')) (add_all eqb l l0)) by (rewrite HPn; exact HP').
        destruct (install_ok hash m m1 v h o l new' _ Hg Hd Ev He Htn HPx) as (m' & Ei & Hg' & _).
        rewrite Ei. exact Hg'.
Qed.

(* capacity *)
Lemma round_ok n : res (@round_up_capacity bkt_size block_size max_size n)
  (fun c => c = (buckets_for n / 2)%nat) (max_size < n)%nat.
Proof. unfold round_up_capacity. destruct (Nat.ltb_spec max_size n); cbn; auto. Qed.
Lemma replaced m v h o l m1 new : good m v [] -> handle m h o l -> val v h = Some l ->
  emptied m o m1 -> tok new -> Permutation (entries (bkts new)) l ->
  exists m', install m1 h o new = Ok m' /\ good m' v [].
Proof.
  intros Hg Hd Ev He Ht HP.
  destruct (install_ok hash m m1 v h o l new l Hg Hd Ev He Ht HP) as (m' & E & Hg' & _).
  exists m'. split; [exact E|]. apply (good_same _ _ _ _ Ev) in Hg'. exact Hg'.
Qed.
Lemma dealloc_ok m v h o l : good m v [] -> handle m h o l ->
  exists m', deallocate m h = Ok m' /\ becomes v h [] m'.
Proof.
  intros Hg Hd. unfold deallocate. rewrite (proj1 (proj2 Hd)). cbn [obind].
  assert (Hg1 : good (set_obj m h (Some None)) (set_nth v h (Some [])) [o]).
  { apply (set_obj_ok hash m v [] h (Some o) (Some None) (Some [])); [exact Hg|apply Hd|reflexivity]. }
  destruct (release_ok hash _ _ _ _ Hg1) as (m' & E & Hg').
  rewrite release_set_obj in E. destruct (release m o) as [m1| |]; try discriminate.
  injection E as <-. cbn [obind]. eexists; split; [reflexivity|exact Hg'].
Qed.
Lemma shrink_ok m v h l : good m v [] -> val v h = Some l ->
  res (shrink_to_fit hash bkt_size block_size max_size m h) (fun m' => good m' v []) (max_size < length l)%nat.
Proof.
  intros Hg Ev. destruct (good_view hash m v [] h l Hg Ev) as (o & Hd).
  unfold shrink_to_fit. rewrite (proj1 (proj2 Hd)). cbn [obind]. rewrite (handle_size _ _ _ _ Hd). cbn [obind].
  destruct (Nat.eqb_spec (length l) 0) as [Ez|Hz].
  - destruct l; [|discriminate]. destruct (dealloc_ok m v h o _ Hg Hd) as (m' & E & Hb). rewrite E.
    apply (good_same _ _ _ _ Ev) in Hb. exact Hb.
  - eapply res_bind; [apply round_ok|]. intros rcap ->.
    rewrite (handle_unique _ _ _ _ Hd), (proj1 (handle_cap _ _ _ _ Hd)). cbn [obind].
    destruct (negb (sole m o) || (cap_of m o <=? buckets_for (length l) / 2)%nat); [exact Hg|].
    eapply res_bind.
    { eapply res_weaken; [apply (reserve_full m h o l 0 Hd)|intros a Ha; exact Ha|]. rewrite Nat.add_0_r; auto. }
    intros [m1 new] (He & Ht & HP).
    destruct (replaced m v h o l m1 new Hg Hd Ev He Ht HP) as (m' & E & Hg'). rewrite E. exact Hg'.
Qed.
Definition too_wide (l : pairs) (n : nat) : Prop :=
  (max_size < Nat.max (length l) n \/ max_size < buckets_for (Nat.max (length l) n) / 2)%nat.
Lemma reserve_ok m v h l n : good m v [] -> val v h = Some l ->
  res (reserve hash bkt_size block_size max_size m h n) (fun m' => good m' v []) (too_wide l n).
Proof.
  intros Hg Ev. destruct (good_view hash m v [] h l Hg Ev) as (o & Hd).
  unfold reserve. rewrite (proj1 (proj2 Hd)). cbn [obind].
  destruct (Nat.eqb_spec n 0) as [Ez|Hz].
  { eapply res_weaken; [apply (shrink_ok m v h l Hg Ev)|auto|]. intros H; left; subst n; rewrite Nat.max_0_r; exact H. }
  rewrite (handle_size _ _ _ _ Hd). cbn [obind].
  eapply res_bind; [eapply res_weaken; [apply round_ok|intros a Ha; exact Ha|intros H; left; exact H]|].
  intros rcap ->.
  rewrite (handle_unique _ _ _ _ Hd), (proj1 (handle_cap _ _ _ _ Hd)). cbn [obind].
  pose proof (half_cap (Nat.max (length l) n)) as Hh.
  set (rcap := (buckets_for (Nat.max (length l) n) / 2)%nat) in *.
  destruct (sole m o && (rcap <=? cap_of m o)%nat); [exact Hg|].
  eapply res_bind.
  { eapply res_weaken; [apply (reserve_full m h o l (rcap - length l) Hd)|intros a Ha; exact Ha|].
    intros H; right. fold rcap. lia. }
  intros [m1 new] (He & Ht & HP).
  destruct (replaced m v h o l m1 new Hg Hd Ev He Ht HP) as (m' & E & Hg'). rewrite E. exact Hg'.
Qed.
Lemma rehash_ok m v h l n : good m v [] -> val v h = Some l ->
  res (rehash hash bkt_size block_size max_size m h n) (fun m' => good m' v []) (too_wide l n).
Proof.
  intros Hg Ev. destruct (good_view hash m v [] h l Hg Ev) as (o & Hd).
  unfold rehash. rewrite (proj1 (proj2 Hd)). cbn [obind]. rewrite (handle_size _ _ _ _ Hd). cbn [obind].
  eapply res_bind; [eapply res_weaken; [apply round_ok|intros a Ha; exact Ha|intros H; left; exact H]|].
  intros rcap ->. rewrite (proj1 (handle_cap _ _ _ _ Hd)). cbn [obind].
  pose proof (half_cap (Nat.max (length l) n)) as Hh.
  set (rcap := (buckets_for (Nat.max (length l) n) / 2)%nat) in *.
  destruct (cap_of m o =? rcap)%nat; [exact Hg|].
  eapply res_bind.
  { eapply res_weaken; [apply (reserve_full m h o l (rcap - length l) Hd)|intros a Ha; exact Ha|].
    intros H; right. fold rcap. lia. }
  intros [m1 new] (He & Ht & HP).
  destruct (replaced m v h o l m1 new Hg Hd Ev He Ht HP) as (m' & E & Hg'). rewrite E. exact Hg'.
Qed.
Lemma clear_ok m v h l : good m v [] -> val v h = Some l ->
  exists m', clear hash m h = Ok m' /\ becomes v h [] m'.
Proof.
  intros Hg Ev. destruct (good_view hash m v [] h l Hg Ev) as (o & Hd).
  unfold clear. rewrite (proj1 (proj2 Hd)). cbn [obind]. rewrite (handle_unique _ _ _ _ Hd). cbn [obind].
  destruct (sole m o) eqn:Es; cbn [negb]; [|eapply dealloc_ok; eassumption].
  destruct o as [s|]; [|discriminate].
  pose proof Hd as (_ & _ & (b & Hb & Hn & Ht & HP & _)).
  cbn in Es. pose proof Hb as Hb'. unfold live in Hb'. rewrite Hb' in Es. apply Z.eqb_eq in Es.
  rewrite (block_live _ _ _ Hb). cbn [obind].
  destruct (erase_range_ok eqb hash eqb_ok (tab b) 0 (length (bkts (tab b))) (proj1 Ht) (tok_room hash _ Ht))
    as (t' & Et & Hw' & Hl' & HP'); [lia|].
  rewrite Et. cbn [obind]. cbn [firstn entries app Nat.add] in HP'. rewrite skipn_all in HP'. cbn in HP'.
  assert (Htt : tok t').
  { split; [exact Hw'|]. split; [|rewrite Hl'; apply Ht].
    rewrite (wf_count hash _ Hw'), (Permutation_length HP'). cbn; lia. }
  destruct (edit_ok hash m v h s b t' l _ Hg Hd Ev Hb Es Htt HP') as (m' & E & Hg' & _).
  exists m'. split; [exact E|exact Hg'].
Qed.

(* ---- one step ---- *)
Lemma handle_fine m h o l : handle m h o l -> fine m (Some o) (Some l).
Proof.
  intros (_ & _ & H). destruct o as [s|]; [|exact H].
  destruct H as (b & Hb & _ & _ & HP & _). cbn; eauto.
Qed.
Lemma upd_val v h l x : val v h = Some l -> upd v h x = set_nth v h x.
Proof. intros H; apply upd_set. apply val_nth in H. eapply nth_lt; exact H. Qed.
Definition throws m v (s : stmt K V) : Prop :=
  match s with
  | Reserve h n => too_wide (get v h) n
  | Shrink h => (max_size < length (get v h))%nat
  | Rehash h n => too_wide (get v h) n
  | Emplace h _ _ | Put h _ _ | Index h _ _ _ => too_big m h (get v h)
  | Insert h l => too_many m h (get v h) (length l)
  | _ => False
  end.
Theorem step_ok m v s : good m v [] -> legal m v s ->
  res (run1 eqb hash bkt_size block_size max_size m s) (fun m' => good m' (deep eqb m v s) []) (throws m v s).
Proof.
  intros Hg Hl; destruct s as [|j|j|h|h j|h j|h|h n|h|h n|h k x|h k x|h k d x|h k x|h k|h tpos tlen|h l|h l];
    cbn [run1 legal deep throws] in *.
  - (* New *) cbn. apply (new_obj_ok hash m v [] None []); [exact Hg|reflexivity].
  - (* NewCopy *)
    pose proof (val_get _ _ Hl) as Ev. destruct (good_view hash m v [] j _ Hg Ev) as (o & Hd).
    unfold new_copy. rewrite (proj1 (proj2 Hd)). cbn [obind].
    destruct (acquire_ok hash m v [] o Hg) as (m' & E & Hg' & Eo & Hk).
    { intros s ->. destruct Hd as (_ & _ & (b & Hb & _)); eauto. }
    rewrite E. cbn [obind res]. apply (new_obj_ok hash m' v [] o); [exact Hg'|].
    pose proof (handle_fine _ _ _ _ Hd) as Hf. destruct o as [s|]; [|exact Hf].
    destruct Hf as (b & Hb & HP). destruct (Hk _ _ Hb) as [n Hn]. exists (Storage n (tab b)); auto.
  - (* NewMove *)
    pose proof (val_get _ _ Hl) as Ev. destruct (good_view hash m v [] j _ Hg Ev) as (o & Hd).
    unfold new_move. rewrite (proj1 (proj2 Hd)). cbn [obind res]. rewrite (upd_val _ _ _ _ Ev).
    apply (new_obj_ok hash (set_obj m j (Some None)) _ [] o).
    + apply (set_obj_ok hash m v [] j (Some o) (Some None) (Some [])); [exact Hg|apply Hd|reflexivity].
    + eapply fine_blocks; [|eapply handle_fine; exact Hd]. reflexivity.
  - (* Drop *)
    pose proof (val_get _ _ Hl) as Ev. destruct (good_view hash m v [] h _ Hg Ev) as (o & Hd).
    unfold drop. rewrite (proj1 (proj2 Hd)). cbn [obind]. rewrite (upd_val _ _ _ _ Ev).
    assert (Hg1 : good (set_obj m h None) (set_nth v h None) [o]).
    { apply (set_obj_ok hash m v [] h (Some o) None None); [exact Hg|apply Hd|exact I]. }
    destruct (release_ok hash _ _ _ _ Hg1) as (m' & E & Hg').
    rewrite release_set_obj in E. destruct (release m o) as [m1| |]; try discriminate.
    injection E as <-. exact Hg'.
  - (* Assign *)
    destruct Hl as [Hlh Hlj].
    pose proof (val_get _ _ Hlh) as Ev. destruct (good_view hash m v [] h _ Hg Ev) as (o & Hd).
    pose proof (val_get _ _ Hlj) as Evj. destruct (good_view hash m v [] j _ Hg Evj) as (p & Hdj).
    unfold assign. rewrite (proj1 (proj2 Hd)), (proj1 (proj2 Hdj)). cbn [obind]. rewrite (upd_val _ _ _ _ Ev).
    destruct (acquire_ok hash m v [] p Hg) as (m' & E & Hg' & Eo & Hk).
    { intros s ->. destruct Hdj as (_ & _ & (b & Hb & _)); eauto. }
    rewrite E. cbn [obind].
    assert (Hg1 : good (set_obj m' h (Some p)) (set_nth v h (Some (get v j))) [o]).
    { apply (set_obj_ok hash m' v [] h (Some o) (Some p)); [exact Hg'|rewrite Eo; apply Hd|].
      pose proof (handle_fine _ _ _ _ Hdj) as Hf. destruct p as [s|]; [|exact Hf].
      destruct Hf as (b & Hb & HP). destruct (Hk _ _ Hb) as [n Hn]. exists (Storage n (tab b)); auto. }
    destruct (release_ok hash _ _ _ _ Hg1) as (m2 & E2 & Hg2).
    rewrite release_set_obj in E2. destruct (release m' o) as [m1| |]; try discriminate.
    injection E2 as <-. exact Hg2.
  - (* Swap *)
    destruct Hl as [Hlh Hlj].
    pose proof (val_get _ _ Hlh) as Ev. destruct (good_view hash m v [] h _ Hg Ev) as (o & Hd).
    pose proof (val_get _ _ Hlj) as Evj. destruct (good_view hash m v [] j _ Hg Evj) as (p & Hdj).
    unfold swap_with. rewrite (proj1 (proj2 Hd)), (proj1 (proj2 Hdj)). cbn [obind res].
    rewrite (upd_val v j _ _ Evj).
    assert (Hlt : (h < length (set_nth v j (Some (get v h))))%nat).
    { rewrite set_nth_length. apply val_nth in Ev. eapply nth_lt; exact Ev. }
    rewrite (upd_set _ _ _ Hlt).
    destruct (Nat.eq_dec h j) as [->|Hne].
    + assert (p = o) by (pose proof (proj1 (proj2 Hd)); pose proof (proj1 (proj2 Hdj)); congruence). subst p.
      rewrite set_nth_twice, (same_value _ _ _ Ev).
      unfold set_obj; cbn. rewrite set_nth_twice, set_nth_same by apply Hd. destruct m; exact Hg.
    + apply (set_two_ok hash m v [] h j (Some o) (Some p)); try assumption.
      * apply Hd.
      * apply Hdj.
      * intros s; cbn [osth]; lia.
      * eapply handle_fine; exact Hdj.
      * eapply handle_fine; exact Hd.
  - (* Clear *)
    pose proof (val_get _ _ Hl) as Ev. rewrite (upd_val _ _ _ _ Ev).
    destruct (clear_ok m v h _ Hg Ev) as (m' & E & H). rewrite E. exact H.
  - (* Reserve *) apply reserve_ok; [exact Hg|apply val_get; exact Hl].
  - (* Shrink *) apply shrink_ok; [exact Hg|apply val_get; exact Hl].
  - (* Rehash *) apply rehash_ok; [exact Hg|apply val_get; exact Hl].
  - (* Emplace *)
    pose proof (val_get _ _ Hl) as Ev. rewrite (upd_val _ _ _ _ Ev).
    eapply res_bind; [apply (try_emplace_ok m v h _ k x Hg Ev)|].
    intros [m' [p new]] [_ H]. cbn. unfold add. destruct new; destruct H as [Hk H].
    + rewrite (proj2 (has_not eqb eqb_ok _ _) Hk). exact H.
    + rewrite (proj2 (has_in eqb eqb_ok _ _) Hk). rewrite (same_value _ _ _ Ev). exact H.
  - (* Put *)
    pose proof (val_get _ _ Hl) as Ev. rewrite (upd_val _ _ _ _ Ev).
    apply (insert_or_assign_ok m v h _ k x Hg Ev).
  - (* Index *)
    pose proof (val_get _ _ Hl) as Ev. rewrite (upd_val _ _ _ _ Ev).
    apply (index_ok m v h _ k d x Hg Ev).
  - (* FindPut *)
    pose proof (val_get _ _ Hl) as Ev. rewrite (upd_val _ _ _ _ Ev).
    destruct (find_and_assign_ok m v h _ k x Hg Ev) as (m' & E & H). rewrite E. exact H.
  - (* Erase *)
    pose proof (val_get _ _ Hl) as Ev. rewrite (upd_val _ _ _ _ Ev).
    destruct (erase_ok m v h _ k Hg Ev) as (m' & E & H). rewrite E. exact H.
  - (* EraseRange *)
    destruct Hl as (Hlh & Hnb & Hr).
    pose proof (val_get _ _ Hlh) as Ev. rewrite (upd_val _ _ _ _ Ev).
    destruct (good_view hash m v [] h _ Hg Ev) as (o & Hd).
    pose proof Hd as (Eo & Eo' & H). unfold buckets in *. rewrite Eo in *.
    destruct o as [s|]; [|congruence].
    destruct H as (b & Hb & _). pose proof Hb as Hb'. unfold live in Hb'. rewrite Hb' in *.
    destruct (erase_unchecked_ok m v h _ s b tpos tlen Hg Ev Eo' Hb Hr) as (m' & E & Hx).
    rewrite E. apply Hx. reflexivity.
  - (* Insert *)
    pose proof (val_get _ _ Hl) as Ev. rewrite (upd_val _ _ _ _ Ev).
    apply (insert_ok m v h _ l Hg Ev).
  - contradiction.
Qed.

Lemma init_good : good init [] [].
Proof.
  split; [|split; [reflexivity|]].
  - intros s; destruct s; reflexivity.
  - intros h o x H; destruct h; discriminate.
Qed.
Lemma reach_good m v : reach eqb hash bkt_size block_size max_size m v -> good m v [].
Proof.
  induction 1 as [|m v s m' Hr IH Hl E]; [apply init_good|].
  pose proof (step_ok m v s IH Hl) as H. rewrite E in H. exact H.
Qed.

Lemma good_shows m v : good m v [] -> denotes eqb hash m v.
Proof.
  intros Hg. pose proof Hg as (_ & Hlen & _). unfold denotes.
  assert (H : forall h o x, nth_error (objs m) h = Some o -> nth_error v h = Some x -> shows eqb hash m o x).
  { intros h o x Eo Ex. destruct x as [l|].
    - assert (Ev : val v h = Some l) by (unfold val; rewrite Ex; reflexivity).
      destruct (good_view hash m v [] h l Hg Ev) as (o' & Hd).
      assert (o = Some o') by (pose proof (proj1 Hd); congruence). subst o. cbn.
      split; [|split; [eapply handle_nodup; exact Hd|split; [eapply handle_size; exact Hd|]]].
      + pose proof (handle_fine _ _ _ _ Hd) as Hf. destruct o' as [s|]; cbn in *.
        * destruct Hf as (b & Hb & HP). rewrite (block_live _ _ _ Hb). cbn. eauto.
        * subst l. eauto.
      + intros k. destruct (lookup_ok m h o' l k Hd) as (r & Er & Hr).
        exists r. split; [exact Er|]. destruct r as [[p w]|]; cbn.
        * symmetry. apply (assoc_in eqb eqb_ok); [eapply handle_nodup; exact Hd|apply Hr].
        * symmetry. apply (assoc_none eqb eqb_ok). exact Hr.
    - destruct Hg as (_ & _ & Hv). specialize (Hv h o None Eo Ex).
      destruct o as [[s|]|]; cbn in *; auto. }
  revert H Hlen. generalize (objs m) as os. generalize v as vs. clear.
  intros vs os H; revert vs H; induction os as [|o os IH]; intros [|x vs] H Hlen; cbn in *; try discriminate.
  - constructor.
  - constructor; [exact (H 0%nat o x eq_refl eq_refl)|]. apply IH; [|lia].
    intros h; exact (H (S h)).
Qed.
Lemma owners_users m s : owners (objs m) s = Z.of_nat (length (users m s)).
Proof.
  unfold users. induction (objs m) as [|o l IH]; cbn; [reflexivity|].
  rewrite IH. destruct o as [[s'|]|]; cbn; [|lia|lia].
  destruct (s' =? s)%nat; cbn [length]; lia.
Qed.
Lemma good_tidy m v : good m v [] -> tidy m.
Proof.
  intros (Hh & _ & _). split.
  - intros s. specialize (Hh s). split.
    + intros Ho. destruct (nth_error (blocks m) s) as [[b|]|]; [eauto| |];
        exfalso; apply In_nth_error in Ho; destruct Ho as [h Ho];
        pose proof (owners_one _ _ _ s Ho) as H1; cbn [osth] in H1; rewrite hit_self in H1; cbn in Hh; lia.
    + intros [b Hb]. rewrite Hb in Hh. apply owners_pos. cbn in Hh. lia.
  - intros s b Hb. specialize (Hh s). rewrite Hb in Hh. destruct Hh as (Hn & _ & Ht). cbn in Hn.
    rewrite Hn, Z.add_0_r, owners_users. split; [reflexivity|].
    destruct Ht as (Hw & Hc & _). rewrite <- (wf_count hash _ Hw). unfold capacity_of in Hc.
    pose proof (Nat.mul_div_le (length (bkts (tab b))) 2 ltac:(lia)). lia.
Qed.
Theorem map_values m v : reach eqb hash bkt_size block_size max_size m v -> denotes eqb hash m v /\ tidy m.
Proof. intros H; apply reach_good in H. split; [apply good_shows; exact H|eapply good_tidy; exact H]. Qed.

(* an operation throws only near the limit of sizes *)
Lemma small_throws m v s : good m v [] -> legal m v s -> throws m v s ->
  ~ small block_size max_size m v s.
Proof.
  intros Hg Hl Ht. unfold small; cbv zeta. intros (H17 & Hbs & Hb & Hs).
  assert (Hcap : forall h o, obj m h = Ok o -> (16 * cap_of m o <= max_size)%nat).
  { intros h o Eo. destruct o as [s'|]; cbn [cap_of]; [|lia].
    destruct (nth_error (blocks m) s') as [[b|]|] eqn:Eb; [|lia|lia].
    specialize (Hb b (nth_error_In _ _ Eb)). unfold capacity_of.
    pose proof (Nat.mul_div_le (length (bkts (tab b))) 2 ltac:(lia)). lia. }
  assert (Hlen : forall h, val v h <> None -> exists o, obj m h = Ok o /\
            (length (get v h) <= cap_of m o)%nat /\ (16 * cap_of m o <= max_size)%nat).
  { intros h Hv. destruct (good_view hash m v [] h _ Hg (val_get _ _ Hv)) as (o & Hd).
    exists o. split; [apply Hd|]. split; [eapply handle_cap; exact Hd|]. eapply Hcap; apply Hd. }
  assert (Hor : forall n c, (16 * n <= max_size)%nat -> (16 * c <= max_size)%nat ->
            (16 * Z.to_nat (Z.lor (Z.of_nat n) (Z.of_nat (c / 2))) <= 2 * max_size)%nat).
  { intros n c H1 H2. pose proof (Nat.mul_div_le c 2 ltac:(lia)).
    pose proof (lor_le (Z.of_nat n) (Z.of_nat (c / 2)) ltac:(lia) ltac:(lia)). lia. }
  assert (Hw : forall h n, val v h <> None -> (16 * n <= max_size)%nat -> ~ too_wide (get v h) n).
  { intros h n Hv Hn Hw. destruct (Hlen h Hv) as (o & _ & H1 & H2).
    pose proof (buckets_for_ok (Nat.max (length (get v h)) n)) as (_ & _ & H3).
    pose proof (Nat.mul_div_le (buckets_for (Nat.max (length (get v h)) n)) 2 ltac:(lia)).
    destruct Hw as [Hw|Hw]; lia. }
  assert (He : forall h, val v h <> None -> ~ too_big m h (get v h)).
  { intros h Hv (o' & Eo' & Hw'). destruct (Hlen h Hv) as (o & Eo & H1 & H2).
    assert (o' = o) by congruence. subst o'. pose proof (Hor 17%nat (cap_of m o) H17 H2) as H3.
    change (Z.of_nat 17) with 17 in H3. lia. }
  destruct s; cbn [throws legal] in *; try exact Ht.
  - exact (Hw _ _ Hl Hs Ht).
  - destruct (Hlen _ Hl) as (o & _ & H1 & H2). lia.
  - exact (Hw _ _ Hl Hs Ht).
  - exact (He _ Hl Ht).
  - exact (He _ Hl Ht).
  - exact (He _ Hl Ht).
  - destruct Ht as (o' & Eo' & Hw'). destruct (Hlen _ Hl) as (o & Eo & H1 & H2).
    assert (o' = o) by congruence. subst o'. pose proof (Hor _ (cap_of m o) Hs H2). lia.
Qed.
Theorem map_step m v s : reach eqb hash bkt_size block_size max_size m v -> legal m v s ->
  match run1 eqb hash bkt_size block_size max_size m s with
  | Ok m' => True
  | Throw => ~ small block_size max_size m v s
  | UB => False
  end.
Proof.
  intros Hr Hl. apply reach_good in Hr. pose proof (step_ok m v s Hr Hl) as H.
  destruct (run1 _ _ _ _ _ m s); [exact I| |exact H].
  eapply small_throws; eassumption.
Qed.
(* reserve makes room *)
Lemma reserve_room m h o l n : handle m h o l -> (0 < n)%nat ->
  forall m', reserve hash bkt_size block_size max_size m h n = Ok m' ->
  exists o' c, obj m' h = Ok o' /\ capacity m' o' = Ok c /\ (n <= c)%nat.
Proof.
  intros Hd Hn m'. unfold reserve. rewrite (proj1 (proj2 Hd)). cbn [obind].
  destruct (Nat.eqb_spec n 0) as [|_]; [lia|].
  rewrite (handle_size _ _ _ _ Hd). cbn [obind].
  unfold round_up_capacity. destruct (max_size <? Nat.max (length l) n)%nat; [discriminate|]. cbn [obind].
  rewrite (handle_unique _ _ _ _ Hd), (proj1 (handle_cap _ _ _ _ Hd)). cbn [obind].
  pose proof (half_cap (Nat.max (length l) n)) as Hh.
  set (rcap := (buckets_for (Nat.max (length l) n) / 2)%nat) in *.
  destruct (sole m o && (rcap <=? cap_of m o)%nat) eqn:Eb.
  - intros E; injection E as <-. apply andb_true_iff in Eb. destruct Eb as [_ Eb]. apply Nat.leb_le in Eb.
    exists o, (cap_of m o). split; [apply Hd|]. split; [apply (handle_cap _ _ _ _ Hd)|lia].
  - unfold reallocate_reserve. rewrite (handle_size _ _ _ _ Hd). cbn [obind].
    destruct (max_size <? length l + (rcap - length l))%nat; [discriminate|].
    set (cap := (length l + (rcap - length l))%nat).
    assert (Hc : (n <= buckets_for cap / 2)%nat) by (pose proof (half_cap cap); lia).
    assert (HI : forall m1 new, length (blocks m1) = length (blocks m) -> objs m1 = objs m ->
              (o = Some (length (blocks m)) -> False) -> length (bkts new) = buckets_for cap ->
              install m1 h o new = Ok m' ->
              exists o' c, obj m' h = Ok o' /\ capacity m' o' = Ok c /\ (n <= c)%nat).
    { intros m1 new Hl1 Ho1 Hne Hln E. unfold install in E.
      assert (Hob : forall m2, blocks m2 = blocks m1 ++ [Live (Storage 1 new)] ->
                objs m2 = set_nth (objs m1) h (Some (Some (length (blocks m1)))) -> forall m3, release m2 o = Ok m3 ->
                objs m3 = objs m2 /\ nth_error (blocks m3) (length (blocks m1)) = Some (Live (Storage 1 new))).
      { intros m2 Hb2 Ho2 m3 E3.
        assert (Hlast : nth_error (blocks m2) (length (blocks m1)) = Some (Live (Storage 1 new))).
        { rewrite Hb2, nth_error_app2 by lia. rewrite Nat.sub_diag. reflexivity. }
        destruct o as [s|]; cbn [release] in E3; [|injection E3 as <-; auto].
        unfold block in E3. destruct (nth_error (blocks m2) s) as [[b|]|] eqn:Es; try discriminate.
        cbn [obind] in E3.
        assert (Hs : s <> length (blocks m1)) by (rewrite Hl1; intros ->; apply Hne; reflexivity).
        destruct (nref b - 1 =? 0); injection E3 as <-; cbn [set_block objs blocks]; (split; [reflexivity|]);
          rewrite nth_set_other by exact Hs; exact Hlast. }
      edestruct Hob as [H1 H2]; [| |exact E|]; [reflexivity|reflexivity|].
      exists (Some (length (blocks m1))), (buckets_for cap / 2)%nat. split; [|split; [|exact Hc]].
      - unfold obj. rewrite H1. cbn [objs]. rewrite Ho1, nth_set_same; [reflexivity|].
        destruct Hd as (E0 & _). eapply nth_lt; exact E0.
      - cbn. unfold block. rewrite H2. cbn. unfold capacity_of. rewrite Hln. reflexivity. }
    assert (Hne : o = Some (length (blocks m)) -> False).
    { intros ->. destruct Hd as (_ & _ & (b & Hb & _)). apply nth_lt in Hb. lia. }
    destruct (Nat.eqb_spec (length l) 0) as [Ez|Hz]; cbn [negb andb].
    + cbn [obind]. apply HI; auto. cbn. apply repeat_length.
    + pose proof Hd as (_ & _ & H). destruct o as [s|]; [|subst l; contradiction].
      destruct H as (b & Hb & _ & Ht & HP & _). rewrite (block_live _ _ _ Hb). cbn [obind].
      unfold dispatch_transfer.
      destruct (transfer_ok eqb hash eqb_ok (nref b =? 1) (length (bkts (tab b))) 0 (tab b)
                  (empty_table (buckets_for cap))) as (old & new' & E & _ & _ & Hl' & _).
      * reflexivity.
      * apply empty_wf.
      * apply (wf_count hash), Ht.
      * cbn [skipn]. unfold keys. rewrite fresh_entries, app_nil_r. eapply tok_nodup; [exact Ht|reflexivity].
      * cbn [skipn]. rewrite (Permutation_length HP). change (nelem (empty_table (buckets_for cap))) with 0%nat.
        cbn [bkts empty_table]. rewrite repeat_length.
        pose proof (buckets_for_ok cap). lia.
      * rewrite E. cbn [obind]. apply HI; auto.
        -- cbn. apply set_nth_length.
        -- rewrite Hl'. cbn. apply repeat_length.
Qed.
Theorem map_reserve m v h n m' : reach eqb hash bkt_size block_size max_size m v -> val v h <> None ->
  run1 eqb hash bkt_size block_size max_size m (Reserve h n) = Ok m' ->
  exists o c, obj m' h = Ok o /\ capacity m' o = Ok c /\ (n <= c)%nat.
Proof.
  intros Hr Hv E. pose proof (reach_good _ _ Hr) as Hg.
  destruct (good_view hash m v [] h _ Hg (val_get _ _ Hv)) as (o & Hd).
  destruct n as [|n]; [|exact (reserve_room m h o _ (S n) Hd ltac:(lia) m' E)].
  assert (Hr' : reach eqb hash bkt_size block_size max_size m' (deep eqb m v (Reserve h 0))).
  { eapply r_step; [exact Hr|exact Hv|exact E]. }
  apply reach_good in Hr'. destruct (good_view hash m' _ [] h _ Hr' (val_get _ _ Hv)) as (o' & Hd').
  exists o', (cap_of m' o'). split; [apply Hd'|]. split; [apply (handle_cap _ _ _ _ Hd')|lia].
Qed.
End Steps.
