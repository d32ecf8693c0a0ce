(* Every operation does to the pairs of a map what it should. *)
From Verif Require Import Base Monad Lists SeqModel CowBase HashModel HashProofs XmemModel LinkModel LinkSpec LinkProofs1 LinkProofs2.
From Coq Require Import Permutation.

Section Maps.
Context {K V : Type}.
Variable eqb : K -> K -> bool.
Variable hash : K -> Z.
Variable live : V -> bool.
Variables bsz least : Z.
Hypothesis eqb_ok : forall a b, reflect (a = b) (eqb a b).
Hypothesis bsz_pos : 0 < bsz.
Hypothesis least_ok : 5 <= least < 2 ^ 31.
Notation cell := (cell K V).
Notation hmap := (hmap K V).
Notation view := (@view K V).
Notation place := (place hash).
Notation wf := (@wf K V hash).
Notation pooled := (pooled bsz).
Notation assoc := (@assoc K V eqb).
Notation without := (@without K V eqb).
Notation too_many := (too_many bsz least).

(* ---- pairs ---- *)
Lemma assoc_in (a : list (K * V)) k v : NoDup (map fst a) -> In (k, v) a -> assoc a k = Some v.
Proof.
  induction a as [|[k' v'] a IH]; cbn; intros Hn H; [contradiction|].
  apply NoDup_cons_iff in Hn. destruct Hn as [Hk Hn].
  destruct (eqb_ok k' k) as [->|Hne].
  - destruct H as [H|H]; [congruence|]. exfalso. apply Hk. apply (in_map fst) in H. exact H.
  - destruct H as [H|H]; [congruence|auto].
Qed.
Lemma assoc_out (a : list (K * V)) k : ~ In k (map fst a) -> assoc a k = None.
Proof.
  induction a as [|[k' v'] a IH]; cbn; intros H; [reflexivity|].
  destruct (eqb_ok k' k) as [->|]; [exfalso; apply H; auto|apply IH; auto].
Qed.
Lemma assoc_some (a : list (K * V)) k v : assoc a k = Some v -> In (k, v) a.
Proof.
  induction a as [|[k' v'] a IH]; cbn; intros H; [discriminate|].
  destruct (eqb_ok k' k) as [->|]; [left; congruence|auto].
Qed.
Lemma assoc_none (a : list (K * V)) k : assoc a k = None -> ~ In k (map fst a).
Proof.
  induction a as [|[k' v'] a IH]; cbn; intros H; [tauto|].
  destruct (eqb_ok k' k) as [->|Hne]; [discriminate|]. intros [E|E]; [congruence|exact (IH H E)].
Qed.
Lemma assoc_perm (a b : list (K * V)) k : NoDup (map fst a) -> Permutation a b -> assoc a k = assoc b k.
Proof.
  intros Hn HP. pose proof (nodup_perm_keys _ _ HP Hn) as Hn'.
  destruct (assoc b k) as [v|] eqn:E.
  - apply assoc_in; [exact Hn|]. apply assoc_some in E. apply (Permutation_in _ (Permutation_sym HP) E).
  - apply assoc_out. apply assoc_none in E. intros H. apply E.
    apply (Permutation_in _ (Permutation_map fst HP) H).
Qed.
Lemma without_none (a : list (K * V)) k : ~ In k (map fst a) -> without a k = a.
Proof.
  induction a as [|[k' v'] a IH]; cbn; intros H; [reflexivity|].
  destruct (eqb_ok k' k) as [->|]; cbn; [exfalso; apply H; auto|]. f_equal. apply IH. auto.
Qed.
Lemma without_perm (a b : list (K * V)) k : Permutation a b -> Permutation (without a k) (without b k).
Proof.
  intros H. induction H as [|x a b H IH|x y a|a b c H1 IH1 H2 IH2]; cbn.
  - constructor.
  - destruct (eqb (fst x) k); cbn; auto.
  - destruct (eqb (fst x) k), (eqb (fst y) k); cbn; auto. constructor.
  - rewrite IH1. exact IH2.
Qed.
Lemma without_one (a : list (K * V)) k v l : NoDup (map fst a) -> Permutation a ((k, v) :: l) ->
  Permutation l (without a k).
Proof.
  intros Hn HP. rewrite (without_perm _ _ _ HP). unfold LinkSpec.without. cbn [filter fst].
  destruct (eqb_ok k k) as [_|]; [|congruence]. cbn [negb]. fold (without l k).
  rewrite without_none; [reflexivity|]. apply (nodup_perm_keys _ _ HP) in Hn. cbn in Hn.
  apply NoDup_cons_iff in Hn. tauto.
Qed.

(* ---- a map and its pairs ---- *)
Record held (m : hmap) (n : nat) (order : list nat) (a : list (K * V)) : Prop := {
  h_ring : ring (cells m) n order;
  h_wf : wf (Table (size m) (view (cells m)));
  h_load : (2 * size m <= n)%nat;
  h_least : (5 <= n)%nat;
  h_perm : Permutation (entries (view (cells m))) a;
  h_pool : pooled (pool m) n }.
Definition good (m : hmap) (a : list (K * V)) : Prop :=
  (cells m = [] /\ size m = 0%nat /\ a = []) \/ exists n order, held m n order a.

Lemma held_size m n order a : held m n order a -> size m = length a.
Proof.
  intros H. pose proof (wf_count _ _ (h_wf _ _ _ _ H)) as Hc. cbn [nelem bkts] in Hc.
  rewrite Hc. apply Permutation_length. exact (h_perm _ _ _ _ H).
Qed.
Lemma held_keys m n order a : held m n order a -> NoDup (map fst a).
Proof.
  intros H. apply (nodup_perm_keys _ _ (h_perm _ _ _ _ H)). exact (wf_keys _ _ (h_wf _ _ _ _ H)).
Qed.
Lemma good_size m a : good m a -> size m = length a.
Proof. intros [(_ & Hs & ->)|(n & o & H)]; [exact Hs|eapply held_size; exact H]. Qed.
Lemma good_keys m a : good m a -> NoDup (map fst a).
Proof. intros [(_ & _ & ->)|(n & o & H)]; [constructor|eapply held_keys; exact H]. Qed.
Lemma held_perm m n o a b : held m n o a -> Permutation a b -> held m n o b.
Proof. intros [] HP. split; auto. rewrite <- HP. assumption. Qed.
Lemma held_lt m n o a : held m n o a -> (size m < n)%nat.
Proof. intros []. lia. Qed.
Lemma held_small m n o a : held m n o a -> Z.of_nat (size m) * 3 < 2 ^ 32.
Proof.
  intros [_ _ Hl _ _ (_ & _ & Hp)]. assert (Z.of_nat n + 1 <= 2 ^ 31) by nia. lia.
Qed.

Lemma ring_empty (cs : list cell) n : ring cs n [] -> entries (view cs) = [].
Proof.
  intros H. destruct (entries (view cs)) as [|kv l] eqn:E; [reflexivity|].
  assert (Hin : In kv (entries (view cs))) by (rewrite E; left; reflexivity).
  apply (entries_in hash) in Hin. destruct Hin as [p Hp]. destruct (view_iff _ _ _ _ _ H Hp) as [[] _].
Qed.
(* the values in the order of the list *)
Definition items (cs : list cell) (l : list nat) : list (K * V) :=
  flat_map (fun p => match nth_error (view cs) p with Some (Some kv) => [kv] | _ => [] end) l.
Lemma ring_items : forall order (cs : list cell) n, ring cs n order ->
  Permutation (items cs order) (entries (view cs)).
Proof.
  induction order as [|p order IH]; intros cs n H.
  - cbn. rewrite (ring_empty _ _ H). constructor.
  - destruct (view_in _ _ _ p H (or_introl eq_refl)) as (kv & _ & E).
    destruct (ring_detach cs n [] p order H) as (c1 & _ & H1 & V1). cbn [app] in H1.
    unfold items. cbn [flat_map]. fold (items cs order). rewrite E. cbn [app].
    rewrite (entries_set_none _ _ _ E). rewrite <- V1, <- (IH _ _ H1). constructor.
    pose proof (r_nodup _ _ _ H) as Hnd. apply NoDup_cons_iff in Hnd. destruct Hnd as [Hni _].
    assert (Hl : (p < length (view cs))%nat) by (eapply nth_lt; exact E).
    assert (HE : forall l, ~ In p l -> items cs l = items c1 l).
    { clear - V1 Hl. induction l as [|q l IHl]; intros Hn; [reflexivity|].
      unfold items; cbn [flat_map]; fold (items cs l) (items c1 l).
      rewrite IHl by (intros Hx; apply Hn; right; exact Hx). f_equal.
      assert (Eq : nth_error (view c1) q = nth_error (view cs) q).
      { rewrite V1, nth_set by exact Hl. destruct (Nat.eqb_spec p q) as [->|]; [exfalso; apply Hn; left; reflexivity|reflexivity]. }
      rewrite Eq. reflexivity. }
    rewrite (HE _ Hni). reflexivity.
Qed.
Lemma items_length (cs : list cell) : forall order, (forall p, In p order -> exists kv, nth_error (view cs) p = Some (Some kv)) ->
  length (items cs order) = length order.
Proof.
  induction order as [|p l IH]; intros H; [reflexivity|]. unfold items; cbn [flat_map]; fold (items cs l).
  destruct (H p (or_introl eq_refl)) as [kv ->]. cbn. f_equal. apply IH. intros q Hq. apply H. right; exact Hq.
Qed.
Lemma ring_count (cs : list cell) n order : ring cs n order -> length order = length (entries (view cs)).
Proof.
  intros H. rewrite <- (Permutation_length (ring_items _ _ _ H)). symmetry. apply items_length.
  intros p Hp. destruct (view_in _ _ _ _ H Hp) as (kv & _ & E). eauto.
Qed.

(* the first bucket of the list *)
Definition first (n : nat) (l : list nat) : nat := match l with [] => n | p :: _ => p end.
Lemma ring_first (cs : list cell) n order : ring cs n order ->
  exists e, at_ cs (head cs) = Ok e /\ nxt e = Some (first n order).
Proof.
  intros H. pose proof (ring_head _ _ _ H) as Hh. pose proof (r_len _ _ _ H) as Hl. rewrite Hh.
  destruct (at_ok cs n ltac:(lia)) as (e & E & En & _). exists e. split; [exact E|]. rewrite En.
  pose proof (r_chain _ _ _ H) as Hc. destruct order; cbn in *; tauto.
Qed.
Lemma ring_at (cs : list cell) n l1 p l2 : ring cs n (l1 ++ p :: l2) ->
  exists c kv, at_ cs p = Ok c /\ item c = Some kv /\ nth_error (view cs) p = Some (Some kv) /\
    nxt c = Some (first n l2) /\ (p < n)%nat.
Proof.
  intros H. assert (Hin : In p (l1 ++ p :: l2)) by (apply in_or_app; right; left; reflexivity).
  pose proof (r_lt _ _ _ H _ Hin) as Hp. pose proof (r_len _ _ _ H) as Hl.
  destruct (view_in _ _ _ _ H Hin) as (kv & E1 & E2).
  destruct (at_ok cs p ltac:(lia)) as (c & Ec & En & _ & Ei).
  exists c, kv. split; [exact Ec|]. split; [congruence|]. split; [exact E2|]. split; [|exact Hp].
  rewrite En. pose proof (r_chain _ _ _ H) as Hc. apply chain_split in Hc. destruct Hc as [_ Hc].
  destruct l2; cbn in *; tauto.
Qed.
Lemma first_head n (l : list nat) (cs : list cell) : (forall p, In p l -> (p < n)%nat) -> head cs = n ->
  (first n l =? head cs)%nat = match l with [] => true | _ => false end.
Proof.
  intros Hl Hh. rewrite Hh. destruct l as [|p l]; cbn; [apply Nat.eqb_refl|].
  apply Nat.eqb_neq. specialize (Hl p (or_introl eq_refl)). lia.
Qed.

Lemma no_entries h : entries (@repeat (bucket K V) None h) = [].
Proof. exact (entries_none h). Qed.

(* ---- reallocation ---- *)
Lemma drain_ok n n' : forall order fuel (old new : list cell) order' s, (length order < fuel)%nat ->
  ring old n order -> ring new n' order' -> wf (Table s (view new)) -> (s + length order <= n')%nat ->
  NoDup (map fst (entries (view old)) ++ keys (view new)) ->
  exists new' o', drain hash fuel old new = Ok new' /\ ring new' n' o' /\ wf (Table (s + length order) (view new')) /\
    Permutation (entries (view new')) (entries (view old) ++ entries (view new)).
Proof.
  induction order as [|p order IH]; intros fuel old new order' s Hf Ho Hn Hw Hs Hnd;
    (destruct fuel as [|fuel]; [cbn in Hf; lia|]); cbn [drain];
    destruct (ring_first _ _ _ Ho) as (e & Ee & En); rewrite Ee; cbn [obind]; rewrite En; cbn [deref obind];
    rewrite (first_head n _ old (r_lt _ _ _ Ho) (ring_head _ _ _ Ho)).
  - exists new, order'. split; [reflexivity|]. split; [exact Hn|]. cbn [length]. rewrite Nat.add_0_r.
    split; [exact Hw|]. rewrite (ring_empty _ _ Ho). reflexivity.
  - cbn [first]. destruct (ring_at old n [] p order Ho) as (c & kv & Ec & Ei & Ev & _ & Hp). rewrite Ec; cbn [obind].
    rewrite Ei. pose proof (entries_set_none _ _ _ Ev) as HP.
    destruct (ring_detach old n [] p order Ho) as (o1 & E1 & H1 & V1). cbn [app] in H1. rewrite <- V1 in HP.
    assert (HndP : NoDup (fst kv :: map fst (entries (view o1)) ++ keys (view new))).
    { eapply Permutation_NoDup; [|exact Hnd]. rewrite HP. reflexivity. }
    apply NoDup_cons_iff in HndP. destruct HndP as [Hnk HndP]. cbn [length] in Hs, Hf.
    destruct (place_ok eqb hash eqb_ok new n' order' s kv Hn Hw ltac:(lia)) as (new1 & o2 & E2 & H2 & W2 & P2).
    { intros Hx. apply Hnk, in_or_app. right; exact Hx. }
    rewrite E2; cbn [obind]. rewrite E1; cbn [obind].
    destruct (IH fuel o1 new1 o2 (S s)) as (new' & o' & E3 & H3 & W3 & P3); try assumption; try lia.
    + eapply Permutation_NoDup; [|exact (proj2 (NoDup_cons_iff _ _) (conj Hnk HndP))].
      unfold keys at 2. rewrite P2. cbn [map]. apply Permutation_middle.
    + exists new', o'. split; [exact E3|]. split; [exact H3|]. split.
      * replace (s + length (p :: order))%nat with (S s + length order)%nat by (cbn; lia). exact W3.
      * rewrite P3, P2, HP. cbn [app]. symmetry. apply Permutation_middle.
Qed.
Lemma reallocate_ok m a n : good m a -> 5 <= n -> Z.of_nat (size m) * 2 <= n ->
  match reallocate hash bsz m n with
  | Ok m' => exists n' o', held m' n' o' a /\ size m' = size m /\ n <= Z.of_nat n'
  | Throw => 0x7FFE0000 / bsz <= n
  | UB => False
  end.
Proof.
  intros Hg Hn Hs. unfold reallocate. pose proof (@allocate_ok K V bsz bsz_pos n Hn) as HA.
  destruct (allocate bsz n) as [[p cs]| |]; cbn [obind]; [|exact HA|exact HA].
  destruct HA as (h & Hh & Hr & Hv & Hp).
  destruct (Z.ltb_spec n (Z.of_nat (size m) * 2)) as [|_]; [lia|].
  assert (Hwe : wf (Table 0 (view cs))).
  { rewrite Hv. exact (empty_wf hash h). }
  destruct Hg as [(Hc & Hs0 & ->)|(n0 & o & H)].
  - rewrite Hc. exists h, []. split; [|split; [reflexivity|lia]].
    split; cbn [size cells pool]; try assumption; try lia.
    + rewrite Hs0. exact Hwe.
    + rewrite Hv, no_entries. constructor.
  - destruct (cells m) as [|c0 cs0] eqn:Ec.
    { pose proof (r_len _ _ _ (h_ring _ _ _ _ H)) as Hl. rewrite Ec in Hl. discriminate. }
    rewrite <- Ec. pose proof (h_ring _ _ _ _ H) as Hring. pose proof (ring_count _ _ _ Hring) as Hcount.
    pose proof (wf_count _ _ (h_wf _ _ _ _ H)) as Hsz. cbn [nelem bkts] in Hsz.
    destruct (drain_ok n0 h o (length (cells m)) (cells m) cs [] 0) as (new' & o' & E & H' & W' & P'); try assumption.
    + rewrite (r_len _ _ _ Hring). pose proof (h_load _ _ _ _ H). lia.
    + lia.
    + unfold keys. rewrite Hv, no_entries. cbn [map]. rewrite app_nil_r. exact (wf_keys _ _ (h_wf _ _ _ _ H)).
    + rewrite E; cbn [obind]. unfold release. rewrite (ring_head _ _ _ Hring).
      destruct (h_pool _ _ _ _ H) as ((r1 & Ep1) & _ & _).
      rewrite Nat2Z.inj_add. change (Z.of_nat 1) with 1. rewrite Ep1; cbn [obind]. rewrite Z.eqb_refl; cbn [obind].
      exists h, o'. split; [|split; [reflexivity|lia]].
      split; cbn [size cells pool]; try assumption; try lia.
      * cbn [Nat.add] in W'. rewrite Hcount, <- Hsz in W'. exact W'.
      * rewrite P', Hv, no_entries, app_nil_r. exact (h_perm _ _ _ _ H).
Qed.

(* ---- the operations ---- *)
Lemma probe_ok m n o a k : held m n o a ->
  exists p x, probe eqb hash m k = Ok (p, x) /\ nth_error (view (cells m)) p = Some x /\
    (forall q, (q < n)%nat -> between (origin hash n k) p q -> nth_error (view (cells m)) q <> Some None) /\
    match x with
    | Some kv => fst kv = k /\ assoc a k = Some (snd kv)
    | None => assoc a k = None /\ ~ In k (keys (view (cells m)))
    end.
Proof.
  intros H. pose proof (h_ring _ _ _ _ H) as Hr. pose proof (view_length _ _ _ Hr) as Hl.
  destruct (find_ok eqb hash eqb_ok (Table (size m) (view (cells m))) k (h_wf _ _ _ _ H)) as (p & x & E & Ex & Hq & Hx).
  { cbn [nelem bkts]. rewrite Hl. eapply held_lt; exact H. }
  cbn [bkts] in *. rewrite Hl in *. exists p, x. split.
  - unfold HashModel.find in E. cbn [bkts] in E. rewrite Hl in E. unfold probe. rewrite (ring_head _ _ _ Hr). exact E.
  - split; [exact Ex|]. split; [exact Hq|]. pose proof (h_perm _ _ _ _ H) as HP. pose proof (held_keys _ _ _ _ H) as Hk.
    destruct x as [kv|].
    + split; [exact Hx|]. apply assoc_in; [exact Hk|]. apply (Permutation_in _ HP). apply (entries_in hash).
      exists p. destruct kv; cbn in *; subst; exact Ex.
    + split; [|exact Hx]. apply assoc_out. intros Hin. apply Hx. unfold keys.
      apply (Permutation_in _ (Permutation_sym (Permutation_map fst HP)) Hin).
Qed.
Lemma good_room m a : good m a ->
  match (if (head (cells m) / 2 <=? size m)%nat
         then reallocate hash bsz m (Z.lor (Z.of_nat (size m) * 3 mod 2 ^ 32) least) else Ok m) with
  | Ok m' => exists n o, held m' n o a /\ (2 * (size m' + 1) <= n)%nat
  | Throw => too_many (length a)
  | UB => False
  end.
Proof.
  intros Hg. destruct (Nat.leb_spec (head (cells m) / 2) (size m)) as [Hle|Hlt].
  - assert (Hsm : Z.of_nat (size m) * 3 < 2 ^ 32).
    { destruct Hg as [(_ & -> & _)|(n & o & H)]; [reflexivity|eapply held_small; exact H]. }
    rewrite Z.mod_small by lia.
    destruct (lor_le (Z.of_nat (size m) * 3) least ltac:(lia) ltac:(lia)) as [H1 H2].
    destruct (lor_le least (Z.of_nat (size m) * 3) ltac:(lia) ltac:(lia)) as [H3 _]. rewrite Z.lor_comm in H3.
    set (w := Z.lor (Z.of_nat (size m) * 3) least) in *. clearbody w.
    pose proof (reallocate_ok m a w Hg ltac:(lia) ltac:(lia)) as HR.
    destruct (reallocate hash bsz m w) as [m'| |]; [|unfold LinkSpec.too_many; rewrite <- (good_size _ _ Hg); lia|exact HR].
    destruct HR as (n' & o' & H & Es & Hw). exists n', o'. split; [exact H|]. lia.
  - destruct Hg as [(Hc & Hs & _)|(n & o & H)].
    + rewrite Hc, Hs in Hlt. cbn in Hlt. lia.
    + exists n, o. split; [exact H|]. rewrite (ring_head _ _ _ (h_ring _ _ _ _ H)) in Hlt.
      pose proof (Nat.mul_div_le n 2 ltac:(lia)). lia.
Qed.
Lemma insert_ok m a k v : good m a ->
  match insert eqb hash bsz least m k v with
  | Ok (m', p, b) => exists n o,
      if b : bool then assoc a k = None /\ held m' n o ((k, v) :: a) /\ nth_error (view (cells m')) p = Some (Some (k, v))
      else exists w, assoc a k = Some w /\ held m' n o a /\ nth_error (view (cells m')) p = Some (Some (k, w))
  | Throw => too_many (length a)
  | UB => False
  end.
Proof.
  intros Hg. unfold insert. pose proof (good_room m a Hg) as HR.
  destruct (if (head (cells m) / 2 <=? size m)%nat then _ else _) as [m1| |]; cbn [obind]; [|exact HR|exact HR].
  destruct HR as (n & o & H & Hroom). clear Hg.
  destruct (probe_ok m1 n o a k H) as (p & x & E & Ex & Hq & Hx). rewrite E; cbn [obind].
  destruct x as [[k' w]|].
  - cbn [fst snd] in Hx. destruct Hx as [-> Ha]. exists n, o, w. auto.
  - destruct Hx as [Ha Hk]. pose proof (h_ring _ _ _ _ H) as Hr. pose proof (view_length _ _ _ Hr) as Hvl.
    assert (Hp : (p < n)%nat) by (rewrite <- Hvl; eapply nth_lt; exact Ex).
    assert (Hni : ~ In p o) by (intros Hin; destruct (view_in _ _ _ _ Hr Hin) as (kv & _ & E'); congruence).
    destruct (ring_attach (cells m1) n o p (k, v) Hr Hp Hni) as (c1 & cs & E1 & Hh & E2 & Hr' & Hv).
    rewrite E1; cbn [obind]. rewrite Hh, E2; cbn [obind].
    exists n, (p :: o). cbn [cells]. split; [exact Ha|].
    destruct (adopt_at_ok hash (Table (size m1) (view (cells m1))) p (k, v) (h_wf _ _ _ _ H) Ex Hk) as (t' & Et & Wt & _ & _ & _ & Pt).
    { cbn [bkts fst]. rewrite Hvl. exact Hq. }
    unfold adopt_at in Et. cbn [bkts nelem] in Et. rewrite Ex in Et. injection Et as <-. cbn [bkts] in *.
    rewrite <- Hv in *.
    split.
    + split; cbn [cells size pool]; try assumption.
      * lia.
      * exact (h_least _ _ _ _ H).
      * rewrite Pt. constructor. exact (h_perm _ _ _ _ H).
      * exact (h_pool _ _ _ _ H).
    + rewrite Hv. apply nth_set_same. lia.
Qed.
Lemma wf_write (t : table K V) p k w v : wf t -> nth_error (bkts t) p = Some (Some (k, w)) ->
  wf (Table (nelem t) (set_nth (bkts t) p (Some (k, v)))) /\
  exists l, Permutation (entries (bkts t)) ((k, w) :: l) /\
            Permutation (entries (set_nth (bkts t) p (Some (k, v)))) ((k, v) :: l).
Proof.
  intros [Hl Hn Hc] E. pose proof (nth_lt _ _ _ E) as Hp.
  assert (Hs : exists l, Permutation (entries (bkts t)) ((k, w) :: l) /\
            Permutation (entries (set_nth (bkts t) p (Some (k, v)))) ((k, v) :: l)).
  { exists (entries (firstn p (bkts t)) ++ entries (skipn (S p) (bkts t))).
    rewrite (split_nth _ _ _ E) at 1. rewrite set_nth_split by exact Hp. rewrite !entries_app. cbn [entries].
    split; symmetry; apply Permutation_middle. }
  destruct Hs as (l & P1 & P2). split; [|eauto]. split; cbn [bkts nelem].
  - intros q kv Eq r Hr Hb. rewrite set_nth_length in *. rewrite nth_set in Eq by exact Hp.
    rewrite nth_set by exact Hp. destruct (Nat.eqb_spec p r) as [|Hne]; [discriminate|].
    destruct (Nat.eqb_spec p q) as [->|].
    + injection Eq as <-. exact (Hl q (k, w) E r Hr Hb).
    + exact (Hl q kv Eq r Hr Hb).
  - unfold keys in *. rewrite P2. cbn [map fst]. apply (nodup_perm_keys _ _ P1) in Hn. exact Hn.
  - rewrite Hc, (Permutation_length P1), (Permutation_length P2). reflexivity.
Qed.
Lemma write_ok m n o a p k w v : held m n o a -> nth_error (view (cells m)) p = Some (Some (k, w)) ->
  exists m', write_at m p v = Ok m' /\ held m' n o ((k, v) :: without a k).
Proof.
  intros H E. pose proof (h_ring _ _ _ _ H) as Hr. destruct (view_iff _ _ _ _ _ Hr E) as [Hin Hit].
  pose proof (r_lt _ _ _ Hr _ Hin) as Hp. pose proof (r_len _ _ _ Hr) as Hl.
  unfold write_at. destruct (at_ok (cells m) p ltac:(lia)) as (c & Ec & _ & _ & Ei). rewrite Ec; cbn [obind].
  rewrite Ei, Hit. destruct (upd_item (cells m) p (k, v) ltac:(lia)) as (c1 & E1 & L1 & I1 & N1 & P1).
  rewrite E1; cbn [obind]. eexists; split; [reflexivity|].
  assert (Hv : view c1 = set_nth (view (cells m)) p (Some (k, v))).
  { apply (view_ext (cells m)); [exact L1|rewrite set_nth_length, (view_length _ _ _ Hr), (ring_head _ _ _ Hr); reflexivity|].
    intros q Hq. rewrite (ring_head _ _ _ Hr) in Hq. rewrite nth_set by (rewrite (view_length _ _ _ Hr); exact Hp).
    rewrite N1, I1, (Nat.eqb_sym q p). destruct (Nat.eqb_spec p q) as [->|].
    - pose proof (chain_nx _ _ _ _ q (r_chain _ _ _ Hr) (or_intror Hin)) as Hx. destruct (nx (cells m) q); [reflexivity|exfalso; apply Hx; reflexivity].
    - apply (view_at _ _ _ _ Hr Hq). }
  destruct (wf_write (Table (size m) (view (cells m))) p k w v (h_wf _ _ _ _ H) E) as (Hw & l & PA & PB).
  cbn [bkts nelem] in *. rewrite <- Hv in *.
  split; cbn [cells size pool].
  - destruct Hr as [R1 R2 R3 R4 R5 R6]. split; try assumption.
    + lia.
    + apply (chain_frame (cells m)); auto.
    + intros q Hq Hx. rewrite N1 in Hx. auto.
    + intros q Hq. rewrite I1. destruct (q =? p)%nat; [discriminate|auto].
  - exact Hw.
  - exact (h_load _ _ _ _ H).
  - exact (h_least _ _ _ _ H).
  - rewrite PB. constructor. apply (without_one a k w); [eapply held_keys; exact H|].
    rewrite <- (h_perm _ _ _ _ H). exact PA.
  - exact (h_pool _ _ _ _ H).
Qed.
Lemma remove_held m n o a p k v : held m n o a -> nth_error (view (cells m)) p = Some (Some (k, v)) ->
  exists cs o', remove_at hash (cells m) p = Ok cs /\ held (HMap (size m - 1) (pool m) cs) n o' (without a k) /\
    (0 < size m)%nat /\ Permutation a ((k, v) :: without a k).
Proof.
  intros H E.
  destruct (remove_ok eqb hash eqb_ok (cells m) n o (size m) p (k, v) (h_ring _ _ _ _ H) (h_wf _ _ _ _ H) (held_lt _ _ _ _ H) E)
    as (cs & o' & E1 & H1 & W1 & Hs & P1).
  rewrite (h_perm _ _ _ _ H) in P1. pose proof (without_one _ _ _ _ (held_keys _ _ _ _ H) P1) as PW.
  exists cs, o'. split; [exact E1|]. split; [|split; [exact Hs|rewrite <- PW; exact P1]].
  split; cbn [cells size pool]; try assumption.
  - pose proof (h_load _ _ _ _ H). lia.
  - exact (h_least _ _ _ _ H).
  - exact (h_pool _ _ _ _ H).
Qed.
Lemma erase_ok m a k : good m a ->
  exists m', erase eqb hash m k = Ok (m', assoc a k) /\ good m' (without a k).
Proof.
  intros Hg. unfold erase. pose proof (good_size _ _ Hg) as Hs.
  destruct (Nat.eqb_spec (size m) 0) as [Hz|Hz].
  - rewrite Hz in Hs. destruct a as [|x a]; [|discriminate]. exists m. split; [reflexivity|exact Hg].
  - destruct Hg as [(_ & Hz' & _)|(n & o & H)]; [contradiction|].
    destruct (probe_ok m n o a k H) as (p & x & E & Ex & _ & Hx). rewrite E; cbn [obind].
    destruct x as [[k' v]|]; cbn [fst snd] in Hx.
    + destruct Hx as [-> Ha]. destruct (remove_held _ _ _ _ _ _ _ H Ex) as (cs & o' & E1 & H1 & _ & _).
      rewrite E1; cbn [obind]. cbn [snd]. rewrite Ha. eexists; split; [reflexivity|]. right; eauto.
    + destruct Hx as [Ha Hk]. rewrite Ha. exists m. split; [reflexivity|].
      rewrite without_none; [right; eauto|]. apply assoc_none; exact Ha.
Qed.
Lemma find_good m a k : good m a ->
  exists r, find eqb hash m k = Ok r /\ option_map snd r = assoc a k /\
    (forall p v, r = Some (p, v) -> nth_error (view (cells m)) p = Some (Some (k, v)) /\ exists n o, held m n o a).
Proof.
  intros [(Hc & Hs & ->)|(n & o & H)]; unfold find.
  - rewrite Hc. cbn. exists None. split; [reflexivity|]. split; [reflexivity|]. discriminate.
  - rewrite (ring_head _ _ _ (h_ring _ _ _ _ H)). pose proof (h_least _ _ _ _ H).
    destruct (Nat.eqb_spec n 0); [lia|].
    destruct (probe_ok m n o a k H) as (p & x & E & Ex & _ & Hx). rewrite E; cbn [obind].
    eexists; split; [reflexivity|]. destruct x as [[k' v]|]; cbn [fst snd option_map] in *.
    + destruct Hx as [-> Ha]. split; [congruence|]. intros p' v' E'. injection E' as <- <-. split; [exact Ex|eauto].
    + split; [symmetry; tauto|discriminate].
Qed.

Lemma view_empty (cs : list cell) n : ring cs n [] -> view cs = repeat None n.
Proof.
  intros H. apply (view_ext cs); [reflexivity|rewrite repeat_length, (ring_head _ _ _ H); reflexivity|].
  intros p Hp. rewrite (ring_head _ _ _ H) in Hp. rewrite nth_error_repeat by exact Hp.
  rewrite <- (view_at _ _ _ _ H Hp). symmetry. apply (view_out _ _ _ _ H Hp). intros [].
Qed.
Lemma empty_out_ok n : forall o fuel (m : hmap), ring (cells m) n o -> size m = length o -> (length o < fuel)%nat ->
  exists m', empty_out fuel m = Ok m' /\ ring (cells m') n [] /\ size m' = 0%nat /\ pool m' = pool m.
Proof.
  induction o as [|p o IH]; intros fuel m Hr Hs Hf; (destruct fuel as [|fuel]; [cbn in Hf; lia|]); cbn [empty_out];
    destruct (ring_first _ _ _ Hr) as (e & Ee & En);
    rewrite Ee; cbn [obind]; rewrite En; cbn [deref obind];
    rewrite (first_head n _ (cells m) (r_lt _ _ _ Hr) (ring_head _ _ _ Hr)).
  - exists m. auto.
  - cbn [first]. destruct (ring_detach (cells m) n [] p o Hr) as (c1 & E1 & H1 & V1). cbn [app] in H1.
    rewrite Hs. cbn [length] in *. rewrite E1; cbn [obind].
    destruct (IH fuel (HMap (length o) (pool m) c1)) as (m' & E2 & H2 & H3 & H4); cbn [cells size pool] in *; try lia; auto.
    exists m'. auto.
Qed.
Lemma do_clear_ok m n o a free : held m n o a ->
  exists m', do_clear bsz m free = Ok m' /\ good m' [].
Proof.
  intros H. pose proof (h_ring _ _ _ _ H) as Hr. unfold do_clear.
  pose proof (wf_count _ _ (h_wf _ _ _ _ H)) as Hc. cbn [nelem bkts] in Hc. rewrite <- (ring_count _ _ _ Hr) in Hc.
  pose proof (h_load _ _ _ _ H). pose proof (h_least _ _ _ _ H) as H5. pose proof (h_pool _ _ _ _ H) as HP.
  destruct (empty_out_ok n o (length (cells m)) m Hr Hc) as (m1 & E1 & H1 & S1 & P1).
  { rewrite (r_len _ _ _ Hr). lia. }
  rewrite E1; cbn [obind]. destruct free.
  - unfold release. rewrite (ring_head _ _ _ H1). destruct HP as (_ & (r2 & Ep) & _). rewrite Ep; cbn [obind].
    rewrite P1, Z.eqb_refl; cbn [obind]. cbn [size]. rewrite S1. cbn. eexists; split; [reflexivity|]. left. auto.
  - cbn [obind]. rewrite S1. cbn. exists m1. split; [reflexivity|]. right. exists n, [].
    pose proof (view_empty _ _ H1) as Hv.
    split; try assumption; try lia.
    + rewrite Hv, S1. exact (empty_wf hash n).
    + rewrite Hv, no_entries. constructor.
    + rewrite P1. exact HP.
Qed.
Lemma destroy_ok m a : good m a -> destroy bsz m = Ok tt.
Proof.
  intros [(Hc & _ & _)|(n & o & H)]; unfold destroy; [rewrite Hc; reflexivity|].
  destruct (do_clear_ok m n o a true H) as (m' & E & _). rewrite E. destruct (cells m); reflexivity.
Qed.
Lemma clear_ok m a : good m a -> exists m', clear bsz m = Ok m' /\ good m' [].
Proof.
  intros Hg. unfold clear. pose proof (good_size _ _ Hg) as Hs.
  destruct (Nat.eqb_spec (size m) 0) as [Hz|Hz].
  - rewrite Hz in Hs. destruct a as [|x a]; [|discriminate]. eauto.
  - destruct Hg as [(_ & Hz' & _)|(n & o & H)]; [contradiction|]. eapply do_clear_ok; exact H.
Qed.

(* what merging leaves in the other map *)
Definition merged (b l : list (K * V)) (w : list (K * V)) : Prop :=
  NoDup (map fst w) /\ (length w <= length b + length l)%nat /\
  forall k, assoc w k = match assoc b k with
                        | Some x => Some x
                        | None => match assoc l k with Some x => if live x then Some x else None | None => None end
                        end.
Lemma merge_from_ok (cs : list cell) n : forall l2 l1 fuel (m : hmap) b,
  ring cs n (l1 ++ l2) -> NoDup (map fst (items cs l2)) -> (length l2 < fuel)%nat -> good m b ->
  match merge_from eqb hash live bsz least fuel cs (first n l2) m with
  | Ok m' => exists w, good m' w /\ merged b (items cs l2) w
  | Throw => too_many (length b + length l2)
  | UB => False
  end.
Proof.
  induction l2 as [|p l2 IH]; intros l1 fuel m b Hr Hnd Hf Hg; (destruct fuel as [|fuel]; [cbn in Hf; lia|]); cbn [merge_from].
  - cbn [first]. rewrite (ring_head _ _ _ Hr), Nat.eqb_refl. exists b. split; [exact Hg|].
    split; [eapply good_keys; exact Hg|]. split; [lia|]. intros k. cbn. destruct (assoc b k); reflexivity.
  - cbn [first]. destruct (ring_at cs n l1 p l2 Hr) as (c & [k v] & Ec & Ei & Ev & En & Hp).
    rewrite (ring_head _ _ _ Hr). destruct (Nat.eqb_spec p n); [lia|].
    rewrite Ec; cbn [obind]. rewrite Ei. cbn [length] in Hf.
    assert (Hit : items cs (p :: l2) = (k, v) :: items cs l2).
    { unfold items; cbn [flat_map]; fold (items cs l2). rewrite Ev. reflexivity. }
    rewrite Hit in Hnd |- *. cbn [map fst] in Hnd. apply NoDup_cons_iff in Hnd. destruct Hnd as [Hnk Hnd].
    assert (Hr' : ring cs n ((l1 ++ [p]) ++ l2)) by (rewrite <- app_assoc; exact Hr).
    assert (Hout : assoc (items cs l2) k = None) by (apply assoc_out; exact Hnk).
    assert (Hskip : forall m1, good m1 b -> (forall x, assoc b k = None -> live v = false \/ x) ->
      match merge_from eqb hash live bsz least fuel cs (first n l2) m1 with
      | Ok m' => exists w, good m' w /\ merged b ((k, v) :: items cs l2) w
      | Throw => too_many (length b + length (p :: l2))
      | UB => False
      end).
    { intros m1 Hg1 Hx. specialize (IH (l1 ++ [p]) fuel m1 b Hr' Hnd ltac:(lia) Hg1).
      destruct (merge_from eqb hash live bsz least fuel cs (first n l2) m1) as [m'| |].
      - destruct IH as (w & Hgw & W1 & W2 & W3). exists w. split; [exact Hgw|]. split; [exact W1|]. split; [cbn; lia|].
        intros k'. rewrite W3. destruct (assoc b k') as [x|] eqn:Eb; [reflexivity|]. cbn [LinkSpec.assoc].
        destruct (eqb_ok k k') as [<-|]; [|reflexivity]. rewrite Hout.
        destruct (Hx False Eb) as [->|[]]. reflexivity.
      - revert IH. unfold LinkSpec.too_many. cbn [length]. lia.
      - exact IH. }
    destruct (live v) eqn:Elive.
    + pose proof (insert_ok m b k v Hg) as HI.
      destruct (insert eqb hash bsz least m k v) as [[[m1 q] new]| |]; cbn [obind fst];
        [|revert HI; unfold LinkSpec.too_many; cbn [length]; lia|exact HI].
      rewrite En; cbn [deref obind]. destruct HI as (n1 & o1 & HI). destruct new.
      * destruct HI as (Ha & Hh & _).
        specialize (IH (l1 ++ [p]) fuel m1 ((k, v) :: b) Hr' Hnd ltac:(lia) (or_intror (ex_intro _ n1 (ex_intro _ o1 Hh)))).
        destruct (merge_from eqb hash live bsz least fuel cs (first n l2) m1) as [m'| |].
        -- destruct IH as (w & Hgw & W1 & W2 & W3). exists w. split; [exact Hgw|]. split; [exact W1|].
           split; [cbn in *; lia|]. intros k'. rewrite W3. cbn [LinkSpec.assoc].
           destruct (eqb_ok k k') as [<-|]; [|reflexivity]. rewrite Ha, Elive. reflexivity.
        -- revert IH. unfold LinkSpec.too_many. cbn [length]. lia.
        -- exact IH.
      * destruct HI as (w & Ha & Hh & _). apply Hskip; [right; eauto|]. intros x Hx. congruence.
    + cbn [obind]. rewrite En; cbn [deref obind]. apply Hskip; [exact Hg|]. auto.
Qed.
Lemma merge_ok m a other b : good m a -> good other b ->
  match merge_into eqb hash live bsz least m other with
  | Ok m' => exists w, good m' w /\ merged b a w
  | Throw => too_many (length b + length a)
  | UB => False
  end.
Proof.
  intros Hg Ho. unfold merge_into. pose proof (good_size _ _ Hg) as Hs.
  destruct (Nat.eqb_spec (size m) 0) as [Hz|Hz].
  - rewrite Hz in Hs. destruct a as [|x a]; [|discriminate]. exists b. split; [exact Ho|].
    split; [eapply good_keys; exact Ho|]. split; [lia|]. intros k; cbn. destruct (assoc b k); reflexivity.
  - destruct Hg as [(_ & Hz' & _)|(n & o & H)]; [contradiction|].
    pose proof (h_ring _ _ _ _ H) as Hr. destruct (ring_first _ _ _ Hr) as (e & Ee & En).
    rewrite Ee; cbn [obind]. rewrite En; cbn [deref obind].
    pose proof (ring_items _ _ _ Hr) as HP. rewrite (h_perm _ _ _ _ H) in HP.
    pose proof (held_keys _ _ _ _ H) as Hk. pose proof (nodup_perm_keys _ _ (Permutation_sym HP) Hk) as Hk'.
    pose proof (ring_count _ _ _ Hr) as Hc. rewrite (Permutation_length (h_perm _ _ _ _ H)) in Hc.
    pose proof (merge_from_ok (cells m) n o [] (length (cells m)) other b Hr Hk') as HM.
    assert (Hfuel : (length o < length (cells m))%nat).
    { rewrite (r_len _ _ _ Hr), Hc, <- Hs. pose proof (h_load _ _ _ _ H). lia. }
    specialize (HM Hfuel Ho).
    destruct (merge_from eqb hash live bsz least (length (cells m)) (cells m) (first n o) other) as [m'| |].
    + destruct HM as (w & Hgw & W1 & W2 & W3). exists w. split; [exact Hgw|]. split; [exact W1|].
      split; [rewrite (Permutation_length HP) in W2; exact W2|].
      intros k. rewrite W3, (assoc_perm _ _ k Hk' HP). reflexivity.
    + rewrite Hc in HM. exact HM.
    + exact HM.
Qed.
Notation nulls := (@nulls K V live).
Lemma extract_ok : forall fuel m a var, good m a -> (size m < fuel)%nat ->
  exists m' b x w gone, extract_from hash live fuel m var = Ok (m', b, x) /\ good m' w /\ nulls gone /\
    if b : bool then live x = true /\ exists k, Permutation a (gone ++ (k, x) :: w)
    else w = [] /\ Permutation a gone /\ (gone = [] -> x = var) /\ (gone <> [] -> live x = false).
Proof.
  induction fuel as [|fuel IH]; intros m a var Hg Hf; [lia|]. cbn [extract_from].
  pose proof (good_size _ _ Hg) as Hs.
  destruct (Nat.eqb_spec (size m) 0) as [Hz|Hz].
  - rewrite Hz in Hs. destruct a as [|y a]; [|discriminate]. exists m, false, var, [], []. split; [reflexivity|].
    split; [exact Hg|]. split; [constructor|]. split; [reflexivity|]. split; [constructor|]. split; [reflexivity|congruence].
  - destruct Hg as [(_ & Hz' & _)|(n & o & H)]; [contradiction|].
    pose proof (h_ring _ _ _ _ H) as Hr. destruct (ring_first _ _ _ Hr) as (e & Ee & En).
    rewrite Ee; cbn [obind]. rewrite En; cbn [deref obind].
    rewrite (first_head n _ (cells m) (r_lt _ _ _ Hr) (ring_head _ _ _ Hr)).
    destruct o as [|p o].
    { pose proof (ring_count _ _ _ Hr) as Hc. rewrite (Permutation_length (h_perm _ _ _ _ H)) in Hc. cbn in Hc. lia. }
    cbn [first]. destruct (ring_at (cells m) n [] p o Hr) as (c & [k v] & Ec & Ei & Ev & _ & Hp).
    rewrite Ec; cbn [obind]. rewrite Ei.
    destruct (remove_held _ _ _ _ _ _ _ H Ev) as (cs & o' & E1 & H1 & Hs1 & P1). rewrite E1; cbn [obind].
    destruct (live v) eqn:El.
    + eexists _, true, v, (without a k), []. split; [reflexivity|]. split; [right; eauto|]. split; [constructor|].
      split; [exact El|]. exists k. exact P1.
    + destruct (IH (HMap (size m - 1) (pool m) cs) (without a k) v) as (m' & b & x & w & gone & E2 & Hg2 & Hn2 & H2).
      * right; eauto.
      * cbn [size]. lia.
      * exists m', b, x, w, ((k, v) :: gone). split; [exact E2|]. split; [exact Hg2|].
        split; [constructor; [exact El|exact Hn2]|]. destruct b.
        -- destruct H2 as [Hx (k' & P2)]. split; [exact Hx|]. exists k'. rewrite P1, P2. reflexivity.
        -- destruct H2 as (Hw & P2 & H3 & H4). split; [exact Hw|]. split; [rewrite P1, P2; reflexivity|].
           split; [discriminate|]. intros _. destruct gone as [|g gone]; [rewrite H3; auto|apply H4; discriminate].
Qed.
End Maps.
