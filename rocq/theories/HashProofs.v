(* Open-addressing tables: every operation keeps each key reachable from its
   origin. *)
From Verif Require Import Base Monad Lists SeqModel CowBase HashModel.
From Coq Require Import Permutation.

Section Table.
Context {K V : Type}.
Variable eqb : K -> K -> bool.
Variable hash : K -> Z.
Hypothesis eqb_ok : forall a b, reflect (a = b) (eqb a b).
Notation bucket := (bucket K V).
Notation table := (table K V).
Notation origin := (@origin K hash).
Notation adopt := (adopt hash).

Lemma origin_lt n k : (0 < n)%nat -> (origin n k < n)%nat.
Proof.
  intros Hn; unfold HashModel.origin, probe_origin, to_u64.
  set (x := (hash k * 0x9E3779B9) mod 2 ^ 64 mod 2 ^ 32).
  assert (Hx : 0 <= x < 2 ^ 32) by (apply Z.mod_pos_bound; lia).
  assert (Hz : 0 <= (x * Z.of_nat n) mod 2 ^ 64 / 2 ^ 32 < Z.of_nat n).
  { pose proof (Z.mod_pos_bound (x * Z.of_nat n) (2 ^ 64) ltac:(lia)) as Hm.
    split; [apply Z.div_pos; lia|].
    apply Z.div_lt_upper_bound; [lia|].
    destruct (Z_le_gt_dec (Z.of_nat n) (2 ^ 32)) as [Hl|Hg].
    - rewrite Z.mod_small by nia. nia.
    - assert (2 ^ 64 = 2 ^ 32 * 2 ^ 32) by reflexivity. nia. }
  lia.
Qed.

(* ---- entries ---- *)
Lemma entries_app (a b : list bucket) : entries (a ++ b) = entries a ++ entries b.
Proof. induction a as [|[x|] a IH]; cbn; [reflexivity|f_equal; exact IH|exact IH]. Qed.
Lemma entries_none n : entries (repeat (None : bucket) n) = [].
Proof. induction n; cbn; auto. Qed.
Lemma entries_length (b : list bucket) : (length (entries b) <= length b)%nat.
Proof. induction b as [|[x|] b IH]; cbn; lia. Qed.
Lemma entries_in (b : list bucket) kv : In kv (entries b) <-> exists p, nth_error b p = Some (Some kv).
Proof.
  induction b as [|x b IH]; cbn.
  - split; [tauto|]. intros [[|p] H]; discriminate.
  - assert (E : (exists p, nth_error (x :: b) p = Some (Some kv)) <->
                x = Some kv \/ exists p, nth_error b p = Some (Some kv)).
    { split.
      - intros [[|p] H]; cbn in H; [left; congruence|right; eauto].
      - intros [->|[p H]]; [exists 0%nat; reflexivity|exists (S p); exact H]. }
    rewrite E, <- IH; destruct x as [y|]; cbn; [|intuition congruence].
    split; intros [H|H]; auto; left; congruence.
Qed.
Lemma entries_room (b : list bucket) : (length (entries b) < length b)%nat ->
  exists q, (q < length b)%nat /\ nth_error b q = Some None.
Proof.
  induction b as [|[x|] b IH]; cbn; intros H; [lia| |].
  - destruct IH as [q [Hq E]]; [lia|]. exists (S q); split; [lia|exact E].
  - exists 0%nat; split; [lia|reflexivity].
Qed.
Lemma split_nth {A} (l : list A) p x : nth_error l p = Some x ->
  l = firstn p l ++ x :: skipn (S p) l.
Proof.
  revert p; induction l as [|y l IH]; intros [|p] H; cbn in *; try discriminate.
  - congruence.
  - f_equal; apply IH; exact H.
Qed.
Lemma set_nth_split {A} (l : list A) p x : (p < length l)%nat ->
  set_nth l p x = firstn p l ++ x :: skipn (S p) l.
Proof.
  revert p; induction l as [|y l IH]; intros [|p] H; cbn in *; try lia; auto.
  f_equal; apply IH; lia.
Qed.
Lemma entries_set_some (b : list bucket) p kv : nth_error b p = Some None ->
  Permutation (entries (set_nth b p (Some kv))) (kv :: entries b).
Proof.
  intros H. rewrite set_nth_split by (eapply nth_lt; exact H).
  rewrite (split_nth _ _ _ H) at 3. rewrite !entries_app; cbn.
  symmetry; apply Permutation_middle.
Qed.
Lemma entries_set_none (b : list bucket) p kv : nth_error b p = Some (Some kv) ->
  Permutation (entries b) (kv :: entries (set_nth b p None)).
Proof.
  intros H. rewrite set_nth_split by (eapply nth_lt; exact H).
  rewrite (split_nth _ _ _ H) at 1. rewrite !entries_app; cbn.
  symmetry; apply Permutation_middle.
Qed.

(* ---- probing ---- *)
(* q is met on the way from bucket o to bucket p *)
Definition between (o p q : nat) : Prop :=
  (o <= q < p)%nat \/ (p < o /\ (o <= q \/ q < p))%nat.
Lemma between_tri n o p q : (o < n)%nat -> (p < n)%nat -> (q < n)%nat ->
  p = q \/ between o p q \/ between o q p.
Proof. unfold between; lia. Qed.

Section Probe.
Variable pred : K * V -> bool.
Variable b : list bucket.
Definition passes (q : nat) : Prop := exists kv, nth_error b q = Some (Some kv) /\ pred kv = false.
Definition stops (q : nat) : Prop :=
  nth_error b q = Some None \/ exists kv, nth_error b q = Some (Some kv) /\ pred kv = true.
Lemma scan_spec n : forall k, (k + n <= length b)%nat ->
  match scan pred b k n with
  | Ok (Some p) => (k <= p < k + n)%nat /\ stops p /\ forall q, (k <= q < p)%nat -> passes q
  | Ok None => forall q, (k <= q < k + n)%nat -> passes q
  | _ => False
  end.
Proof.
  induction n as [|n IH]; intros k Hk; cbn [scan].
  - intros q Hq; lia.
  - destruct (nth_error b k) as [[kv|]|] eqn:E.
    + destruct (pred kv) eqn:Ep.
      * split; [lia|]. split; [right; eauto|]. intros q Hq; lia.
      * specialize (IH (S k) ltac:(lia)).
        assert (Hpk : passes k) by (exists kv; auto).
        destruct (scan pred b (S k) n) as [[p|]| |]; try exact IH.
        -- destruct IH as (H1 & H2 & H3). split; [lia|]. split; [exact H2|].
           intros q Hq. destruct (Nat.eq_dec q k) as [->|]; [exact Hpk|apply H3; lia].
        -- intros q Hq. destruct (Nat.eq_dec q k) as [->|]; [exact Hpk|apply IH; lia].
    + split; [lia|]. split; [left; exact E|]. intros q Hq; lia.
    + apply nth_error_None in E; lia.
Qed.
Lemma probe_spec o : (o < length b)%nat ->
  match linear_probe pred b o o (length b) with
  | Ok (Some p) => (p < length b)%nat /\ stops p /\
      forall q, (q < length b)%nat -> between o p q -> passes q
  | Ok None => forall q, (q < length b)%nat -> passes q
  | _ => False
  end.
Proof.
  intros Ho; unfold linear_probe.
  destruct (Nat.ltb_spec (length b) o) as [Hl|_]; [lia|].
  pose proof (scan_spec (length b - o) o ltac:(lia)) as H1.
  destruct (scan pred b o (length b - o)) as [[p|]| |]; try contradiction; cbn [obind].
  - destruct H1 as (Hp & Hs & Hq). split; [lia|]. split; [exact Hs|].
    intros q Hq1 [Hb|Hb]; [apply Hq; lia|lia].
  - pose proof (scan_spec o 0 ltac:(lia)) as H2.
    destruct (scan pred b 0 o) as [[p|]| |]; try contradiction.
    + destruct H2 as (Hp & Hs & Hq). split; [lia|]. split; [exact Hs|].
      intros q Hq1 [Hb|Hb]; [lia|].
      destruct (Nat.le_gt_cases o q); [apply H1; lia|apply Hq; lia].
    + intros q Hq. destruct (Nat.le_gt_cases o q); [apply H1; lia|apply H2; lia].
Qed.
End Probe.

(* every value is met when probing from the origin of its key *)
Definition linked (b : list bucket) : Prop :=
  forall p kv, nth_error b p = Some (Some kv) ->
  forall q, (q < length b)%nat -> between (origin (length b) (fst kv)) p q ->
  nth_error b q <> Some None.
Definition keys (b : list bucket) : list K := map fst (entries b).
Record wf (t : table) : Prop := {
  wf_linked : linked (bkts t);
  wf_keys : NoDup (keys (bkts t));
  wf_count : nelem t = length (entries (bkts t)) }.

Lemma keys_in (b : list bucket) k : In k (keys b) <-> exists p v, nth_error b p = Some (Some (k, v)).
Proof.
  unfold keys; rewrite in_map_iff; split.
  - intros [[k' v] [E H]]; cbn in E; subst k'. apply entries_in in H. destruct H as [p H]; eauto.
  - intros (p & v & H). exists (k, v); split; [reflexivity|apply entries_in; eauto].
Qed.
Lemma nodup_entries (b : list bucket) k v w :
  NoDup (keys b) -> In (k, v) (entries b) -> In (k, w) (entries b) -> v = w.
Proof.
  unfold keys; induction (entries b) as [|[k' v'] l IH]; cbn; intros Hn H1 H2; [contradiction|].
  inversion Hn as [|? ? Hni Hnd]; subst.
  destruct H1 as [H1|H1], H2 as [H2|H2].
  - congruence.
  - exfalso; apply Hni. apply (in_map fst) in H2. cbn in H2. congruence.
  - exfalso; apply Hni. apply (in_map fst) in H1. cbn in H1. congruence.
  - apply IH; assumption.
Qed.

Lemma passes_full pred (b : list bucket) q : passes pred b q -> nth_error b q <> Some None.
Proof. intros (kv & H & _) E; congruence. Qed.

(* find *)
Lemma find_ok (t : table) k : wf t -> (nelem t < length (bkts t))%nat ->
  exists p x, find eqb hash t k = Ok (p, x) /\ nth_error (bkts t) p = Some x /\
    (forall q, (q < length (bkts t))%nat -> between (origin (length (bkts t)) k) p q ->
       nth_error (bkts t) q <> Some None) /\
    match x with
    | Some kv => fst kv = k
    | None => ~ In k (keys (bkts t))
    end.
Proof.
  intros [Hl Hn Hc] Hr. rewrite Hc in Hr.
  destruct (entries_room _ Hr) as (e & He & Ee).
  set (b := bkts t) in *. set (o := origin (length b) k).
  assert (Ho : (o < length b)%nat) by (apply origin_lt; lia).
  unfold find. fold b. fold o.
  pose proof (probe_spec (fun kv => eqb (fst kv) k) b o Ho) as H.
  destruct (linear_probe _ b o o (length b)) as [[p|]| |]; try contradiction; cbn [obind].
  - destruct H as (Hp & Hs & Hq).
    destruct (nth_error b p) as [x|] eqn:Ex; [|apply nth_error_None in Ex; lia].
    exists p, x. split; [reflexivity|]. split; [exact Ex|]. split.
    { intros q Hq1 Hq2; eapply passes_full; apply Hq; assumption. }
    destruct Hs as [E|(kv & E & Ek)].
    + rewrite Ex in E; injection E as ->.
      intros Hin. apply keys_in in Hin. destruct Hin as (p0 & v & E0).
      assert (Hp0 : (p0 < length b)%nat) by (eapply nth_lt; exact E0).
      destruct (between_tri _ o p p0 Ho Hp Hp0) as [->|[Hb|Hb]].
      * congruence.
      * destruct (Hq _ Hp0 Hb) as (kv & E1 & Ek).
        assert (kv = (k, v)) by congruence; subst kv; cbn in Ek.
        destruct (eqb_ok k k); congruence.
      * exact (Hl _ _ E0 _ Hp Hb Ex).
    + rewrite Ex in E; injection E as ->. destruct (eqb_ok (fst kv) k); congruence.
  - destruct (H _ He) as (kv & E & _); congruence.
Qed.

(* adopting a value *)
Lemma linked_add (b : list bucket) p kv : linked b -> nth_error b p = Some None ->
  (forall q, (q < length b)%nat -> between (origin (length b) (fst kv)) p q -> nth_error b q <> Some None) ->
  linked (set_nth b p (Some kv)).
Proof.
  intros Hl Hp Hq p' kv' E q Hq1 Hb Eq.
  pose proof (nth_lt _ _ _ Hp) as Hlt.
  rewrite set_nth_length in Hq1, Hb.
  rewrite nth_set in E, Eq by exact Hlt.
  destruct (Nat.eqb_spec p q) as [|Hne]; [discriminate|].
  destruct (Nat.eqb_spec p p') as [<-|Hne'].
  - injection E as <-. exact (Hq _ Hq1 Hb Eq).
  - exact (Hl _ _ E _ Hq1 Hb Eq).
Qed.
Lemma adopt_at_ok (t : table) p kv : wf t -> nth_error (bkts t) p = Some None ->
  ~ In (fst kv) (keys (bkts t)) ->
  (forall q, (q < length (bkts t))%nat -> between (origin (length (bkts t)) (fst kv)) p q ->
     nth_error (bkts t) q <> Some None) ->
  exists t', adopt_at t p kv = Ok t' /\ wf t' /\ length (bkts t') = length (bkts t) /\
    nth_error (bkts t') p = Some (Some kv) /\
    (forall q y, nth_error (bkts t) q = Some (Some y) -> nth_error (bkts t') q = Some (Some y)) /\
    Permutation (entries (bkts t')) (kv :: entries (bkts t)).
Proof.
  intros [Hl Hn Hc] Hp Hk Hq. unfold adopt_at; rewrite Hp.
  pose proof (entries_set_some _ _ kv Hp) as HP.
  eexists; split; [reflexivity|]; cbn [bkts nelem]. split; [split; cbn [bkts nelem]|].
  - apply linked_add; assumption.
  - unfold keys. eapply Permutation_NoDup; [symmetry; apply Permutation_map; exact HP|].
    cbn; constructor; assumption.
  - rewrite (Permutation_length HP); cbn; rewrite Hc; reflexivity.
  - split; [apply set_nth_length|]. pose proof (nth_lt _ _ _ Hp) as Hlt.
    split; [apply nth_set_same; exact Hlt|]. split; [|exact HP].
    intros q y Hy. rewrite nth_set by exact Hlt.
    destruct (Nat.eqb_spec p q) as [<-|]; [congruence|exact Hy].
Qed.
Lemma adopt_ok (t : table) kv : wf t -> (nelem t < length (bkts t))%nat ->
  ~ In (fst kv) (keys (bkts t)) ->
  exists t', adopt t kv = Ok t' /\ wf t' /\ length (bkts t') = length (bkts t) /\
    (forall q y, nth_error (bkts t) q = Some (Some y) -> nth_error (bkts t') q = Some (Some y)) /\
    Permutation (entries (bkts t')) (kv :: entries (bkts t)).
Proof.
  intros Hw Hr Hk. pose proof Hw as [Hl Hn Hc]. rewrite Hc in Hr.
  destruct (entries_room _ Hr) as (e & He & Ee).
  unfold HashModel.adopt. set (b := bkts t) in *. set (o := origin (length b) (fst kv)).
  assert (Ho : (o < length b)%nat) by (apply origin_lt; lia).
  pose proof (probe_spec (fun _ => false) b o Ho) as H.
  destruct (linear_probe _ b o o (length b)) as [[p|]| |]; try contradiction; cbn [obind].
  - destruct H as (Hp & [Hs|(x & _ & Hx)] & Hq); [|discriminate].
    destruct (adopt_at_ok t p kv Hw Hs Hk) as (t' & H1 & H2 & H3 & _ & H4 & H5).
    { intros q Hq1 Hq2; eapply passes_full; apply Hq; assumption. }
    exists t'; auto.
  - destruct (H _ He) as (kv' & E & _); congruence.
Qed.
Lemma keyed_ok (t : table) k v : wf t -> (nelem t < capacity_of t)%nat ->
  exists p new t', keyed_try_emplace eqb hash t k v = Ok (p, new, t') /\ wf t' /\
    length (bkts t') = length (bkts t) /\
    if new : bool
    then ~ In k (keys (bkts t)) /\ Permutation (entries (bkts t')) ((k, v) :: entries (bkts t)) /\
         nth_error (bkts t') p = Some (Some (k, v))
    else t' = t /\ exists w, nth_error (bkts t) p = Some (Some (k, w)).
Proof.
  intros Hw Hcap. unfold keyed_try_emplace.
  assert (Hr : (nelem t < length (bkts t))%nat).
  { unfold capacity_of in Hcap. pose proof (Nat.div_le_upper_bound (length (bkts t)) 2 (length (bkts t))). lia. }
  rewrite (proj2 (Nat.ltb_lt _ _) Hcap).
  destruct (find_ok t k Hw Hr) as (p & x & E & Ex & Hq & Hx). rewrite E; cbn [obind].
  destruct x as [[k' w]|].
  - cbn in Hx; subst k'. exists p, false, t. split; [reflexivity|]. split; [exact Hw|].
    split; [reflexivity|]. split; [reflexivity|eauto].
  - destruct (adopt_at_ok t p (k, v) Hw Ex Hx Hq) as (t' & H1 & H2 & H3 & H4 & _ & H5).
    rewrite H1; cbn [obind]. exists p, true, t'.
    split; [reflexivity|]. split; [exact H2|]. split; [exact H3|].
    split; [exact Hx|]. split; [exact H5|exact H4].
Qed.

(* ---- copying ---- *)
Lemma skipn_nth {A} (l : list A) k x : nth_error l k = Some x -> skipn k l = x :: skipn (S k) l.
Proof.
  revert k; induction l as [|y l IH]; intros [|k] H; cbn in *; try discriminate; [congruence|].
  rewrite (IH _ H); reflexivity.
Qed.
Lemma skipn_set {A} (l : list A) k x : skipn (S k) (set_nth l k x) = skipn (S k) l.
Proof. revert k; induction l as [|y l IH]; intros [|k]; cbn; auto; apply IH. Qed.
Lemma transfer_ok uniq : forall n k (old new : table),
  (k + n = length (bkts old))%nat -> wf new -> nelem old = length (entries (bkts old)) ->
  NoDup (map fst (entries (skipn k (bkts old))) ++ keys (bkts new)) ->
  (length (entries (skipn k (bkts old))) + nelem new < length (bkts new))%nat ->
  exists old' new', transfer hash n k uniq old new = Ok (old', new') /\
    (uniq = false -> old' = old) /\ wf new' /\ length (bkts new') = length (bkts new) /\
    (forall q y, nth_error (bkts new) q = Some (Some y) -> nth_error (bkts new') q = Some (Some y)) /\
    Permutation (entries (bkts new')) (entries (skipn k (bkts old)) ++ entries (bkts new)).
Proof.
  induction n as [|n IH]; intros k old new Hk Hw Hc Hnd Hr; cbn [transfer].
  - rewrite (skipn_all2 (bkts old)) by lia. cbn. exists old, new.
    split; [reflexivity|]. split; [auto|]. split; [exact Hw|]. split; [reflexivity|]. auto.
  - destruct (nth_error (bkts old) k) as [x|] eqn:E; [|apply nth_error_None in E; lia].
    assert (HE : exists old1, (if uniq then extract old k = Ok (x, old1) else old1 = old) /\
                 length (bkts old1) = length (bkts old) /\ skipn (S k) (bkts old1) = skipn (S k) (bkts old) /\
                 nelem old1 = length (entries (bkts old1)) /\ (uniq = false -> old1 = old)).
    { destruct uniq; [|exists old; auto].
      unfold extract; rewrite E; destruct x as [kv|].
      - pose proof (entries_set_none _ _ _ E) as HP. apply Permutation_length in HP; cbn in HP.
        rewrite Hc, HP. eexists; split; [reflexivity|]; cbn [bkts nelem].
        split; [apply set_nth_length|]. split; [apply skipn_set|]. split; [reflexivity|discriminate].
      - exists old. auto. }
    destruct HE as (old1 & Hex & Hl1 & Hs1 & Hc1 & Hu1).
    rewrite (skipn_nth _ _ _ E) in Hnd, Hr |- *.
    destruct x as [kv|]; cbn [entries] in Hnd, Hr |- *.
    + cbn [map app length] in Hnd, Hr. inversion Hnd as [|? ? Hni Hnd']; subst.
      destruct (adopt_ok new kv Hw ltac:(lia)) as (new1 & Ea & Hw1 & Hln1 & Hq1 & HP1).
      { intros H; apply Hni, in_or_app; right; exact H. }
      assert (Hn1 : nelem new1 = S (nelem new)).
      { rewrite (wf_count _ Hw1), (Permutation_length HP1); cbn; rewrite (wf_count _ Hw); reflexivity. }
      destruct (IH (S k) old1 new1) as (old' & new' & H1 & H2 & H3 & H4 & H5 & H6).
      * lia.
      * exact Hw1.
      * exact Hc1.
      * rewrite Hs1. eapply Permutation_NoDup; [|exact Hnd].
        unfold keys. rewrite HP1. cbn [map]. apply Permutation_middle.
      * rewrite Hs1, Hln1, Hn1; lia.
      * exists old', new'. split; [|split; [|split; [exact H3|split; [congruence|split]]]].
        -- destruct uniq; [rewrite Hex; cbn [obind]|subst old1]; rewrite Ea; cbn [obind]; exact H1.
        -- intros Hu. rewrite (H2 Hu). auto.
        -- intros q y Hy. apply H5, Hq1, Hy.
        -- rewrite H6, Hs1, HP1. cbn [app]. symmetry. apply Permutation_middle.
    + destruct (IH (S k) old1 new) as (old' & new' & H1 & H2 & H3 & H4 & H5 & H6);
        [lia|exact Hw|exact Hc1|rewrite Hs1; exact Hnd|rewrite Hs1; lia|].
      exists old', new'. split; [|split; [|split; [exact H3|split; [congruence|split; [exact H5|]]]]].
      * destruct uniq; [rewrite Hex; cbn [obind]|subst old1]; exact H1.
      * intros Hu. rewrite (H2 Hu). auto.
      * rewrite H6, Hs1. reflexivity.
Qed.
Lemma clone_ok (old : table) : forall n k (new : table),
  (k + n = length (bkts old))%nat ->
  bkts new = firstn k (bkts old) ++ repeat None n -> nelem new = length (entries (firstn k (bkts old))) ->
  exists new', clone n k old new = Ok new' /\ bkts new' = bkts old /\ nelem new' = length (entries (bkts old)).
Proof.
  induction n as [|n IH]; intros k new Hk Hb Hc; cbn [clone].
  - exists new. split; [reflexivity|]. cbn in Hb. rewrite app_nil_r, firstn_all2 in Hb by lia.
    rewrite firstn_all2 in Hc by lia. auto.
  - destruct (nth_error (bkts old) k) as [x|] eqn:E; [|apply nth_error_None in E; lia].
    assert (Hf : firstn (S k) (bkts old) = firstn k (bkts old) ++ [x]).
    { rewrite (split_nth _ _ _ E) at 1. rewrite firstn_app, firstn_firstn, firstn_length.
      replace (S k - Nat.min k (length (bkts old)))%nat with 1%nat by lia.
      replace (Nat.min (S k) k) with k by lia. reflexivity. }
    assert (Hlk : length (firstn k (bkts old)) = k) by (rewrite firstn_length; lia).
    destruct x as [kv|].
    + unfold adopt_at. rewrite Hb, nth_error_app2 by lia. rewrite Hlk, Nat.sub_diag. cbn [nth_error repeat obind].
      destruct (IH (S k) (Table (S (nelem new)) (set_nth (firstn k (bkts old) ++ None :: repeat None n) k (Some kv))))
        as (new' & H1 & H2 & H3); cbn [bkts nelem].
      * lia.
      * rewrite Hf, set_nth_split by (rewrite app_length, Hlk; cbn; lia).
        rewrite firstn_app, firstn_firstn, Hlk, Nat.min_id, Nat.sub_diag. cbn [firstn]. rewrite app_nil_r.
        rewrite skipn_app, Hlk, (skipn_all2 (firstn k (bkts old))) by lia.
        replace (S k - k)%nat with 1%nat by lia. cbn [skipn app]. rewrite <- app_assoc. reflexivity.
      * rewrite Hf, entries_app, app_length, Hc. cbn. lia.
      * exists new'; auto.
    + apply IH; [lia| |].
      * rewrite Hb, Hf, <- app_assoc. reflexivity.
      * rewrite Hf, entries_app, app_nil_r. exact Hc.
Qed.
Lemma empty_wf n : wf (empty_table n).
Proof.
  split; cbn [bkts empty_table nelem].
  - intros p kv E. exfalso. apply nth_error_In, repeat_spec in E. discriminate.
  - unfold keys; rewrite entries_none; constructor.
  - rewrite entries_none; reflexivity.
Qed.

(* ---- erasing ---- *)
(* buckets counted from the one after e; e itself comes last *)
Definition crel (n e k : nat) : nat := if (k <=? e)%nat then (k + n - e)%nat else (k - e)%nat.
Ltac crel_lia := unfold crel, between in *;
  repeat match goal with
  | |- context [(?a <=? ?b)%nat] => destruct (Nat.leb_spec a b)
  | H : context [(?a <=? ?b)%nat] |- _ => destruct (Nat.leb_spec a b)
  end; lia.

Lemma crel_inj n e p q : (e < n)%nat -> (p < n)%nat -> (q < n)%nat ->
  crel n e p = crel n e q -> p = q.
Proof. crel_lia. Qed.
Lemma crel_add n e k c : (e < n)%nat -> ~ (k <= e < k + c)%nat ->
  crel n e (k + c) = (crel n e k + c)%nat.
Proof. crel_lia. Qed.
Lemma crel_S n e k : (e < n)%nat -> k <> e -> crel n e (S k) = S (crel n e k).
Proof. crel_lia. Qed.
Lemma crel_between n e o p q : (e < n)%nat -> (o < n)%nat -> (p < n)%nat -> (q < n)%nat ->
  (crel n e o <= crel n e p)%nat ->
  between o p q <-> (crel n e o <= crel n e q < crel n e p)%nat.
Proof. intros; split; crel_lia. Qed.
Lemma crel_last n e p : (e < n)%nat -> (p < n)%nat -> (crel n e p <= n)%nat /\ (crel n e p = n <-> p = e).
Proof. intros; split; [|split]; crel_lia. Qed.
Lemma crel_through n e o p : (e < n)%nat -> (o < n)%nat -> (p < n)%nat ->
  (crel n e p < crel n e o)%nat -> between o p e.
Proof. crel_lia. Qed.
Lemma crel_range n e tpos tlen p q : (e < n)%nat -> (p < n)%nat -> (tpos + tlen <= n)%nat ->
  (tpos <= q < tpos + tlen)%nat -> (p < tpos \/ tpos + tlen <= p)%nat -> p <> e ->
  (crel n e q < crel n e p)%nat -> (crel n e q < crel n e (tpos + tlen) <= crel n e p)%nat.
Proof. intros; crel_lia. Qed.

(* while relocating: c is how far it went *)
Definition rinv (e c : nat) (b : list bucket) : Prop :=
  let n := length b in
  forall p kv, nth_error b p = Some (Some kv) ->
  let o := origin n (fst kv) in
  (crel n e o <= crel n e p < n)%nat /\
  forall q, (q < n)%nat -> (crel n e o <= crel n e q < crel n e p)%nat ->
  nth_error b q = Some None -> (crel n e q < c <= crel n e p)%nat.

Lemma rinv_end e c (b : list bucket) : (e < length b)%nat -> rinv e c b ->
  (forall p, (p < length b)%nat -> (c <= crel (length b) e p)%nat ->
     nth_error b p = Some None \/
     exists q, (q < length b)%nat /\ crel (length b) e q = c /\ nth_error b q = Some None) ->
  linked b.
Proof.
  intros He Hi Hend p kv E q Hq Hb Eq.
  destruct (Hi p kv E) as [Ho Hin].
  assert (Hp : (p < length b)%nat) by (eapply nth_lt; exact E).
  pose proof (origin_lt (length b) (fst kv) ltac:(lia)) as Hol.
  assert (Hr : (crel (length b) e (origin (length b) (fst kv)) <= crel (length b) e q < crel (length b) e p)%nat)
    by (apply crel_between; try assumption; lia).
  pose proof (Hin q Hq Hr Eq) as Hc.
  destruct (Hend p Hp ltac:(lia)) as [E'|(q' & Hq' & Ec & Eq')]; [congruence|].
  destruct (Nat.eq_dec (crel (length b) e p) c) as [E'|Hne].
  - assert (p = q') by (apply (crel_inj (length b) e); try assumption; lia). congruence.
  - pose proof (Hin q' Hq' ltac:(lia) Eq'). lia.
Qed.

Lemma relocate_ok e : forall cnt k (t : table),
  (e < length (bkts t))%nat -> (k + cnt <= length (bkts t))%nat ->
  nelem t = length (entries (bkts t)) ->
  rinv e (crel (length (bkts t)) e k) (bkts t) ->
  ((k <= e < k + cnt)%nat -> nth_error (bkts t) e = Some None) ->
  exists t' stop, relocate hash cnt k t = Ok (t', stop) /\
    nelem t' = length (entries (bkts t')) /\ length (bkts t') = length (bkts t) /\
    Permutation (entries (bkts t')) (entries (bkts t)) /\
    if stop : bool then linked (bkts t')
    else ~ (k <= e < k + cnt)%nat /\ rinv e (crel (length (bkts t)) e (k + cnt)) (bkts t') /\
         forall p, (p < length (bkts t))%nat ->
           (crel (length (bkts t)) e (k + cnt) <= crel (length (bkts t)) e p)%nat ->
           nth_error (bkts t') p = nth_error (bkts t) p.
Proof.
  induction cnt as [|cnt IH]; intros k t He Hk Hc Hi He0; cbn [relocate].
  - exists t, false. split; [reflexivity|]. split; [exact Hc|]. split; [reflexivity|].
    split; [reflexivity|]. rewrite Nat.add_0_r. split; [lia|]. split; [exact Hi|]. auto.
  - set (b := bkts t) in *. set (n := length b) in *.
    destruct (nth_error b k) as [[kv|]|] eqn:E.
    2:{ exists t, true. split; [reflexivity|]. split; [exact Hc|]. split; [reflexivity|].
        split; [reflexivity|]. apply (rinv_end e _ _ He Hi). fold b.
        intros p Hp Hcp. right. exists k. fold n. split; [lia|]. auto. }
    2:{ apply nth_error_None in E; fold n in E; lia. }
    destruct (Nat.eq_dec k e) as [->|Hke].
    { rewrite He0 in E by lia; discriminate. }
    pose proof (entries_set_none b k kv E) as HP1.
    assert (Hpos : nelem t = S (length (entries (set_nth b k None)))).
    { rewrite Hc, (Permutation_length HP1); reflexivity. }
    unfold extract. fold b. rewrite E, Hpos. cbn [obind].
    set (b1 := set_nth b k None). set (t1 := Table (length (entries b1)) b1).
    set (o := origin n (fst kv)).
    assert (Hln : length b1 = n) by apply set_nth_length.
    assert (Ho : (o < n)%nat) by (apply origin_lt; lia).
    destruct (Hi k kv E) as [Hok Hin]. fold n o in Hok, Hin.
    assert (Hb1 : forall j, nth_error b1 j = if (k =? j)%nat then Some None else nth_error b j).
    { intros j; apply nth_set; fold n; lia. }
    assert (Ek1 : nth_error b1 k = Some None) by (rewrite Hb1, Nat.eqb_refl; reflexivity).
    (* the new place *)
    unfold HashModel.adopt. cbn [bkts t1]. rewrite Hln. fold o.
    pose proof (probe_spec (fun _ => false) b1 o ltac:(lia)) as H. rewrite Hln in H.
    destruct (linear_probe _ b1 o o n) as [[p|]| |]; try contradiction; cbn [obind].
    2:{ destruct (H k ltac:(lia)) as (x & Ex & _); congruence. }
    destruct H as (Hp & [Hs|(x & _ & Hx)] & Hq); [|discriminate].
    assert (Hple : (crel n e o <= crel n e p <= crel n e k)%nat).
    { destruct (between_tri n o p k ltac:(lia) ltac:(lia) ltac:(lia)) as [->|[Hb|Hb]].
      - lia.
      - destruct (Hq k ltac:(lia) Hb) as (x & Ex & _); congruence.
      - apply (crel_between n e) in Hb; try assumption; lia. }
    unfold adopt_at. cbn [bkts t1]. rewrite Hs. cbn [obind nelem].
    set (t2 := Table (S (length (entries b1))) (set_nth b1 p (Some kv))).
    pose proof (entries_set_some b1 p kv Hs) as HP2.
    assert (Hl2 : length (bkts t2) = n) by (cbn [t2 bkts]; rewrite set_nth_length; exact Hln).
    assert (HP : Permutation (entries (bkts t2)) (entries b)).
    { cbn [t2 bkts]. rewrite HP2. symmetry; exact HP1. }
    assert (Hb2 : forall j, nth_error (bkts t2) j =
                  if (p =? j)%nat then Some (Some kv) else if (k =? j)%nat then Some None else nth_error b j).
    { intros j; cbn [t2 bkts]. rewrite nth_set by lia. rewrite Hb1; reflexivity. }
    assert (Hsk : crel n e (S k) = S (crel n e k)) by (apply crel_S; assumption).
    assert (Hi2 : rinv e (crel n e (S k)) (bkts t2)).
    { unfold rinv. rewrite Hl2. intros p' kv' E'. rewrite Hb2 in E'.
      destruct (Nat.eqb_spec p p') as [<-|Hnp].
      - injection E' as <-. fold o. split; [lia|].
        intros q Hqn Hqr Eq. rewrite Hb2 in Eq.
        destruct (Nat.eqb_spec p q) as [|Hpq]; [discriminate|].
        assert (Hbt : between o p q) by (apply (crel_between n e); try assumption; lia).
        destruct (Hq q Hqn Hbt) as (x & Ex & _). rewrite Hb1 in Ex.
        destruct (k =? q)%nat; congruence.
      - destruct (Nat.eqb_spec k p') as [|Hnk]; [discriminate|].
        destruct (Hi p' kv' E') as [Ho' Hin']. fold n in Ho', Hin'.
        split; [exact Ho'|].
        assert (Hp' : (p' < n)%nat) by (eapply nth_lt; exact E').
        intros q Hqn Hqr Eq. rewrite Hb2 in Eq.
        destruct (Nat.eqb_spec p q) as [|Hpq]; [discriminate|].
        destruct (Nat.eqb_spec k q) as [<-|Hkq].
        + lia.
        + pose proof (Hin' q Hqn Hqr Eq) as Hcc.
          assert (crel n e p' <> crel n e k)
            by (intros Ec; apply Hnk; symmetry; apply (crel_inj n e); try assumption; lia).
          lia. }
    assert (He2 : nth_error (bkts t2) e = nth_error b e).
    { rewrite Hb2.
      destruct (Nat.eqb_spec p e) as [->|]; [exfalso; pose proof (crel_last n e e He He); lia|].
      destruct (Nat.eqb_spec k e) as [|]; [contradiction|reflexivity]. }
    destruct (IH (S k) t2) as (t' & stop & H1 & H2 & H3 & H4 & H5).
    + rewrite Hl2; exact He.
    + rewrite Hl2; lia.
    + cbn [t2 nelem]. rewrite (Permutation_length HP), <- Hc. exact (eq_sym Hpos).
    + rewrite Hl2; exact Hi2.
    + intros Hr. rewrite He2; apply He0; lia.
    + exists t', stop. split; [exact H1|]. split; [exact H2|]. split; [congruence|].
      split; [rewrite H4; exact HP|].
      destruct stop; [exact H5|].
      rewrite Hl2 in H5. destruct H5 as (H5 & H6 & H7).
      replace (k + S cnt)%nat with (S k + cnt)%nat by lia.
      split; [lia|]. split; [exact H6|].
      intros j Hj Hcj. rewrite (H7 j Hj Hcj), Hb2.
      assert (Hmon : (crel n e (S k) <= crel n e (S k + cnt))%nat)
        by (rewrite (crel_add n e (S k) cnt He H5); lia).
      destruct (Nat.eqb_spec p j) as [->|]; [exfalso; lia|].
      destruct (Nat.eqb_spec k j) as [->|]; [exfalso; lia|reflexivity].
Qed.

Lemma clear_range_ok : forall cnt k (t : table),
  (k + cnt <= length (bkts t))%nat -> nelem t = length (entries (bkts t)) ->
  exists t', clear_range t k cnt = Ok t' /\ nelem t' = length (entries (bkts t')) /\
    length (bkts t') = length (bkts t) /\
    (forall j, nth_error (bkts t') j =
       if ((k <=? j) && (j <? k + cnt))%nat then Some None else nth_error (bkts t) j) /\
    bkts t' = firstn k (bkts t) ++ repeat None cnt ++ skipn (k + cnt) (bkts t).
Proof.
  induction cnt as [|cnt IH]; intros k t Hk Hc; cbn [clear_range].
  - exists t. split; [reflexivity|]. split; [exact Hc|]. split; [reflexivity|]. split.
    + intros j. rewrite Nat.add_0_r.
      destruct (Nat.leb_spec k j), (Nat.ltb_spec j k); cbn; try reflexivity; lia.
    + rewrite Nat.add_0_r; cbn; symmetry; apply firstn_skipn.
  - destruct (nth_error (bkts t) k) as [x|] eqn:E; [|apply nth_error_None in E; lia].
    assert (HE : exists y t1, extract t k = Ok (y, t1) /\ bkts t1 = set_nth (bkts t) k None /\
                 nelem t1 = length (entries (bkts t1))).
    { unfold extract; rewrite E; destruct x as [kv|].
      - pose proof (entries_set_none _ _ _ E) as HP. apply Permutation_length in HP; cbn in HP.
        rewrite Hc, HP. eexists _, _; split; [reflexivity|]; cbn; auto.
      - eexists _, _; split; [reflexivity|]. rewrite set_nth_same by exact E; auto. }
    destruct HE as (y & t1 & E1 & Eb & Hc1). rewrite E1; cbn [obind].
    assert (Hl : length (bkts t1) = length (bkts t)) by (rewrite Eb; apply set_nth_length).
    destruct (IH (S k) t1 ltac:(lia) Hc1) as (t' & H1 & H2 & H3 & H4 & H5).
    exists t'. split; [exact H1|]. split; [exact H2|]. split; [congruence|]. split.
    + intros j. rewrite H4, Eb, nth_set by lia.
      destruct (Nat.leb_spec (S k) j), (Nat.ltb_spec j (S k + cnt)),
        (Nat.leb_spec k j), (Nat.ltb_spec j (k + S cnt)), (Nat.eqb_spec k j); cbn; try reflexivity; lia.
    + rewrite H5, Eb. rewrite set_nth_split by lia.
      assert (Hf : length (firstn k (bkts t)) = k) by (rewrite firstn_length; lia).
      rewrite firstn_app, firstn_firstn, Hf. replace (S k - k)%nat with 1%nat by lia.
      rewrite Nat.min_r by lia. cbn [firstn].
      rewrite skipn_app, Hf. rewrite (skipn_all2 (firstn k (bkts t))) by lia.
      replace (S k + cnt - k)%nat with (S cnt) by lia. rewrite skipn_cons, skipn_skipn. cbn [app]. rewrite <- app_assoc. cbn [app repeat].
      do 4 f_equal; lia.
Qed.

Theorem erase_range_ok (t : table) tpos tlen : wf t -> (nelem t < length (bkts t))%nat ->
  (tpos + tlen <= length (bkts t))%nat ->
  exists t', erase_range hash t tpos tlen = Ok t' /\ wf t' /\ length (bkts t') = length (bkts t) /\
    Permutation (entries (bkts t'))
      (entries (firstn tpos (bkts t)) ++ entries (skipn (tpos + tlen) (bkts t))).
Proof.
  intros Hw Hr Hk. pose proof Hw as [Hl Hn Hc].
  unfold erase_range. destruct (Nat.eqb_spec tlen 0) as [->|Hz].
  { exists t. rewrite Nat.add_0_r. rewrite <- entries_app, firstn_skipn. auto. }
  rewrite Hc in Hr. destruct (entries_room _ Hr) as (e & He & Ee).
  destruct (clear_range_ok tlen tpos t Hk Hc) as (t1 & E1 & Hc1 & Hl1 & Hn1 & Hb1).
  rewrite E1; cbn [obind].
  set (b := bkts t) in *. set (n := length b) in *. rewrite Hl1.
  destruct (Nat.ltb_spec n (tpos + tlen)) as [|_]; [lia|].
  assert (HP1 : entries (bkts t1) = entries (firstn tpos b) ++ entries (skipn (tpos + tlen) b)).
  { rewrite Hb1, !entries_app, entries_none; reflexivity. }
  assert (Hin : forall kv, In kv (entries (bkts t1)) -> In kv (entries b)).
  { intros kv H. apply entries_in in H. destruct H as [p H]. rewrite Hn1 in H.
    apply entries_in; exists p. destruct ((tpos <=? p) && (p <? tpos + tlen))%nat; [discriminate|exact H]. }
  assert (Hi1 : rinv e (crel n e (tpos + tlen)) (bkts t1)).
  { unfold rinv. rewrite Hl1. intros p kv E. rewrite Hn1 in E.
    destruct ((tpos <=? p) && (p <? tpos + tlen))%nat eqn:Er; [discriminate|].
    assert (Hp : (p < n)%nat) by (eapply nth_lt; exact E).
    assert (Hpe : p <> e) by congruence.
    set (o := origin n (fst kv)).
    assert (Ho : (o < n)%nat) by (apply origin_lt; lia).
    assert (Hop : (crel n e o <= crel n e p < n)%nat).
    { pose proof (crel_last n e p He Hp).
      destruct (Nat.le_gt_cases (crel n e o) (crel n e p)) as [H'|H']; [lia|].
      exfalso. apply (Hl p kv E e He); [fold n o; apply (crel_through n); assumption|exact Ee]. }
    split; [exact Hop|].
    intros q Hq Hqr Eq. rewrite Hn1 in Eq.
    apply andb_false_iff in Er.
    assert (Hpr : (p < tpos \/ tpos + tlen <= p)%nat).
    { destruct Er as [Er|Er]; [apply Nat.leb_gt in Er|apply Nat.ltb_ge in Er]; lia. }
    destruct ((tpos <=? q) && (q <? tpos + tlen))%nat eqn:Eqr.
    - apply andb_true_iff in Eqr. destruct Eqr as [Eq1 Eq2].
      apply Nat.leb_le in Eq1. apply Nat.ltb_lt in Eq2. apply crel_range; try assumption; lia.
    - exfalso. apply (Hl p kv E q Hq); [fold n o; apply (crel_between n e); try assumption; lia|exact Eq]. }
  assert (Hnd1 : forall t', Permutation (entries (bkts t')) (entries (bkts t1)) -> NoDup (keys (bkts t'))).
  { intros t' HP. unfold keys. eapply Permutation_NoDup; [symmetry; apply Permutation_map; exact HP|].
    rewrite HP1. unfold keys in Hn.
    rewrite <- (firstn_skipn tpos b), entries_app in Hn.
    rewrite <- (firstn_skipn tlen (skipn tpos b)), entries_app, skipn_skipn, !map_app in Hn.
    rewrite map_app. replace (tlen + tpos)%nat with (tpos + tlen)%nat in Hn by lia.
    revert Hn. generalize (map fst (entries (firstn tpos b))), (map fst (entries (firstn tlen (skipn tpos b)))),
      (map fst (entries (skipn (tpos + tlen) b))).
    intros l1 l2 l3 H. induction l1 as [|x l1 IHl]; cbn in *.
    - induction l2 as [|y l2 IHl2]; cbn in *; [exact H|inversion H; auto].
    - inversion H as [|? ? H1 H2]; subst. constructor; [|apply IHl; exact H2].
      intros Hx; apply H1. rewrite !in_app_iff in *. tauto. }
  destruct (relocate_ok e (n - (tpos + tlen)) (tpos + tlen) t1) as (t2 & stop & E2 & Hc2 & Hl2 & HP2 & H2).
  - lia.
  - lia.
  - exact Hc1.
  - rewrite Hl1; exact Hi1.
  - intros Hr1. rewrite Hn1. destruct ((tpos <=? e) && (e <? tpos + tlen))%nat; [reflexivity|exact Ee].
  - rewrite E2; cbn [obind]. destruct stop.
    + exists t2. split; [reflexivity|]. split; [split; auto|]. split; [congruence|].
      rewrite HP2, HP1; reflexivity.
    + destruct H2 as (Hne & Hi2 & Hun).
      rewrite Hl1 in Hi2, Hun.
      replace (tpos + tlen + (n - (tpos + tlen)))%nat with n in Hne, Hi2, Hun by lia.
      assert (Hcn : crel n e n = crel n e 0) by (clear - He; crel_lia).
      rewrite Hcn in Hi2, Hun.
      destruct (relocate_ok e tpos 0 t2) as (t3 & stop & E3 & Hc3 & Hl3 & HP3 & H3).
      * lia.
      * lia.
      * exact Hc2.
      * rewrite Hl2, Hl1; exact Hi2.
      * intros Hr1. rewrite Hun by (try assumption; clear - He Hr1; crel_lia). rewrite Hn1.
        destruct ((tpos <=? e) && (e <? tpos + tlen))%nat; [reflexivity|exact Ee].
      * rewrite E3; cbn [obind]. exists t3. split; [reflexivity|].
        assert (HP : Permutation (entries (bkts t3)) (entries (bkts t1))) by (rewrite HP3; exact HP2).
        split; [|split; [congruence|rewrite HP, HP1; reflexivity]].
        split; [|auto|exact Hc3].
        destruct stop; [exact H3|].
        destruct H3 as (Hne3 & Hi3 & Hun3).
        rewrite Hl2, Hl1 in Hi3, Hun3. cbn [Nat.add] in Hi3, Hun3, Hne3.
        apply (rinv_end e (crel n e tpos)); [lia|exact Hi3|].
        intros p Hp Hcp. left. rewrite Hl3, Hl2, Hl1 in Hp, Hcp.
        rewrite Hun3 by assumption.
        assert (Hpt : (tpos <= p < tpos + tlen)%nat) by (clear - He Hk Hne Hne3 Hp Hcp; crel_lia).
        rewrite Hun by (try assumption; clear - He Hk Hne Hne3 Hp Hcp; crel_lia).
        rewrite Hn1. destruct (Nat.leb_spec tpos p), (Nat.ltb_spec p (tpos + tlen)); cbn; try reflexivity; lia.
Qed.
End Table.
