From Verif Require Import Base XmemModel XmemSpec XmemProofs.
From Coq Require Import Lia.

Lemma NoDup_app_iff : forall (l l' : list Z),
  NoDup (l ++ l') <-> NoDup l /\ NoDup l' /\ (forall a, In a l -> ~ In a l').
Proof.
  induction l as [|x l IH]; intros l'; simpl.
  - split; [intros H; repeat split; [constructor|assumption|tauto]|tauto].
  - split.
    + intros H. inversion H as [|? ? Hx Hn]; subst. apply IH in Hn. destruct Hn as [H1 [H2 H3]].
      rewrite in_app_iff in Hx. split; [constructor; tauto|]. split; [assumption|].
      intros a [<-|Ha]; [tauto|auto].
    + intros [H1 [H2 H3]]. inversion H1; subst. constructor.
      * rewrite in_app_iff. intros [Ha|Ha]; [contradiction|]. exact (H3 x (or_introl eq_refl) Ha).
      * apply IH. split; [assumption|]. split; [assumption|]. intros a Ha. apply H3. auto.
Qed.

Lemma inv_pool : forall c o c' t i lp lt lp' lt',
  (forall a, sys c a <> None <-> o a <> Nowhere) -> o 0 = Nowhere ->
  (forall i, pool_inv c o i) -> (forall t, thr_inv c o t) -> live_inv c o ->
  (forall a, In a lp <-> o a = Pool i) -> (forall a, In a lt <-> o a = Thr t) ->
  NoDup (lp' ++ lt') -> (forall a, In a (lp' ++ lt') <-> In a (lp ++ lt)) ->
  sys c' = sys c -> (forall j, j <> i -> head c' j = head c j) -> live c' = live c ->
  (forall t', t' <> t -> thr c' t' = thr c t') ->
  (forall a, o a <> Thr t -> o a <> Pool i -> nxt c' a = nxt c a) ->
  chain (nxt c') (head c' i) lp' -> sized (sys c') i lp' -> (lp' <> [] -> 5 <= i < 64) ->
  has (nxt c') (sys c') (thr c' t) lt' -> inv c'.
Proof.
  intros c o c' t i lp lt lp' lt' H1 H2 H3 H4 H5 Hlp Hlt Hnd Hperm Hs Hh Hl Ht Hn Hc Hz H6 Hhas.
  apply NoDup_app_iff in Hnd. destruct Hnd as [Hn1 [Hn2 Hn3]].
  set (o' := swap o i lp' t lt').
  assert (Hp : forall a, In a lp' -> o' a = Pool i).
  { intros a Ha. unfold o', swap. apply memb_in in Ha. rewrite Ha. reflexivity. }
  assert (Hq : forall a, In a lt' -> o' a = Thr t).
  { intros a Ha. unfold o', swap. destruct (memb a lp') eqn:E.
    - apply memb_in in E. exfalso. exact (Hn3 a E Ha).
    - apply memb_in in Ha. rewrite Ha. reflexivity. }
  assert (Hr : forall a, ~ In a lp' -> ~ In a lt' -> o' a = o a).
  { intros a Ha Hb. unfold o', swap. destruct (memb a lp') eqn:E1; [apply memb_in in E1; contradiction|].
    destruct (memb a lt') eqn:E2; [apply memb_in in E2; contradiction|reflexivity]. }
  assert (Hold : forall a, In a lp' \/ In a lt' <-> o a = Pool i \/ o a = Thr t).
  { intros a. specialize (Hperm a). rewrite !in_app_iff in Hperm. rewrite Hperm, Hlp, Hlt. tauto. }
  assert (Hcases : forall a, (In a lp' /\ o' a = Pool i) \/ (In a lt' /\ o' a = Thr t)
    \/ (o' a = o a /\ o a <> Pool i /\ o a <> Thr t)).
  { intros a. destruct (in_dec Z.eq_dec a lp') as [Ha|Ha]; [left; auto|].
    destruct (in_dec Z.eq_dec a lt') as [Hb|Hb]; [right; left; auto|]. right. right.
    split; [auto|]. pose proof (Hold a). tauto. }
  assert (Hk : forall p, p <> Thr t -> p <> Pool i -> keeps c o c' o' p).
  { intros p Hp1 Hp2 a. split.
    - pose proof (Hold a) as Hoa. destruct (Hcases a) as [[Ha He]|[[Ha He]|[He _]]].
      + rewrite He. split; intros Hx; [|congruence]. destruct Hoa as [[Hx2|Hx2] _]; [tauto| |]; congruence.
      + rewrite He. split; intros Hx; [|congruence]. destruct Hoa as [[Hx2|Hx2] _]; [tauto| |]; congruence.
      + rewrite He. tauto.
    - intros Ha. split; [apply Hn; congruence|rewrite Hs; reflexivity]. }
  exists o'. split; [|split; [|split; [|split]]].
  - intros a. rewrite Hs. rewrite H1. pose proof (Hold a) as Hoa.
    destruct (Hcases a) as [[Ha He]|[[Ha He]|[He _]]]; rewrite He; [| |tauto].
    + split; intros _; [discriminate|]. destruct Hoa as [[Hx2|Hx2] _]; [tauto| |]; congruence.
    + split; intros _; [discriminate|]. destruct Hoa as [[Hx2|Hx2] _]; [tauto| |]; congruence.
  - pose proof (Hold 0) as Hoa. destruct (Hcases 0) as [[Ha He]|[[Ha He]|[He _]]]; [| |congruence].
    + destruct Hoa as [[Hx2|Hx2] _]; [tauto| |]; congruence.
    + destruct Hoa as [[Hx2|Hx2] _]; [tauto| |]; congruence.
  - intros j. destruct (Z.eq_dec j i) as [->|Hj].
    + exists lp'. split; [assumption|]. split; [|auto]. intros a. split; [apply Hp|].
      intros Ha. destruct (Hcases a) as [[Hb He]|[[Hb He]|[He [Hb _]]]]; [assumption|congruence|congruence].
    + eapply pool_keep; [apply Hk; congruence|apply Hh; assumption|apply H3].
  - intros t'. destruct (Nat.eq_dec t' t) as [->|Ht'].
    + exists lt'. split; [assumption|]. split; [|assumption]. intros a. split; [apply Hq|].
      intros Ha. destruct (Hcases a) as [[Hb He]|[[Hb He]|[He [_ Hb]]]]; [congruence|assumption|congruence].
    + eapply thr_keep; [apply Hk; congruence|apply Ht; assumption|apply H4].
  - eapply live_keep; [apply Hk; discriminate|assumption|assumption].
Qed.

(* thread [t] gives its block [b] away or gets it *)
Lemma inv_give : forall c o c' t b p lt',
  (forall a, sys c a <> None <-> o a <> Nowhere) -> o 0 = Nowhere ->
  (forall i, pool_inv c o i) -> (forall t, thr_inv c o t) ->
  o b <> p -> b <> 0 ->
  (o b = Thr t \/ p = Thr t) -> (forall i, o b <> Pool i) -> (forall i, p <> Pool i) ->
  (forall s, s <> t -> o b <> Thr s) -> (forall s, s <> t -> p <> Thr s) ->
  (sys c' b <> None <-> p <> Nowhere) -> (forall a, a <> b -> sys c' a = sys c a) ->
  head c' = head c -> (forall t', t' <> t -> thr c' t' = thr c t') ->
  (forall a, o a <> Thr t -> a <> b -> nxt c' a = nxt c a) ->
  NoDup lt' -> (forall a, In a lt' <-> give o b p a = Thr t) ->
  has (nxt c') (sys c') (thr c' t) lt' ->
  live_inv c' (give o b p) -> inv c'.
Proof.
  intros c o c' t b p lt' H1 H2 H3 H4 Hne Hb0 Htp Hnp Hnp' Hnt Hnt' Hsb Hs Hh Ht Hn Hnd Hin Hhas Hlive.
  assert (Hk : forall q, q <> Thr t -> q <> o b -> q <> p -> keeps c o c' (give o b p) q).
  { intros q Hq1 Hq2 Hq3 a. destruct (Z.eq_dec a b) as [->|Ha].
    - rewrite give_eq. split; [split; congruence|congruence].
    - rewrite give_ne by assumption. split; [tauto|]. intros Ho. split; [apply Hn; congruence|apply Hs; assumption]. }
  exists (give o b p). split; [|split; [|split; [|split]]].
  - intros a. destruct (Z.eq_dec a b) as [->|Ha]; [rewrite give_eq; assumption|].
    rewrite give_ne by assumption. rewrite Hs by assumption. apply H1.
  - rewrite give_ne by congruence. assumption.
  - intros i. eapply pool_keep; [apply Hk; [discriminate| |]|rewrite Hh; reflexivity|apply H3].
    + intros He. exact (Hnp i (eq_sym He)).
    + intros He. exact (Hnp' i (eq_sym He)).
  - intros s. destruct (Nat.eq_dec s t) as [->|Hst].
    + exists lt'. auto.
    + eapply thr_keep; [apply Hk; [congruence| |]|apply Ht; assumption|apply H4].
      * intros He. exact (Hnt s Hst (eq_sym He)).
      * intros He. exact (Hnt' s Hst (eq_sym He)).
  - assumption.
Qed.

Definition good (r : result) : Prop := match r with Next c => inv c | Bad => False | Never => True end.

Lemma inv_start : inv start.
Proof.
  exists (fun _ => Nowhere). split; [intros a; simpl; tauto|]. split; [reflexivity|]. split; [|split].
  - intros i. exists []. split; [constructor|]. split; [intros a; simpl; split; [tauto|discriminate]|].
    split; [reflexivity|]. split; [constructor|tauto].
  - intros t. exists []. split; [constructor|]. split; [intros a; simpl; split; [tauto|discriminate]|reflexivity].
  - split; [constructor|]. split; [intros a; simpl; split; [tauto|discriminate]|constructor].
Qed.

Section Step.
Variables (c : config) (o : Z -> place) (t : nat).
Hypothesis H1 : forall a, sys c a <> None <-> o a <> Nowhere.
Hypothesis H2 : o 0 = Nowhere.
Hypothesis H3 : forall i, pool_inv c o i.
Hypothesis H4 : forall t, thr_inv c o t.
Hypothesis H5 : live_inv c o.

Lemma alloc_of : forall a, o a <> Nowhere -> allocated c a = true.
Proof. intros a Ha. apply H1 in Ha. unfold allocated. destruct (sys c a); congruence. Qed.
Lemma nonzero : forall a, o a <> Nowhere -> a <> 0.
Proof. intros a Ha ->. congruence. Qed.

Variable l : list Z.
Hypothesis Hnd : NoDup l.
Hypothesis Hin : forall a, In a l <-> o a = Thr t.

Lemma mine : forall a, In a l -> allocated c a = true.
Proof. intros a Ha. apply alloc_of. apply Hin in Ha. congruence. Qed.
Lemma mine_nz : forall a, In a l -> a <> 0.
Proof. intros a Ha. apply nonzero. apply Hin in Ha. congruence. Qed.

(* steps that move no block *)
Lemma local_ok : forall q, has (nxt c) (sys c) q l -> inv (at_ c t q).
Proof.
  intros q Hq. eapply (inv_local c o _ t); try eassumption; try reflexivity.
  - intros t' Ht. simpl. apply nupd_ne. assumption.
  - exists l. split; [assumption|]. split; [assumption|]. simpl. rewrite nupd_eq. exact Hq.
Qed.
Lemma write_ok : forall b v q, In b l ->
  has (zupd (nxt c) b v) (sys c) q l -> good (wr c b v (fun c => Next (at_ c t q))).
Proof.
  intros b v q Hb Hq. unfold wr. rewrite mine by assumption. simpl.
  eapply (inv_local c o _ t); try eassumption; try reflexivity.
  - intros t' Ht. simpl. apply nupd_ne. assumption.
  - intros a Ha. simpl. apply zupd_ne. intros ->. apply Ha. apply Hin. assumption.
  - exists l. split; [assumption|]. split; [assumption|]. simpl. rewrite nupd_eq. exact Hq.
Qed.
Lemma read_ok : forall b f, In b l -> (good (f (nxt c b))) -> good (rd c b f).
Proof. intros b f Hb Hf. unfold rd. rewrite mine by assumption. exact Hf. Qed.

(* exchange with a pool *)
Lemma pool_ok' : forall i h q lt' lp' lp,
  (forall a, In a lp <-> o a = Pool i) ->
  NoDup (lp' ++ lt') -> (forall a, In a (lp' ++ lt') <-> In a (lp ++ l)) ->
  chain (nxt c) h lp' -> sized (sys c) i lp' -> (lp' <> [] -> 5 <= i < 64) ->
  has (nxt c) (sys c) q lt' -> inv (at_ (set_head c i h) t q).
Proof.
  intros i h q lt' lp' lp Hlp Hn Hp Hc Hz Hi Hq.
  eapply (inv_pool c o _ t i lp l lp' lt'); try eassumption; try reflexivity.
  - intros j Hj. simpl. apply zupd_ne. assumption.
  - intros t' Ht. simpl. apply nupd_ne. assumption.
  - simpl. rewrite zupd_eq. assumption.
  - simpl. rewrite nupd_eq. assumption.
Qed.
Lemma pool_take : forall i q,
  (forall lp, NoDup (lp ++ l) -> chain (nxt c) (head c i) lp -> sized (sys c) i lp ->
     has (nxt c) (sys c) q (l ++ lp)) ->
  inv (at_ (set_head c i 0) t q).
Proof.
  intros i q Hq. destruct (H3 i) as [lp [Hn [Hlp [Hc [Hz Hi]]]]].
  assert (Hd : NoDup (lp ++ l)).
  { apply NoDup_app_iff. split; [assumption|]. split; [assumption|]. intros a Ha Hb.
    apply Hlp in Ha. apply Hin in Hb. congruence. }
  eapply (pool_ok' i 0 q (l ++ lp) [] lp); try eassumption.
  - simpl. apply NoDup_app_iff. apply NoDup_app_iff in Hd. destruct Hd as [Ha [Hb Hx]].
    split; [assumption|]. split; [assumption|]. intros a Hc1 Hc2. exact (Hx a Hc2 Hc1).
  - intros a. simpl. rewrite !in_app_iff. tauto.
  - reflexivity.
  - constructor.
  - congruence.
  - apply Hq; assumption.
Qed.

Lemma sized_app : forall sy i l1 l2, sized sy i (l1 ++ l2) <-> sized sy i l1 /\ sized sy i l2.
Proof. intros. unfold sized. apply Forall_app. Qed.
Lemma sized_cons : forall sy i a l1, sized sy i (a :: l1) <-> sy a = Some (2 ^ i) /\ sized sy i l1.
Proof. intros. unfold sized. split; [intros H; inversion H; auto|intros [Ha Hb]; constructor; assumption]. Qed.
Lemma zupd_chain : forall nx b v h l', ~ In b l' -> chain nx h l' -> chain (zupd nx b v) h l'.
Proof.
  intros nx b v h l' Hb. apply chain_ext. intros a Ha. apply zupd_ne. congruence.
Qed.

Lemma keep_o : forall c', sys c' = sys c -> live c' = live c -> live_inv c' o.
Proof. intros c' Hs Hl. unfold live_inv in *. rewrite Hs, Hl. assumption. Qed.

Lemma step_ok : forall ch, sane ch -> has (nxt c) (sys c) (thr c t) l -> good (step c t ch).
Proof.
  intros ch Hsane Hh. unfold step. destruct (thr c t) as [|r opt|r b|r b n|r b n|r|r b|r b|k p|k p n|i b opt|i b|i b v|i b|i b|i b v|i] eqn:Et.
  - (* Idle *)
    simpl in Hh. rename Hh into El. destruct ch as [elem count opt|k opt| | |k v| |a| |]; try exact I.
    + (* xmemalloc *)
      destruct ((0 <=? elem) && (elem <? 2 ^ 64) && (0 <=? count) && (count <? 2 ^ 64)) eqn:Er; [|exact I].
      repeat rewrite Bool.andb_true_iff in Er. rewrite !Z.leb_le, !Z.ltb_lt in Er. destruct Er as [[[He _] Hc] _].
      destruct (elem * count <? 2 ^ 64) eqn:Em.
      * apply Z.ltb_lt in Em. simpl in Hsane.
        assert (Hs : 0 <= elem * count <= 2 ^ 63) by (split; [apply Z.mul_nonneg_nonneg; lia|lia]).
        destruct (pool_ok (elem * count) Hs) as [i [-> [Hi [Hle Hgt]]]].
        assert (Hr : req_ok (mk_req elem count i (2 ^ i))) by (repeat split; simpl; try assumption; lia).
        simpl. apply local_ok. rewrite El. destruct opt; simpl; repeat split; try assumption; try reflexivity; try discriminate; apply Hr.
      * simpl. exists o. auto.
    + (* xmemfree *)
      destruct (nth_error (live c) k) as [f|] eqn:Ef; [|exact I].
      destruct H5 as [L1 [L2 L3]].
      assert (Hf : In f (live c)) by (eapply nth_error_In; exact Ef).
      pose proof (map_nth_error' _ _ i_data _ _ _ Ef) as Ef'.
      destruct (remove_nth_nodup _ _ _ _ L1 Ef') as [N1 N2]. rewrite <- remove_nth_map in N1, N2.
      assert (Hfo : o (i_data f) = User) by (apply L2; apply in_map; assumption).
      rewrite Forall_forall in L3. destruct (L3 f Hf) as [r [Hr [Hs [Hz [Hc Hw]]]]].
      destruct (final_ok r Hr) as [F1 [F2 [F3 F4]]]. rewrite Hz, Hc, F4. simpl.
      assert (Hreq := Hr). destruct Hreq as [_ [_ [Hp [Hsz _]]]].
      eapply (inv_give c o _ t (i_data f) (Thr t) [i_data f]); try eassumption; try reflexivity.
      * rewrite Hfo. discriminate.
      * apply nonzero. congruence.
      * auto.
      * intros i. congruence.
      * discriminate.
      * intros s Hst. congruence.
      * intros s Hst. congruence.
      * simpl. rewrite Hs. split; intros _; discriminate.
      * intros t' Ht'. simpl. apply nupd_ne. assumption.
      * constructor; [simpl; tauto|constructor].
      * intros a. simpl. destruct (Z.eq_dec a (i_data f)) as [->|Ha].
        -- rewrite give_eq. tauto.
        -- rewrite give_ne by assumption. rewrite <- Hin, El. simpl. split; [intros [Hx|[]]; congruence|tauto].
      * simpl. rewrite nupd_eq. split; [reflexivity|]. split; [apply nonzero; congruence|]. split; [assumption|].
        repeat constructor. rewrite Hs, Hsz. reflexivity.
      * unfold live_inv. simpl. split; [assumption|]. split.
        -- intros a. destruct (Z.eq_dec a (i_data f)) as [->|Ha].
           ++ rewrite give_eq. split; [contradiction|discriminate].
           ++ rewrite give_ne by assumption. rewrite <- L2.
              rewrite (remove_nth_in _ (map i_data (live c)) _ _ Ef'), remove_nth_map. tauto.
        -- rewrite Forall_forall. intros g Hg. apply L3. apply (remove_nth_in _ _ _ _ Ef). auto.
    + (* xmemfree of null *) simpl. exists o. auto.
    + (* xmemclean *) simpl. apply local_ok. exact El.
    + (* the client writes *)
      destruct (nth_error (live c) k) as [f|] eqn:Ef; [|exact I].
      destruct H5 as [L1 [L2 L3]].
      assert (Hf : In f (live c)) by (eapply nth_error_In; exact Ef).
      assert (Hfo : o (i_data f) = User) by (apply L2; apply in_map; assumption).
      unfold wr. rewrite alloc_of by congruence. simpl.
      set (c' := mk_config (sys c) (zupd (nxt c) (i_data f) v) (head c) (thr c) (live c)).
      assert (Hk : forall p, p <> User -> keeps c o c' o p).
      { intros p Hp a. split; [tauto|]. intros Ha. split; [|reflexivity]. simpl. apply zupd_ne. intros ->. congruence. }
      exists o. split; [assumption|]. split; [assumption|]. split; [|split].
      * intros i. eapply pool_keep; [apply Hk; discriminate|reflexivity|apply H3].
      * intros s. eapply thr_keep; [apply Hk; discriminate|reflexivity|apply H4].
      * unfold live_inv. auto.
  - (* AXchg *)
    destruct ch; try exact I. simpl. destruct Hh as [El [Hr Ho]].
    destruct (head c (r_pool r) =? 0) eqn:Eb.
    + apply pool_take. intros lp Hd Hc Hz. apply Z.eqb_eq in Eb. rewrite Eb in Hc. apply chain_null in Hc. subst lp.
      rewrite El. simpl. auto.
    + apply pool_take. intros lp Hd Hc Hz. apply Z.eqb_neq in Eb. rewrite El. destruct opt; simpl; auto.
  - (* ANext *)
    destruct ch; try exact I. destruct Hh as [Hc [Hb [Hr Hz]]].
    destruct (chain_cons _ _ _ Hc Hb) as [l' [El Hc']].
    apply read_ok; [rewrite El; left; reflexivity|]. simpl. destruct (nxt c b =? 0) eqn:En.
    + apply local_ok. simpl. auto.
    + apply local_ok. simpl. exists l'. auto.
  - (* APut *)
    destruct ch; try exact I. simpl. destruct Hh as [l' [El [Hb [Hc [Hr Hz]]]]].
    destruct (H3 (r_pool r)) as [lp [Hn [Hlp [Hcp [Hzp Hi]]]]].
    assert (Hd : NoDup (lp ++ l)).
    { apply NoDup_app_iff. split; [assumption|]. split; [assumption|]. intros a Ha Hx.
      apply Hlp in Ha. apply Hin in Hx. congruence. }
    rewrite El in Hd, Hz. apply NoDup_app_iff in Hd. destruct Hd as [D1 [D2 D3]].
    apply NoDup_cons_iff in D2. destruct D2 as [D4 D5]. apply sized_cons in Hz. destruct Hz as [Z1 Z2].
    eapply (pool_ok' (r_pool r) n _ (b :: lp) l' lp); try eassumption.
    + apply NoDup_app_iff. split; [assumption|]. split.
      * constructor; [|assumption]. intros Ha. exact (D3 b Ha (or_introl eq_refl)).
      * intros a Ha [<-|Hx]; [contradiction|]. exact (D3 a Hx (or_intror Ha)).
    + intros a. rewrite El, !in_app_iff. simpl. tauto.
    + intros _. apply Hr.
    + simpl. exists lp. split; [reflexivity|]. split; [assumption|]. split; [assumption|]. split; [assumption|].
      apply sized_cons. auto.
  - (* ALink *)
    destruct ch; try exact I. destruct Hh as [l' [El [Hb [Hc [Hr Hz]]]]].
    apply write_ok; [rewrite El; left; reflexivity|]. simpl.
    assert (Hnb : ~ In b l') by (pose proof Hnd as Hd; rewrite El in Hd; apply NoDup_cons_iff in Hd; apply Hd).
    split; [|auto]. rewrite El. simpl. split; [reflexivity|]. split; [assumption|].
    rewrite zupd_eq. apply zupd_chain; assumption.
  - (* ANew *)
    destruct Hh as [El Hr]. destruct ch as [elem count opt|k opt| | |k v| |a| |]; try exact I.
    + (* a new block *)
      destruct ((a =? 0) || allocated c a) eqn:Ea; [exact I|]. apply Bool.orb_false_iff in Ea. destruct Ea as [Ea1 Ea2].
      apply Z.eqb_neq in Ea1.
      assert (Ho : o a = Nowhere).
      { destruct (o a) eqn:Eo; [reflexivity| | |]; rewrite alloc_of in Ea2 by congruence; discriminate. }
      simpl. eapply (inv_give c o _ t a (Thr t) [a]); try eassumption; try reflexivity.
      * congruence.
      * auto.
      * congruence.
      * congruence.
      * congruence.
      * congruence.
      * simpl. rewrite zupd_eq. split; discriminate.
      * intros x Hx. simpl. apply zupd_ne. assumption.
      * intros t' Ht'. simpl. apply nupd_ne. assumption.
      * constructor; [simpl; tauto|constructor].
      * intros x. destruct (Z.eq_dec x a) as [->|Hx].
        -- rewrite give_eq. simpl. tauto.
        -- rewrite give_ne by assumption. rewrite <- Hin, El. simpl. split; [intros [Hy|[]]; congruence|tauto].
      * simpl. rewrite nupd_eq. simpl. split; [reflexivity|]. split; [assumption|].
        repeat constructor. rewrite zupd_eq. f_equal. apply Hr.
      * destruct H5 as [L1 [L2 L3]]. unfold live_inv. simpl. split; [assumption|]. split.
        -- intros x. rewrite L2. destruct (Z.eq_dec x a) as [->|Hx]; [rewrite give_eq, Ho; split; discriminate|].
           rewrite give_ne by assumption. tauto.
        -- rewrite Forall_forall in *. intros f Hf. destruct (L3 f Hf) as [r' [Hr' [Hs' Hx']]].
           exists r'. split; [assumption|]. split; [|assumption]. rewrite zupd_ne; [assumption|].
           intros Hx. apply (in_map i_data) in Hf. apply L2 in Hf. congruence.
    + simpl. apply local_ok. exact El.
  - (* ARest *)
    destruct ch; try exact I. destruct Hh as [Hc [Hb [Hr Hz]]].
    destruct (chain_cons _ _ _ Hc Hb) as [l' [El Hc']].
    apply read_ok; [rewrite El; left; reflexivity|]. simpl. apply local_ok. simpl. exists l'. auto.
  - (* AHand *)
    destruct ch; try exact I. simpl. destruct Hh as [El [Hr Hz]].
    assert (Hbo : o b = Thr t) by (apply Hin; rewrite El; left; reflexivity).
    rewrite El in Hz. apply sized_cons in Hz. destruct Hz as [Hz _].
    eapply (inv_give c o _ t b User []); try eassumption; try reflexivity.
    + congruence.
    + apply nonzero. congruence.
    + auto.
    + congruence.
    + discriminate.
    + congruence.
    + discriminate.
    + simpl. rewrite Hz. split; discriminate.
    + intros t' Ht'. simpl. apply nupd_ne. assumption.
    + constructor.
    + intros x. simpl. split; [tauto|]. destruct (Z.eq_dec x b) as [->|Hx]; [rewrite give_eq; discriminate|].
      rewrite give_ne by assumption. intros Ho. apply Hin in Ho. rewrite El in Ho. destruct Ho as [Ho|[]]. congruence.
    + simpl. rewrite nupd_eq. reflexivity.
    + destruct H5 as [L1 [L2 L3]]. unfold live_inv. simpl. split; [|split].
      * constructor; [|assumption]. intros Hx. apply L2 in Hx. congruence.
      * intros x. destruct (Z.eq_dec x b) as [->|Hx]; [rewrite give_eq; tauto|].
        rewrite give_ne by assumption. rewrite <- L2. split; [intros [Hy|Hy]; [congruence|assumption]|auto].
      * constructor; [|assumption]. exists r. split; [assumption|]. split; [|auto].
        simpl. rewrite Hz. f_equal. symmetry. apply Hr.
  - (* Del *)
    destruct ch; try exact I. destruct (p =? 0) eqn:Ep.
    + apply Z.eqb_eq in Ep. subst p. simpl. apply local_ok. destruct k as [r b| |i].
      * destruct Hh as [l' [El [Hc [Hr Hz]]]]. apply chain_null in Hc. subst. simpl. auto.
      * apply chain_null in Hh. assumption.
      * apply chain_null in Hh. simpl. destruct (i <? 63); assumption.
    + apply Z.eqb_neq in Ep. destruct k as [r b| |i].
      * destruct Hh as [l' [El [Hc [Hr Hz]]]]. destruct (chain_cons _ _ _ Hc Ep) as [l'' [El' Hc']]. subst l'.
        apply read_ok; [rewrite El; right; left; reflexivity|]. simpl. apply local_ok. simpl. exists l''. auto.
      * destruct (chain_cons _ _ _ Hh Ep) as [l'' [El Hc']].
        apply read_ok; [rewrite El; left; reflexivity|]. simpl. apply local_ok. simpl. exists l''. auto.
      * destruct (chain_cons _ _ _ Hh Ep) as [l'' [El Hc']].
        apply read_ok; [rewrite El; left; reflexivity|]. simpl. apply local_ok. simpl. exists l''. auto.
  - (* Del2 *)
    destruct ch; try exact I.
    assert (Hp : exists l', In p l /\ NoDup l' /\ (forall a, In a l' <-> In a l /\ a <> p)
      /\ has (nxt c) (zupd (sys c) p None) (Del k n) l').
    { destruct k as [r b| |i].
      - destruct Hh as [l' [El [Hc [Hr Hz]]]]. pose proof Hnd as Hd. rewrite El in Hd, Hz |- *.
        apply NoDup_cons_iff in Hd. destruct Hd as [N1 N2]. pose proof N2 as N2'. apply NoDup_cons_iff in N2'. destruct N2' as [N3 N4].
        apply sized_cons in Hz. destruct Hz as [Z1 Z2]. apply sized_cons in Z2. destruct Z2 as [_ Z2].
        exists (b :: l'). split; [right; left; reflexivity|]. split; [constructor; [|assumption]; intros Hx; apply N1; right; assumption|].
        split.
        + intros a. simpl. split.
          * intros [<-|Ha]; [|split; [auto|intros ->; contradiction]]. split; [auto|]. intros ->. apply N1. left. reflexivity.
          * intros [[Ha|[Ha|Ha]] Hb]; [auto|congruence|auto].
        + simpl. exists l'. split; [reflexivity|]. split; [assumption|]. split; [assumption|]. apply sized_cons. split.
          * rewrite zupd_ne; [assumption|]. intros ->. apply N1. left. reflexivity.
          * eapply sized_ext; [|exact Z2]. intros a Ha. apply zupd_ne. intros ->. contradiction.
      - destruct Hh as [l' [El Hc]]. pose proof Hnd as Hd. rewrite El in Hd |- *. apply NoDup_cons_iff in Hd. destruct Hd as [N1 N2].
        exists l'. split; [left; reflexivity|]. split; [assumption|]. split; [|exact Hc].
        intros a. simpl. split; [intros Ha; split; [auto|intros ->; contradiction]|intros [[Ha|Ha] Hb]; [congruence|assumption]].
      - destruct Hh as [l' [El Hc]]. pose proof Hnd as Hd. rewrite El in Hd |- *. apply NoDup_cons_iff in Hd. destruct Hd as [N1 N2].
        exists l'. split; [left; reflexivity|]. split; [assumption|]. split; [|exact Hc].
        intros a. simpl. split; [intros Ha; split; [auto|intros ->; contradiction]|intros [[Ha|Ha] Hb]; [congruence|assumption]]. }
    destruct Hp as [l' [Hp [Hn' [Hi' Hhas]]]]. rewrite mine by assumption. simpl.
    assert (Hpo : o p = Thr t) by (apply Hin; assumption).
    eapply (inv_give c o _ t p Nowhere l'); try eassumption; try reflexivity.
    + congruence.
    + apply nonzero. congruence.
    + auto.
    + congruence.
    + discriminate.
    + congruence.
    + discriminate.
    + simpl. rewrite zupd_eq. tauto.
    + intros a Ha. simpl. apply zupd_ne. assumption.
    + intros t' Ht'. simpl. apply nupd_ne. assumption.
    + intros a. rewrite Hi'. destruct (Z.eq_dec a p) as [->|Ha]; [rewrite give_eq; split; [tauto|discriminate]|].
      rewrite give_ne by assumption. rewrite Hin. tauto.
    + simpl. rewrite nupd_eq. exact Hhas.
    + destruct H5 as [L1 [L2 L3]]. unfold live_inv. simpl. split; [assumption|]. split.
      * intros x. rewrite L2. destruct (Z.eq_dec x p) as [->|Hx]; [rewrite give_eq, Hpo; split; discriminate|].
        rewrite give_ne by assumption. tauto.
      * rewrite Forall_forall in *. intros f Hf. destruct (L3 f Hf) as [r' [Hr' [Hs' Hx']]].
        exists r'. split; [assumption|]. split; [|assumption]. rewrite zupd_ne; [assumption|].
        intros Hx. apply (in_map i_data) in Hf. apply L2 in Hf. congruence.
  - (* FNull *)
    destruct ch; try exact I. destruct Hh as [El [Hb [Hi Hz]]].
    apply write_ok; [rewrite El; left; reflexivity|]. destruct opt; simpl; auto.
    rewrite El. simpl. split; [reflexivity|]. split; [assumption|apply zupd_eq].
  - (* FLoad *) destruct ch; try exact I. simpl. apply local_ok. exact Hh.
  - (* FStore *)
    destruct ch; try exact I. destruct Hh as [El [Hb [Hi Hz]]].
    apply write_ok; [rewrite El; left; reflexivity|]. simpl. auto.
  - (* FCas *)
    assert (Hb : In b l) by (destruct Hh as [El _]; rewrite El; left; reflexivity).
    assert (Hw : good (wr c b (head c i) (fun c => Next (at_ c t (FCas i b))))).
    { apply write_ok; [assumption|]. exact Hh. }
    destruct ch; try exact I.
    + apply read_ok; [assumption|]. destruct (head c i =? nxt c b) eqn:Ec; [|exact Hw].
      apply Z.eqb_eq in Ec. destruct Hh as [El [Hb0 [Hi Hz]]].
      destruct (H3 i) as [lp [Hn [Hlp [Hcp [Hzp _]]]]].
      assert (Hnb : ~ In b lp). { intros Hx. apply Hlp in Hx. apply Hin in Hb. congruence. }
      simpl. eapply (pool_ok' i b Idle [] (b :: lp) lp); try eassumption.
      * rewrite app_nil_r. constructor; assumption.
      * intros a. rewrite El, app_nil_r, in_app_iff. simpl. tauto.
      * simpl. split; [reflexivity|]. split; [assumption|]. rewrite <- Ec. assumption.
      * apply sized_cons. split; [|assumption]. rewrite El in Hz. apply sized_cons in Hz. apply Hz.
      * intros _. assumption.
      * reflexivity.
    + apply read_ok; assumption.
  - (* FTake *)
    destruct ch; try exact I. simpl. destruct Hh as [El [Hb [Hi Hz]]]. apply pool_take.
    intros lp Hd Hc Hzp. rewrite El. simpl. exists lp. auto.
  - (* FLink *)
    destruct ch; try exact I. destruct Hh as [l' [El [Hb Hc]]].
    apply write_ok; [rewrite El; left; reflexivity|]. simpl.
    assert (Hnb : ~ In b l') by (pose proof Hnd as Hd; rewrite El in Hd; apply NoDup_cons_iff in Hd; apply Hd).
    rewrite El. simpl. split; [reflexivity|]. split; [assumption|]. rewrite zupd_eq. apply zupd_chain; assumption.
  - (* CXchg *)
    destruct ch; try exact I. simpl. simpl in Hh. apply pool_take. intros lp Hd Hc Hz. rewrite Hh. simpl. exact Hc.
Qed.

End Step.

Theorem preserved : forall c t ch, inv c -> sane ch -> good (step c t ch).
Proof.
  intros c t ch [o [H1 [H2 [H3 [H4 H5]]]]] Hs. destruct (H4 t) as [l [Hn [Hi Hh]]].
  eapply step_ok; eassumption.
Qed.
Theorem all_steps : forall l c, inv c -> Forall (fun x => sane (snd x)) l -> good (steps c l).
Proof.
  induction l as [|[t ch] l IH]; intros c Hc Hl; [exact Hc|]. inversion Hl; subst. simpl.
  pose proof (preserved c t ch Hc H1) as Hp. destruct (step c t ch) as [c'| |]; [|contradiction|exact I].
  apply IH; assumption.
Qed.

(* ---- what the invariant says ---- *)
Lemma touch_own : forall c o t b, thr_inv c o t -> touches (thr c t) = Some b -> o b = Thr t.
Proof.
  intros c o t b [l [Hn [Hi Hh]]] Ht. apply Hi.
  destruct (thr c t) as [|r opt|r b0|r b0 n|r b0 n|r|r b0|r b0|k p|k p n|i b0 opt|i b0|i b0 v|i b0|i b0|i b0 v|i];
    simpl in Ht; try discriminate.
  - injection Ht as ->. destruct Hh as [Hc [Hb _]]. destruct (chain_cons _ _ _ Hc Hb) as [l' [-> _]]. left. reflexivity.
  - injection Ht as ->. destruct Hh as [l' [-> _]]. left. reflexivity.
  - injection Ht as ->. destruct Hh as [Hc [Hb _]]. destruct (chain_cons _ _ _ Hc Hb) as [l' [-> _]]. left. reflexivity.
  - destruct (p =? 0) eqn:Ep; [discriminate|]. injection Ht as ->. apply Z.eqb_neq in Ep. destruct k.
    + destruct Hh as [l' [-> [Hc _]]]. destruct (chain_cons _ _ _ Hc Ep) as [l'' [-> _]]. right. left. reflexivity.
    + destruct (chain_cons _ _ _ Hh Ep) as [l'' [-> _]]. left. reflexivity.
    + destruct (chain_cons _ _ _ Hh Ep) as [l'' [-> _]]. left. reflexivity.
  - injection Ht as ->. destruct k.
    + destruct Hh as [l' [-> _]]. right. left. reflexivity.
    + destruct Hh as [l' [-> _]]. left. reflexivity.
    + destruct Hh as [l' [-> _]]. left. reflexivity.
  - injection Ht as ->. destruct Hh as [-> _]. left. reflexivity.
  - injection Ht as ->. destruct Hh as [-> _]. left. reflexivity.
  - injection Ht as ->. destruct Hh as [-> _]. left. reflexivity.
  - injection Ht as ->. destruct Hh as [l' [-> _]]. left. reflexivity.
Qed.

Definition reachable (c : config) : Prop :=
  exists l, Forall (fun x => sane (snd x)) l /\ steps start l = Next c.
Lemma reach_inv : forall c, reachable c -> inv c.
Proof.
  intros c [l [Hl Hs]]. pose proof (all_steps l start inv_start Hl) as H. rewrite Hs in H. exact H.
Qed.

Theorem safe : forall l, Forall (fun x => sane (snd x)) l -> steps start l <> Bad.
Proof. intros l Hl E. pose proof (all_steps l start inv_start Hl) as H. rewrite E in H. exact H. Qed.

Theorem exclusive : forall l c, Forall (fun x => sane (snd x)) l -> steps start l = Next c ->
  NoDup (map i_data (live c)) /\ Forall (enough c) (live c).
Proof.
  intros l c Hl Hs. destruct (reach_inv c (ex_intro _ l (conj Hl Hs))) as [o [H1 [H2 [H3 [H4 [L1 [L2 L3]]]]]]].
  split; [assumption|]. rewrite Forall_forall in *. intros f Hf. destruct (L3 f Hf) as [r [Hr [Hsz [He [Hc Hw]]]]].
  destruct (final_ok r Hr) as [F1 [F2 [F3 F4]]]. unfold enough. rewrite He, Hc, Hw. split; [exact F3|].
  exists (r_size r). auto.
Qed.

Theorem no_race : forall l c t b, Forall (fun x => sane (snd x)) l -> steps start l = Next c ->
  touches (thr c t) = Some b ->
  ~ In b (map i_data (live c)) /\ (forall t', t' <> t -> touches (thr c t') <> Some b)
  /\ (forall i bs, list_at c (head c i) bs -> ~ In b bs).
Proof.
  intros l c t b Hl Hs Ht. destruct (reach_inv c (ex_intro _ l (conj Hl Hs))) as [o [H1 [H2 [H3 [H4 [L1 [L2 L3]]]]]]].
  pose proof (touch_own _ _ _ _ (H4 t) Ht) as Ho. split; [|split].
  - intros Hb. apply L2 in Hb. congruence.
  - intros t' Hne Ht'. pose proof (touch_own _ _ _ _ (H4 t') Ht') as Ho'. congruence.
  - intros i bs Hc Hb. apply chain_list_at in Hc. destruct (H3 i) as [lp [Hn [Hlp [Hcp _]]]].
    assert (bs = lp).
    { clear - Hc Hcp. revert lp Hcp Hc. generalize (head c i). induction bs as [|a bs IH]; intros h lp H1 H2.
      - simpl in H2. subst. symmetry. eapply chain_null. exact H1.
      - destruct H2 as [-> [Ha H2]]. destruct (chain_cons _ _ _ H1 Ha) as [r [-> H1']]. f_equal. eapply IH; eassumption. }
    subst. apply Hlp in Hb. congruence.
Qed.

Theorem accounted : forall l c, Forall (fun x => sane (snd x)) l -> steps start l = Next c ->
  (forall t, thr c t = Idle) ->
  exists pools : Z -> list Z,
    (forall i, list_at c (head c i) (pools i) /\ NoDup (pools i)
               /\ Forall (fun b => 5 <= i < 64 /\ sys c b = Some (2 ^ i)) (pools i))
    /\ forall b, sys c b <> None ->
         (In b (map i_data (live c)) /\ forall i, ~ In b (pools i))
         \/ (~ In b (map i_data (live c)) /\ exists i, In b (pools i) /\ forall j, In b (pools j) -> j = i).
Proof.
  intros l c Hl Hs Hidle. destruct (reach_inv c (ex_intro _ l (conj Hl Hs))) as [o [H1 [H2 [H3 [H4 [L1 [L2 L3]]]]]]].
  (* read the pools with enough fuel: follow the links *)
  set (follow := fix follow (n : nat) (h : Z) : list Z :=
        match n with O => [] | S n => if h =? 0 then [] else h :: follow n (nxt c h) end).
  assert (Hfol : forall bs h n, chain (nxt c) h bs -> (length bs <= n)%nat -> follow n h = bs).
  { induction bs as [|a bs IH]; intros h n Hc Hn.
    - simpl in Hc. subst. destruct n; reflexivity.
    - destruct Hc as [-> [Ha Hc]]. destruct n as [|n]; [simpl in Hn; lia|]. simpl.
      replace (a =? 0) with false by (symmetry; apply Z.eqb_neq; assumption). f_equal. apply IH; [assumption|simpl in Hn; lia]. }
  (* only finitely many pools are not empty *)
  assert (Hn : exists n, forall i lp, chain (nxt c) (head c i) lp -> (length lp <= n)%nat).
  { assert (Hk : forall k, exists n, forall i lp, 0 <= i < Z.of_nat k -> chain (nxt c) (head c i) lp -> (length lp <= n)%nat).
    { induction k as [|k [n Hn]]; [exists O; intros; lia|].
      destruct (H3 (Z.of_nat k)) as [lp0 [_ [_ [Hc0 _]]]]. exists (Nat.max n (length lp0)). intros i lp Hi Hc.
      destruct (Z.eq_dec i (Z.of_nat k)) as [->|Hne].
      - assert (follow (length lp + length lp0)%nat (head c (Z.of_nat k)) = lp) by (apply Hfol; [assumption|lia]).
        assert (follow (length lp + length lp0)%nat (head c (Z.of_nat k)) = lp0) by (apply Hfol; [assumption|lia]).
        assert (lp = lp0) by congruence. subst. lia.
      - pose proof (Hn i lp ltac:(lia) Hc). lia. }
    destruct (Hk 64%nat) as [n Hn]. exists n. intros i lp Hc. destruct lp as [|a lp]; [simpl; lia|].
    destruct (H3 i) as [lp0 [_ [_ [Hc0 [_ Hi]]]]].
    assert (Hne : lp0 <> []). { intros ->. simpl in Hc0. rewrite Hc0 in Hc. destruct Hc as [Hx [Hy _]]. congruence. }
    apply (Hn i); [specialize (Hi Hne); lia|assumption]. }
  destruct Hn as [n Hn]. exists (fun i => follow n (head c i)). split.
  - intros i. destruct (H3 i) as [lp [Hnd [Hlp [Hc [Hz Hi]]]]].
    rewrite (Hfol lp) by (try assumption; eapply Hn; eassumption). split; [apply chain_list_at; assumption|].
    split; [assumption|]. unfold sized in Hz. rewrite Forall_forall in *. intros b Hb. split; [|auto].
    apply Hi. intros ->. contradiction.
  - assert (Hin : forall i b, In b (follow n (head c i)) <-> o b = Pool i).
    { intros i b. destruct (H3 i) as [lp [_ [Hlp [Hc _]]]].
      rewrite (Hfol lp) by (try assumption; eapply Hn; eassumption). apply Hlp. }
    intros b Hb. apply H1 in Hb. destruct (o b) as [|i|t|] eqn:Eo; [congruence| | |].
    + right. split; [intros Hx; apply L2 in Hx; congruence|]. exists i. split; [apply Hin; assumption|].
      intros j Hj. apply Hin in Hj. congruence.
    + exfalso. destruct (H4 t) as [lt [_ [Hlt Hh]]]. rewrite Hidle in Hh. simpl in Hh. subst. apply Hlt in Eo. destruct Eo.
    + left. split; [apply L2; assumption|]. intros i Hi. apply Hin in Hi. congruence.
Qed.
