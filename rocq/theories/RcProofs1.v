(* The invariant of reference-counted storage. *)
From Verif Require Import Base RcModel RcSpec.

Lemma upd_eq {A} (f : nat -> A) k v : upd f k v k = v.
Proof. unfold upd. rewrite Nat.eqb_refl. reflexivity. Qed.

Lemma upd_ne {A} (f : nat -> A) k v x : x <> k -> upd f k v x = f x.
Proof. unfold upd. destruct (Nat.eqb_spec x k); congruence. Qed.

(* numbers *)
Lemma number_ext (P Q : handle -> Prop) n : (forall h, Q h <-> P h) -> number P n -> number Q n.
Proof.
  intros E (l & Hn & Hl & ->). exists l. split; [exact Hn | split; [|reflexivity]].
  intros h. rewrite E. apply Hl.
Qed.

Lemma number_add (P Q : handle -> Prop) h0 n :
  ~ P h0 -> (forall h, Q h <-> h = h0 \/ P h) -> number P n -> number Q (n + 1).
Proof.
  intros Hp E (l & Hn & Hl & ->). exists (h0 :: l). split; [|split].
  - constructor; [|exact Hn]. intro X. apply Hp, Hl, X.
  - intros h. rewrite E. simpl. rewrite Hl. intuition congruence.
  - simpl length. lia.
Qed.

Lemma handle_dec (a b : handle) : {a = b} + {a <> b}.
Proof. decide equality; apply Nat.eq_dec. Qed.

Lemma remove_length (h0 : handle) l :
  NoDup l -> In h0 l -> S (length (remove handle_dec h0 l)) = length l.
Proof.
  induction l as [|a l IH]; intros Hn Hi; [inversion Hi|].
  inversion Hn as [|? ? Ha Hn']; subst. simpl. destruct (handle_dec h0 a) as [<-|Na].
  - rewrite notin_remove by exact Ha. reflexivity.
  - simpl. f_equal. apply IH; [exact Hn'|]. destruct Hi as [->|Hi]; [congruence | exact Hi].
Qed.

Lemma nodup_remove (h0 : handle) l : NoDup l -> NoDup (remove handle_dec h0 l).
Proof.
  induction 1 as [|a l Ha Hn IH]; simpl; [constructor|].
  destruct (handle_dec h0 a); [exact IH|]. constructor; [|exact IH].
  intro X. apply in_remove in X. tauto.
Qed.

Lemma number_del (P Q : handle -> Prop) h0 n :
  P h0 -> (forall h, Q h <-> h <> h0 /\ P h) -> number P n -> number Q (n - 1).
Proof.
  intros Hp E (l & Hn & Hl & ->). exists (remove handle_dec h0 l). split; [|split].
  - apply nodup_remove, Hn.
  - intros h. rewrite E, <- Hl. split.
    + intro X. apply in_remove in X. tauto.
    + intros [X Y]. apply in_in_remove; assumption.
  - pose proof (remove_length h0 l Hn (proj2 (Hl h0) Hp)). lia.
Qed.

Lemma number_move (P Q : handle -> Prop) h0 h1 n :
  P h0 -> ~ P h1 -> (forall h, Q h <-> h = h1 \/ (h <> h0 /\ P h)) -> number P n -> number Q n.
Proof.
  intros H0 H1 E H. replace n with ((n - 1) + 1) by lia.
  apply (number_add (fun h => h <> h0 /\ P h) Q h1).
  - tauto.
  - exact E.
  - apply (number_del P _ h0); [exact H0 | tauto | exact H].
Qed.

Lemma number_zero P : number P 0 -> forall h, ~ P h.
Proof.
  intros (l & _ & Hl & E) h Hp. apply Hl in Hp. destruct l; [inversion Hp|].
  simpl length in E. lia.
Qed.

Lemma number_one P h0 : number P 1 -> P h0 -> forall h, P h -> h = h0.
Proof.
  intros (l & _ & Hl & E) H0 h Hp. apply Hl in H0, Hp.
  destruct l as [|a [|b l]]; simpl length in E; try lia.
  destruct H0 as [<-|[]]. destruct Hp as [<-|[]]. reflexivity.
Qed.

Lemma number_none P n : number P n -> (forall h, ~ P h) -> n = 0.
Proof.
  intros (l & _ & Hl & ->) H. destruct l as [|a l]; [reflexivity|].
  exfalso. apply (H a), Hl. left. reflexivity.
Qed.

Lemma number_some P n h0 : number P n -> P h0 -> 1 <= n.
Proof.
  intros (l & _ & Hl & ->) H. apply Hl in H. destruct l; [inversion H|]. simpl length. lia.
Qed.

Lemma number_nonneg P n : number P n -> 0 <= n.
Proof. intros (l & _ & _ & ->). lia. Qed.

(* the invariant *)
Definition target (p : pc) : option nat :=
  match p with
  | PReset d _ => Some d
  | PWrite x _ | PClone x _ | PMove x _ | PCopy x _ => Some x
  | _ => None
  end.

Definition edits (p : pc) : option nat :=
  match p with PWrite x _ | PClone x _ | PMove x _ | PCopy x _ => Some x | _ => None end.

Definition alone (p : pc) : option nat :=
  match p with PWrite x _ | PMove x _ => Some x | _ => None end.

(* there is a trace of access i at handle h *)
Definition trace (c : config) (h : handle) (i : nat) : Prop :=
  match h with
  | V x => In i (vc c x) \/ exists v, In v (holders c x) /\ In i (know c v)
  | T t => In i (know c t)
  end.

(* whoever uses handle h knows about access i *)
Definition sure (c : config) (h : handle) (i : nat) : Prop :=
  match h with
  | V x => (forall v, In v (holders c x) -> In i (know c v)) /\ (excl c x = false -> In i (vc c x))
  | T t => In i (know c t)
  end.

Record Inv (acq : bool) (c : config) : Prop := {
  i_count : forall b m, heap c b = Some m -> number (fun h => refers c h b) (cnt m);
  i_live : forall h b, refers c h b -> exists m, heap c b = Some m;
  i_last : forall b m, heap c b = Some m -> cnt m = 0 -> exists t, pcs c t = PDestroy b;
  i_dead : forall t b, pcs c t = PDestroy b -> exists m, heap c b = Some m /\ cnt m = 0
             /\ (forall i k, In (i, k) (acc m) -> In i (know c t))
             /\ (forall u, pcs c u = PDestroy b -> u = t);
  i_own : forall t x, target (pcs c t) = Some x -> holders c x = [t] /\ excl c x = true;
  i_edit : forall t x, edits (pcs c t) = Some x -> exists b, slot c x = Some b;
  i_sole : forall t x b m, alone (pcs c t) = Some x -> slot c x = Some b -> heap c b = Some m ->
             cnt m = 1 /\ (acq = true -> forall i k, In (i, k) (acc m) -> In i (know c t));
  i_excl : forall x, excl c x = true -> exists t, holders c x = [t] /\ incl (vc c x) (know c t);
  i_trace : forall b m i k, heap c b = Some m -> In (i, k) (acc m) ->
              In i (rel m) \/ (exists h, refers c h b /\ trace c h i) \/ (exists t, pcs c t = PDestroy b);
  i_sure : forall b m i k h, heap c b = Some m -> In (i, k) (acc m) -> k = In' \/ k = Wr ->
             refers c h b -> sure c h i;
  i_kind : forall b m i k, heap c b = Some m -> In (i, k) (acc m) -> k <> De
}.

Lemma inv_start acq : Inv acq start.
Proof.
  constructor; simpl; intros; try discriminate.
  destruct h; discriminate.
Qed.

Ltac uq :=
  repeat match goal with
  | |- context [upd _ ?k _ ?x] =>
      let E := fresh "E" in
      unfold upd at 1; destruct (Nat.eqb_spec x k) as [E|E]; [subst|]
  | H : context [upd _ ?k _ ?x] |- _ =>
      let E := fresh "E" in
      unfold upd at 1 in H; destruct (Nat.eqb_spec x k) as [E|E]; [subst|]
  end.

(* knowledge only grows *)
Lemma trace_know c t k h i : trace c h i -> trace (set_know c t (know c t ++ k)) h i.
Proof.
  destruct h as [x|u]; simpl.
  - intros [H | (v & H1 & H2)]; [left; exact H | right]. exists v. split; [exact H1|].
    uq; [apply in_or_app; left|]; exact H2.
  - intro H. uq; [apply in_or_app; left|]; exact H.
Qed.

Lemma sure_know c t k h i : sure c h i -> sure (set_know c t (know c t ++ k)) h i.
Proof.
  destruct h as [x|u]; simpl.
  - intros [H1 H2]. split; [|exact H2]. intros v Hv. specialize (H1 v Hv).
    uq; [apply in_or_app; left|]; exact H1.
  - intro H. uq; [apply in_or_app; left|]; exact H.
Qed.

Lemma know_grow c t k u i : In i (know c u) -> In i (know (set_know c t (know c t ++ k)) u).
Proof. simpl. intro H. uq; [apply in_or_app; left|]; exact H. Qed.

Lemma inv_know acq c t k : Inv acq c -> Inv acq (set_know c t (know c t ++ k)).
Proof.
  intros [A1 A2 A3 A4 A5 A6 A7 A8 A9 A10 A11].
  constructor.
  - exact A1.
  - exact A2.
  - exact A3.
  - intros u b H. destruct (A4 u b H) as (m & B1 & B2 & B3 & B4). exists m.
    split; [exact B1 | split; [exact B2 | split; [|exact B4]]].
    intros i q Hq. apply know_grow. exact (B3 i q Hq).
  - exact A5.
  - exact A6.
  - intros u x b m H1 H2 H3. destruct (A7 u x b m H1 H2 H3) as (B1 & B2).
    split; [exact B1|]. intros Q i q Hq. apply know_grow. exact (B2 Q i q Hq).
  - intros x H. destruct (A8 x H) as (u & B1 & B2). exists u. split; [exact B1|].
    intros i Hi. apply know_grow. apply B2, Hi.
  - intros b m i q H1 H2. destruct (A9 b m i q H1 H2) as [B | [(h & B1 & B2) | B]].
    + left. exact B.
    + right. left. exists h. split; [exact B1|]. apply trace_know, B2.
    + right. right. exact B.
  - intros b m i q h H1 H2 H3 H4. apply sure_know. exact (A10 b m i q h H1 H2 H3 H4).
  - exact A11.
Qed.

(* who may access a block *)
Definition access (c : config) (t b : nat) : Prop := exists x, slot c x = Some b /\ In t (holders c x).

Definition touched (c : config) (t b : nat) (k : kind) (m : blk) : config :=
  set_now (set_know (set_heap c b (Some (mk_blk (cnt m) (data m) (rel m) ((now c, k) :: acc m)))) t
             (now c :: know c t)) (S (now c)).

Lemma knows_spec c t i : knows c t i = true <-> In i (know c t).
Proof.
  unfold knows. rewrite existsb_exists. split.
  - intros (x & H & E). apply Nat.eqb_eq in E. subst. exact H.
  - intro H. exists i. split; [exact H | apply Nat.eqb_refl].
Qed.

Lemma held_spec c t x : held c t x = true <-> In t (holders c x).
Proof.
  unfold held. rewrite existsb_exists. split.
  - intros (v & H & E). apply Nat.eqb_eq in E. subst. exact H.
  - intro H. exists t. split; [exact H | apply Nat.eqb_refl].
Qed.

Lemma touch_cases c t b k go m :
  heap c b = Some m ->
  (exists i o, In (i, o) (acc m) /\ conflict k o = true /\ ~ In i (know c t) /\ touch c t b k go = Race k o)
  \/ touch c t b k go = go (touched c t b k m) (mk_blk (cnt m) (data m) (rel m) ((now c, k) :: acc m)).
Proof.
  intro H. unfold touch. rewrite H.
  destruct (find _ (acc m)) as [[i o]|] eqn:F.
  - left. apply find_some in F. destruct F as [F1 F2]. simpl in F2.
    apply andb_prop in F2. destruct F2 as [F2 F3]. exists i, o. repeat split; auto.
    intro X. apply knows_spec in X. rewrite X in F3. discriminate.
  - right. reflexivity.
Qed.

Lemma in_know_touched c t b k m u i : In i (know c u) -> In i (know (touched c t b k m) u).
Proof. simpl. intro H. uq; [right|]; exact H. Qed.

(* an access by a thread that may make it keeps the invariant *)
Lemma inv_touch acq c t b k m :
  Inv acq c -> heap c b = Some m -> access c t b -> k = Rd \/ k = At
    \/ (k = Wr /\ exists x, alone (pcs c t) = Some x /\ slot c x = Some b) ->
  Inv acq (touched c t b k m).
Proof.
  intros [A1 A2 A3 A4 A5 A6 A7 A8 A9 A10 A11] Hm (x0 & Hx0 & Hh0) Hk.
  assert (Hdead : forall u, pcs c u <> PDestroy b).
  { intros u X. destruct (A4 u b X) as (m' & B1 & B2 & _). rewrite Hm in B1. injection B1 as <-.
    pose proof (A1 b m Hm) as N. rewrite B2 in N. exact (number_zero _ N (V x0) Hx0). }
  constructor.
  - intros b' m' H. simpl in H. uq; [|exact (A1 b' m' H)]. injection H as <-. exact (A1 b m Hm).
  - intros h b' H. simpl. uq; [eexists; reflexivity|]. exact (A2 h b' H).
  - intros b' m' H H0. simpl in H. uq; [|exact (A3 b' m' H H0)]. injection H as <-. exact (A3 b m Hm H0).
  - intros u b' H. simpl in H. assert (b' <> b) by (intros ->; exact (Hdead u H)).
    destruct (A4 u b' H) as (m' & B1 & B2 & B3 & B4). exists m'. simpl. rewrite upd_ne by assumption.
    split; [exact B1 | split; [exact B2 | split; [|exact B4]]].
    intros i q Hq. apply (in_know_touched c t b k m). exact (B3 i q Hq).
  - exact A5.
  - exact A6.
  - intros u x b' m' H1 H2 H3. simpl in H1, H2, H3. uq.
    + injection H3 as <-. destruct (A7 u x b m H1 H2 Hm) as (B1 & B2). simpl. split; [exact B1|].
      intros Q i q [Hq|Hq].
      * injection Hq as <- <-.
        assert (V x0 = V x) as X.
        { pose proof (A1 b m Hm) as N. rewrite B1 in N. exact (number_one _ (V x) N H2 (V x0) Hx0). }
        injection X as ->. destruct (A5 u x) as [C1 _].
        { destruct (pcs c u); simpl in *; congruence. }
        rewrite C1 in Hh0. destruct Hh0 as [<-|[]]. rewrite upd_eq. left. reflexivity.
      * apply (in_know_touched c t b k m). exact (B2 Q i q Hq).
    + destruct (A7 u x b' m' H1 H2 H3) as (B1 & B2). split; [exact B1|].
      intros Q i q Hq. apply (in_know_touched c t b k m). exact (B2 Q i q Hq).
  - intros x H. destruct (A8 x H) as (u & B1 & B2). exists u. split; [exact B1|].
    intros i Hi. apply (in_know_touched c t b k m). apply B2, Hi.
  - intros b' m' i q H1 H2. simpl in H1. uq.
    + injection H1 as <-. simpl in H2 |- *. destruct H2 as [H2|H2].
      * injection H2 as <- <-. right. left. exists (V x0). split; [exact Hx0|]. simpl. right.
        exists t. split; [exact Hh0|]. rewrite upd_eq. left. reflexivity.
      * destruct (A9 b m i q Hm H2) as [B | [(h & B1 & B2) | (u & B)]].
        -- left. exact B.
        -- right. left. exists h. split; [exact B1|]. destruct h as [x|u]; simpl in B2 |- *.
           ++ destruct B2 as [B2 | (v & B2 & B3)]; [left; exact B2|]. right. exists v.
              split; [exact B2|]. apply (in_know_touched c t b k m), B3.
           ++ apply (in_know_touched c t b k m), B2.
        -- destruct (Hdead u B).
    + destruct (A9 b' m' i q H1 H2) as [B | [(h & B1 & B2) | (u & B)]].
      * left. exact B.
      * right. left. exists h. split; [exact B1|]. destruct h as [x|u]; simpl in B2 |- *.
        ++ destruct B2 as [B2 | (v & B2 & B3)]; [left; exact B2|]. right. exists v.
           split; [exact B2|]. apply (in_know_touched c t b k m), B3.
        ++ apply (in_know_touched c t b k m), B2.
      * right. right. exists u. exact B.
  - intros b' m' i q h H1 H2 H3 H4.
    assert (S : forall h, sure c h i -> sure (touched c t b k m) h i).
    { clear - A1. intros [x|u] B; simpl in B |- *.
      - destruct B as [B1 B2]. split; [|exact B2]. intros v Hv. apply (in_know_touched c t b k m). exact (B1 v Hv).
      - apply (in_know_touched c t b k m), B. }
    simpl in H1. uq.
    + injection H1 as <-. simpl in H2. destruct H2 as [H2|H2]; [|apply S; exact (A10 b m i q h Hm H2 H3 H4)].
      injection H2 as <- <-.
      destruct Hk as [-> | [-> | (-> & x & C1 & C2)]]; [destruct H3; discriminate | destruct H3; discriminate|].
      destruct (A7 t x b m C1 C2 Hm) as (B1 & _).
      pose proof (A1 b m Hm) as N. rewrite B1 in N.
      assert (h = V x) as -> by exact (number_one _ (V x) N C2 h H4).
      destruct (A5 t x) as [D1 D2]; [destruct (pcs c t); simpl in *; congruence|].
      simpl. rewrite D1, D2. split; [|discriminate].
      intros v [<-|[]]. rewrite upd_eq. left. reflexivity.
    + apply S. exact (A10 b' m' i q h H1 H2 H3 H4).
  - intros b' m' i q H1 H2. simpl in H1. uq; [|exact (A11 b' m' i q H1 H2)].
    injection H1 as <-. destruct H2 as [H2|H2]; [|exact (A11 b m i q Hm H2)].
    injection H2 as <- <-. destruct Hk as [-> | [-> | [-> _]]]; discriminate.
Qed.

(* the contents of a block do not matter *)
Lemma inv_data acq c b m v :
  Inv acq c -> heap c b = Some m -> Inv acq (set_heap c b (Some (mk_blk (cnt m) v (rel m) (acc m)))).
Proof.
  intros [A1 A2 A3 A4 A5 A6 A7 A8 A9 A10 A11] Hm.
  assert (E : forall b' m', upd (heap c) b (Some (mk_blk (cnt m) v (rel m) (acc m))) b' = Some m' ->
          exists m0, heap c b' = Some m0 /\ cnt m' = cnt m0 /\ rel m' = rel m0 /\ acc m' = acc m0).
  { intros b' m' H. uq; [injection H as <-; exists m; repeat split; exact Hm | exists m'; repeat split; exact H]. }
  assert (F : forall b' m0, heap c b' = Some m0 ->
          exists m', upd (heap c) b (Some (mk_blk (cnt m) v (rel m) (acc m))) b' = Some m'
            /\ cnt m' = cnt m0 /\ acc m' = acc m0).
  { intros b' m0 H. unfold upd. destruct (Nat.eqb_spec b' b) as [->|N].
    - rewrite Hm in H. injection H as <-. eexists. repeat split.
    - exists m0. repeat split. exact H. }
  constructor.
  - intros b' m' H. destruct (E b' m' H) as (m0 & B1 & -> & _). exact (A1 b' m0 B1).
  - intros h b' H. destruct (A2 h b' H) as (m0 & B). destruct (F b' m0 B) as (m' & C & _). exists m'. exact C.
  - intros b' m' H H0. destruct (E b' m' H) as (m0 & B1 & B2 & _). apply (A3 b' m0 B1). congruence.
  - intros u b' H. destruct (A4 u b' H) as (m0 & B1 & B2 & B3 & B4). destruct (F b' m0 B1) as (m' & C1 & C2 & C3).
    exists m'. split; [exact C1 | split; [congruence | split; [|exact B4]]].
    intros i k Hk. rewrite C3 in Hk. exact (B3 i k Hk).
  - exact A5.
  - exact A6.
  - intros u x b' m' H1 H2 H3. destruct (E b' m' H3) as (m0 & B1 & B2 & _ & B4). rewrite B2, B4.
    exact (A7 u x b' m0 H1 H2 B1).
  - exact A8.
  - intros b' m' i k H1 H2. destruct (E b' m' H1) as (m0 & B1 & _ & B3 & B4). rewrite B3. rewrite B4 in H2.
    exact (A9 b' m0 i k B1 H2).
  - intros b' m' i k h H1 H2 H3 H4. destruct (E b' m' H1) as (m0 & B1 & _ & _ & B4). rewrite B4 in H2.
    exact (A10 b' m0 i k h B1 H2 H3 H4).
  - intros b' m' i k H1 H2. destruct (E b' m' H1) as (m0 & B1 & _ & _ & B4). rewrite B4 in H2.
    exact (A11 b' m0 i k B1 H2).
Qed.
