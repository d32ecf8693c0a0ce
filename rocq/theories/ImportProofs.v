From Verif Require Import Base Text ImportModel ImportSpec.

Scheme loads_ind2 := Induction for loads Sort Prop with does_ind2 := Induction for does Sort Prop.
Combined Scheme loads_does_ind from loads_ind2, does_ind2.

Lemma mem_in i l : mem i l = true <-> In i l.
Proof.
  unfold mem. rewrite existsb_exists. split; [intros (x & I & E); apply Z.eqb_eq in E; now subst|]. intros I. exists i. split; [exact I|apply Z.eqb_refl].
Qed.
Lemma filter_id i l : ~ In i l -> filter (fun j => negb (j =? i)) l = l.
Proof.
  induction l as [|x l IH]; intros N; [reflexivity|]. cbn [filter]. destruct (Z.eqb_spec x i) as [->|E]; [elim N; now left|].
  cbn [negb]. f_equal. apply IH. intros I. apply N. now right.
Qed.

Section Loader.
Variable id_of : path -> option Z.
Variable contents : Z -> script.
Variable flock : nat -> bool.
Hypothesis flocks : forall k, flock k = true.
Variable all : list Z.
Hypothesis known : forall p i, id_of p = Some i -> In i all.

Notation import := (import id_of contents flock).
Notation loads := (loads id_of contents).
Notation does := (does id_of contents).

Definition good (L : list Z) (f : loader -> path -> result) : Prop :=
  forall st p, locked st = L -> exists st' tr r, f st p = (st', tr, r) /\ locked st' = L /\ loads L p tr r /\ r <> UB.
Lemma run_ok L f : good L f -> forall s st, locked st = L ->
  exists st' tr r, run f st s = (st', tr, r) /\ locked st' = L /\ does L s tr r /\ r <> UB.
Proof.
  intros G. induction s as [|a s IH]; intros st E.
  - exists st, [], (Ok tt). repeat split; [exact E|constructor|discriminate].
  - destruct a as [n| |p c]; cbn [run].
    + destruct (IH st E) as (st' & tr & r & R & E' & D & U). rewrite R. exists st', (Said n :: tr), r. repeat split; [exact E'|now constructor|exact U].
    + exists st, [], Throw. repeat split; [exact E|constructor|discriminate].
    + destruct (G st p E) as (st1 & t1 & r1 & R1 & E1 & L1 & U1). rewrite R1.
      destruct (IH st1 E1) as (st' & tr & r & R & E' & D & U).
      destruct r1 as [[]| |]; [| |now elim U1].
      * rewrite R. exists st', (t1 ++ tr), r. repeat split; [exact E'|now apply does_import|exact U].
      * destruct c; [rewrite R; exists st', (t1 ++ tr), r; repeat split; [exact E'|now apply does_catch|exact U]|].
        exists st1, t1, Throw. repeat split; [exact E1|now apply does_throw|discriminate].
Qed.
Lemma import_good : forall fuel L, NoDup L -> incl L all -> (length all <= fuel + length L)%nat -> good L (import fuel).
Proof.
  assert (X : forall L i p, NoDup L -> incl L all -> id_of p = Some i -> ~ In i L -> NoDup (i :: L) /\ incl (i :: L) all /\ (length L < length all)%nat).
  { intros L i p N I E M. assert (N' : NoDup (i :: L)) by now constructor.
    assert (I' : incl (i :: L) all) by (intros j [<-|J]; [exact (known p i E)|now apply I]).
    split; [exact N'|]. split; [exact I'|]. exact (NoDup_incl_length N' I'). }
  induction fuel as [|fuel IH]; intros L N I F st p E; cbn [ImportModel.import]; unfold do_lock_stream;
    (destruct (id_of p) as [i|] eqn:Q; [|exists st, [Refused p], Throw; repeat split; [exact E|now apply loads_missing|discriminate]]);
    (rewrite E; destruct (mem i L) eqn:M; [apply mem_in in M; exists st, [Refused p], Throw; repeat split; [exact E|now apply (loads_denied _ _ L p i)|discriminate]|]);
    (assert (M' : ~ In i L) by (rewrite <- mem_in, M; discriminate)); destruct (X L i p N I Q M') as (N' & I' & LT); [lia|].
  rewrite flocks.
  destruct (run_ok (i :: L) (import fuel) (IH (i :: L) N' I' ltac:(cbn [length]; lia)) (contents i) (Loader (i :: L) (S (calls st))) eq_refl)
    as (st' & tr & r & R & E' & D & U).
  rewrite R. exists (do_unlock_stream st' i), (Began i :: tr ++ [Ended i]), r. split; [reflexivity|]. split; [|split; [now apply loads_file|exact U]].
  unfold do_unlock_stream. cbn [locked]. rewrite E'. cbn [filter]. rewrite Z.eqb_refl. cbn [negb]. now apply filter_id.
Qed.
End Loader.

Lemma import_ok id_of contents flock all : (forall k, flock k = true) -> (forall p i, id_of p = Some i -> In i all) ->
  forall p k, exists st' tr r, import id_of contents flock (length all) (Loader [] k) p = (st', tr, r) /\
    locked st' = [] /\ loads id_of contents [] p tr r /\ r <> UB.
Proof.
  intros F K p k. apply (import_good id_of contents flock F all K (length all) []); [constructor|intros i []|cbn; lia|reflexivity].
Qed.
Lemma nested_app A t1 t2 : nested A t1 -> nested A t2 -> nested A (t1 ++ t2).
Proof.
  intros N1 N2. induction N1 as [A|A n tr N IH|A p tr N IH|A i tr tr' M N IH N' IH']; cbn [app]; [exact N2|constructor; auto|constructor; auto|].
  rewrite <- app_assoc. cbn [app]. constructor; auto.
Qed.
Lemma loads_nested id_of contents : forall A,
  (forall p tr r, loads id_of contents A p tr r -> nested A tr) /\ (forall s tr r, does id_of contents A s tr r -> nested A tr).
Proof.
  apply (loads_does_ind id_of contents (fun A p tr r _ => nested A tr) (fun A s tr r _ => nested A tr)).
  - intros A p E. repeat constructor.
  - intros A p i E I. repeat constructor.
  - intros A p i tr r E N D IH. change (nested A (Began i :: tr ++ Ended i :: [])). constructor; [exact N|exact IH|constructor].
  - intros A. constructor.
  - intros A n s tr r D IH. now constructor.
  - intros A s. constructor.
  - intros A p c s t1 t2 r L IH1 D IH2. now apply nested_app.
  - intros A p s t1 t2 r L IH1 D IH2. now apply nested_app.
  - intros A p s t1 L IH. exact IH.
Qed.
(* the meaning is unique *)
Ltac uniq := repeat match goal with
  | IH : forall tr' r', loads _ _ ?A ?p tr' r' -> _, H : loads _ _ ?A ?p _ _ |- _ => apply IH in H as [? ?]
  | IH : forall tr' r', does _ _ ?A ?s tr' r' -> _, H : does _ _ ?A ?s _ _ |- _ => apply IH in H as [? ?]
  end; subst; try discriminate; auto.
Lemma loads_unique id_of contents : forall A,
  (forall p tr r, loads id_of contents A p tr r -> forall tr' r', loads id_of contents A p tr' r' -> tr = tr' /\ r = r') /\
  (forall s tr r, does id_of contents A s tr r -> forall tr' r', does id_of contents A s tr' r' -> tr = tr' /\ r = r').
Proof.
  apply (loads_does_ind id_of contents (fun A p tr r _ => forall tr' r', loads id_of contents A p tr' r' -> tr = tr' /\ r = r')
    (fun A s tr r _ => forall tr' r', does id_of contents A s tr' r' -> tr = tr' /\ r = r')).
  - intros A p E tr' r' H. inversion H; subst; auto; congruence.
  - intros A p i E I tr' r' H. inversion H; subst; auto. assert (i0 = i) by congruence. subst. contradiction.
  - intros A p i tr r E N D IH tr' r' H. inversion H; subst; [congruence|assert (i0 = i) by congruence; subst; contradiction|].
    assert (i0 = i) by congruence. subst. uniq.
  - intros A tr' r' H. inversion H. auto.
  - intros A n s tr r D IH tr' r' H. inversion H; subst. uniq.
  - intros A s tr' r' H. inversion H. auto.
  - intros A p c s t1 t2 r L1 IH1 D IH2 tr' r' H. inversion H; subst; uniq.
  - intros A p s t1 t2 r L1 IH1 D IH2 tr' r' H. inversion H; subst; uniq.
  - intros A p s t1 L1 IH1 tr' r' H. inversion H; subst; uniq.
Qed.
Lemma leak : exists id_of contents flock p st tr,
  import id_of contents flock 1 (Loader [] 0) p = (st, tr, Throw) /\ (forall k, (calls st <= k)%nat -> flock k = true) /\
  import id_of contents flock 1 st p = (st, [Refused p], Throw) /\
  exists tr', loads id_of contents [] p tr' (Ok tt).
Proof.
  exists (fun _ => Some 1), (fun _ => [Say 7]), (fun k => negb (Nat.eqb k 0)), []. eexists. eexists.
  split; [vm_compute; reflexivity|]. split; [intros [|k] H; [cbn in H; lia|reflexivity]|]. split; [reflexivity|].
  exists [Began 1; Said 7; Ended 1]. apply (loads_file _ _ [] [] 1 [Said 7]); [reflexivity|intros []|]. repeat constructor.
Qed.
