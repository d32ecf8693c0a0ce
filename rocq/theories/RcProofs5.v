(* The theorems about reference-counted storage. *)
From Verif Require Import Base RcModel RcSpec RcProofs1 RcProofs2 RcProofs3 RcProofs4.

Lemma rc_safe acq l : steps acq start l <> Touch /\ steps acq start l <> Assert.
Proof.
  pose proof (good_steps acq l start (inv_start acq)) as G.
  split; intro E; rewrite E in G; exact G.
Qed.

Lemma rc_over acq l c o t a :
  steps acq start l = Next c o -> step acq c (t, a) = Over ->
  exists b, number (fun h => refers c h b) 2147483647.
Proof.
  intros H E. pose proof (good_step acq c t a (reach acq l c o H)) as G. rewrite E in G. exact G.
Qed.

Lemma rc_count acq l c o b m :
  steps acq start l = Next c o -> heap c b = Some m ->
  number (fun h => refers c h b) (cnt m)
  /\ ((exists h, refers c h b) \/ (exists t, pcs c t = PDestroy b)).
Proof.
  intros H Hm. pose proof (reach acq l c o H) as I. pose proof (i_count _ _ I b m Hm) as N. split; [exact N|].
  destruct N as ([|h q] & _ & Hl & E).
  - right. exact (i_last _ _ I b m Hm E).
  - left. exists h. apply Hl. left. reflexivity.
Qed.

Lemma rc_live acq l c o h b :
  steps acq start l = Next c o -> refers c h b -> heap c b <> None.
Proof.
  intros H Hr. destruct (i_live _ _ (reach acq l c o H) h b Hr) as (m & E). congruence.
Qed.

Lemma rc_destroy acq l c o t b :
  steps acq start l = Next c o -> pcs c t = PDestroy b ->
  (forall h, ~ refers c h b) /\ (forall u, pcs c u = PDestroy b -> u = t)
  /\ (forall a, exists c', step acq c (t, Go a) = Next c' None /\ heap c' b = None).
Proof.
  intros H G. pose proof (reach acq l c o H) as I. destruct (i_dead _ _ I t b G) as (m & Hm & Hc & Hk & Hu).
  pose proof (i_count _ _ I b m Hm) as N. rewrite Hc in N.
  split; [exact (number_zero _ N) | split; [exact Hu|]]. intro a. unfold step, ready. rewrite G.
  unfold resume. rewrite G.
  destruct (touch_cases c t b De (fun c _ => Next (set_pc (set_heap c b None) t PIdle) None) m Hm)
    as [(i & k & B1 & _ & B3 & _) | ->]; [destruct (B3 (Hk i k B1))|].
  eexists. split; [reflexivity|]. simpl. apply upd_eq.
Qed.

Lemma rc_values acq l c o t a c' o' :
  steps acq start l = Next c o -> step acq c (t, a) = Next c' o' ->
  (forall y, val c' y = if ready c t a then plain a (val c) y else val c y)
  /\ (forall x, a = Read x -> ready c t a = true -> o' = val c x).
Proof. intros H E. exact (values_step acq c t a c' o' (reach acq l c o H) E). Qed.

Lemma rc_races acq l n o : steps acq start l = Race n o -> acq = false /\ n = Wr /\ o = Rd.
Proof.
  intro E. pose proof (good_steps acq l start (inv_start acq)) as G. rewrite E in G. exact G.
Qed.
