From Verif Require Import Base RcModel RcSpec RcProofs1 RcProofs2 RcProofs3 RcProofs4 RcProofs5.

(* C65: whatever any number of threads do, in whatever order, no storage is
   touched that is not allocated, and no count falls below one before it is
   changed *)
Theorem C65_safe : forall l, steps code_acq start l <> Touch /\ steps code_acq start l <> Assert.
Proof. exact (rc_safe code_acq). Qed.
Print Assumptions C65_safe.

(* a count is the number of the variables and of the assignments in progress
   which refer to the storage; storage that nothing refers to is being
   destroyed *)
Theorem C65_count : forall l c o b m,
  steps code_acq start l = Next c o -> heap c b = Some m ->
  number (fun h => refers c h b) (cnt m)
  /\ ((exists h, refers c h b) \/ (exists t, pcs c t = PDestroy b)).
Proof. exact (rc_count code_acq). Qed.
Print Assumptions C65_count.

(* what is referred to is allocated *)
Theorem C65_live : forall l c o h b,
  steps code_acq start l = Next c o -> refers c h b -> heap c b <> None.
Proof. exact (rc_live code_acq). Qed.
Print Assumptions C65_live.

(* one thread destroys storage, after the last reference is gone, and this is
   ordered after everything which any thread has done with the storage *)
Theorem C65_destroy : forall l c o t b,
  steps code_acq start l = Next c o -> pcs c t = PDestroy b ->
  (forall h, ~ refers c h b) /\ (forall u, pcs c u = PDestroy b -> u = t)
  /\ (forall a, exists c', step code_acq c (t, Go a) = Next c' None /\ heap c' b = None).
Proof. exact (rc_destroy code_acq). Qed.
Print Assumptions C65_destroy.

(* variables that share storage behave as plain values: what one thread does to
   a variable is seen in no other variable, and every read gives the value of
   the variable *)
Theorem C65_values : forall l c o t a c' o',
  steps code_acq start l = Next c o -> step code_acq c (t, a) = Next c' o' ->
  (forall y, val c' y = if ready c t a then plain a (val c) y else val c y)
  /\ (forall x, a = Read x -> ready c t a = true -> o' = val c x).
Proof. exact (rc_values code_acq). Qed.
Print Assumptions C65_values.

(* the count overflows only where 2147483647 references to one block exist *)
Theorem C65_over : forall l c o t a,
  steps code_acq start l = Next c o -> step code_acq c (t, a) = Over ->
  exists b, number (fun h => refers c h b) 2147483647.
Proof. exact (rc_over code_acq). Qed.
Print Assumptions C65_over.

(* The only data races are those of a change in place with an earlier read in a
   thread which has since dropped its reference: construction, destruction,
   copies and reads are ordered with everything that conflicts with them. *)
Theorem C65_races_partial : forall l new old,
  steps code_acq start l = Race new old -> new = Wr /\ old = Rd.
Proof. intros l n o H. exact (proj2 (rc_races code_acq l n o H)). Qed.
Print Assumptions C65_races_partial.

(* Such a race there is: reference_counter::unique loads the count with
   memory_order_relaxed, so it does not learn what the thread that dropped the
   other reference has read before. *)
Theorem C65_race_free_refuted : exists l, steps code_acq start l = Race Wr Rd.
Proof.
  exists [(0%nat, LockX 0); (0%nat, New 0 5 7); (0%nat, Go 0);
          (0%nat, LockX 1); (0%nat, Copy 1 0); (0%nat, Go 0); (0%nat, Unlock 1);
          (1%nat, LockX 1); (1%nat, Read 1); (1%nat, Reset 1); (1%nat, Go 0);
          (0%nat, Mutate 0 (fun z => z + 1)); (0%nat, Go 0)].
  reflexivity.
Qed.
Print Assumptions C65_race_free_refuted.

(* with memory_order_acquire in its place there would be none *)
Theorem C65_acquire_race_free : forall l new old, steps true start l <> Race new old.
Proof. intros l n o H. destruct (rc_races true l n o H) as [X _]. discriminate X. Qed.
Print Assumptions C65_acquire_race_free.

(* two variables with one block; one is changed by another thread *)
Definition ex_share : list (nat * action) :=
  [(0%nat, LockX 0); (0%nat, New 0 5 7); (0%nat, Go 0);
   (0%nat, LockX 1); (0%nat, Copy 1 0); (0%nat, Go 0); (0%nat, Unlock 1)].

Definition ex_view (r : res) : option (list (option Z) * list (option Z)) :=
  match r with
  | Next c _ => Some (map (val c) [0; 1]%nat,
                      map (fun b => match heap c b with Some m => Some (cnt m) | None => None end) [7; 8]%nat)
  | _ => None
  end.

Example C65_ex_shared :
  ex_view (steps code_acq start ex_share) = Some ([Some 5; Some 5], [Some 2; None]).
Proof. reflexivity. Qed.

Example C65_ex_changed :
  ex_view (steps code_acq start (ex_share ++
    [(1%nat, LockX 1); (1%nat, Mutate 1 (fun z => z * 2)); (1%nat, Go 8); (1%nat, Go 8); (1%nat, Go 8)]))
  = Some ([Some 5; Some 10], [Some 1; Some 1]).
Proof. reflexivity. Qed.

(* the other reference is dropped while storage is being copied: the elements are moved *)
Example C65_ex_moved :
  ex_view (steps code_acq start (ex_share ++
    [(1%nat, LockX 1); (1%nat, Mutate 1 (fun z => z * 2)); (0%nat, Reset 0); (0%nat, Go 0);
     (1%nat, Go 8); (1%nat, Go 8); (1%nat, Go 8); (1%nat, Go 8)]))
  = Some ([None; Some 10], [None; Some 1]).
Proof. reflexivity. Qed.

(* the last reference is dropped *)
Example C65_ex_destroyed :
  ex_view (steps code_acq start (ex_share ++
    [(0%nat, Reset 0); (0%nat, Go 0); (1%nat, LockX 1); (1%nat, Read 1); (1%nat, Reset 1); (1%nat, Go 0); (1%nat, Go 0)]))
  = Some ([None; None], [None; None]).
Proof. reflexivity. Qed.

(* two threads read and copy one variable at a time *)
Example C65_ex_readers :
  ex_view (steps code_acq start (ex_share ++
    [(1%nat, LockS 1); (2%nat, LockS 1); (1%nat, Read 1); (2%nat, LockX 2); (2%nat, Copy 2 1); (2%nat, Go 0); (1%nat, Read 1)]))
  = Some ([Some 5; Some 5], [Some 3; None]).
Proof. reflexivity. Qed.

(* the race above with an acquire load *)
Example C65_ex_acquire :
  ex_view (steps true start (ex_share ++
    [(1%nat, LockX 1); (1%nat, Read 1); (1%nat, Reset 1); (1%nat, Go 0);
     (0%nat, Mutate 0 (fun z => z + 1)); (0%nat, Go 0)]))
  = Some ([Some 6; None], [Some 1; None]).
Proof. reflexivity. Qed.
