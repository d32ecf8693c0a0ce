From Verif Require Import Base XmemModel XmemSpec XmemProofs2.
From Coq Require Import Lia.

(* ------------------------------------------------------------------ *)
(* C35: whatever any number of threads do, in whatever order, no block is
   touched that is not allocated, nor deleted twice *)
Theorem C35_safe_partial : forall l, Forall (fun x => sane (snd x)) l -> steps start l <> Bad.
Proof. exact safe. Qed.
Print Assumptions C35_safe_partial.

(* no two clients have the same block, and every client has what it asked for *)
Theorem C35_exclusive_partial : forall l c,
  Forall (fun x => sane (snd x)) l -> steps start l = Next c ->
  NoDup (map i_data (live c)) /\ Forall (enough c) (live c).
Proof. exact exclusive. Qed.
Print Assumptions C35_exclusive_partial.

(* a block which a thread is about to touch belongs to no client, to no other
   thread and to no pool *)
Theorem C35_race_free_partial : forall l c t b,
  Forall (fun x => sane (snd x)) l -> steps start l = Next c ->
  touches (thr c t) = Some b ->
  ~ In b (map i_data (live c)) /\ (forall t', t' <> t -> touches (thr c t') <> Some b)
  /\ (forall i bs, list_at c (head c i) bs -> ~ In b bs).
Proof. exact no_race. Qed.
Print Assumptions C35_race_free_partial.

(* when no call is in progress every block that the system has given out is in
   the hands of a client or in exactly one pool, whose size it has *)
Theorem C35_no_leak_partial : forall l c,
  Forall (fun x => sane (snd x)) l -> steps start l = Next c -> (forall t, thr c t = Idle) ->
  exists pools : Z -> list Z,
    (forall i, list_at c (head c i) (pools i) /\ NoDup (pools i)
               /\ Forall (fun b => 5 <= i < 64 /\ sys c b = Some (2 ^ i)) (pools i))
    /\ forall b, sys c b <> None ->
         (In b (map i_data (live c)) /\ forall i, ~ In b (pools i))
         \/ (~ In b (map i_data (live c)) /\ exists i, In b (pools i) /\ forall j, In b (pools j) -> j = i).
Proof. exact accounted. Qed.
Print Assumptions C35_no_leak_partial.

(* a request for more than 2^63 bytes, which passes the check for overflow *)
Theorem C35_size_refuted : exists elem count, 0 < elem /\ 0 < count /\ elem * count < 2 ^ 64
  /\ forall c t, thr c t = Idle -> step c t (Call_alloc elem count use_cache) = Bad.
Proof.
  exists 1, (2 ^ 63 + 1). split; [reflexivity|]. split; [reflexivity|]. split; [reflexivity|].
  intros c t H. unfold step. rewrite H. reflexivity.
Qed.
Print Assumptions C35_size_refuted.

(* ------------------------------------------------------------------ *)
Definition view (r : result) (pools : list Z) : option (list (Z * Z * Z) * list Z) :=
  match r with
  | Next c => Some (map (fun f => (i_data f, i_size f, i_count f)) (live c), map (head c) pools)
  | _ => None
  end.
Definition all (t : nat) (n : nat) : list (nat * choice) := List.repeat (t, Step) n.
Definition new (t : nat) (elem count a : Z) : list (nat * choice) :=
  [(t, Call_alloc elem count use_cache); (t, Step); (t, Fresh a); (t, Step)].
Definition free (t : nat) (k : nat) : list (nat * choice) := (t, Call_free k use_cache) :: all t 4.

(* two blocks are put into the pool of 64 bytes; then thread 0 takes them both,
   and before it has put one back thread 1 frees a third one *)
Definition prelude : list (nat * choice) :=
  new 0 10 5 1000 ++ new 0 10 6 2000 ++ new 1 8 8 3000 ++ free 0 1 ++ free 0 1.
Example C35_ex_prelude : view (steps start prelude) [5; 6] = Some ([(3000, 8, 8)], [0; 1000]).
Proof. vm_compute. reflexivity. Qed.
Example C35_ex_interleaved :
  view (steps start (prelude
    ++ [(0%nat, Call_alloc 1 40 use_cache); (0%nat, Step)] (* has taken the list *)
    ++ free 1 0                                            (* 3000 into the empty pool *)
    ++ all 0 8)) [5; 6]
  = Some ([(1000, 1, 64)], [0; 2000]).
Proof. vm_compute. reflexivity. Qed.
(* 3000 was put back behind 1000 and is deleted *)
Example C35_ex_deleted :
  match steps start (prelude ++ [(0%nat, Call_alloc 1 40 use_cache); (0%nat, Step)] ++ free 1 0 ++ all 0 8) with
  | Next c => (sys c 1000, sys c 2000, sys c 3000, map i_data (live c), thr c 0%nat)
  | _ => (None, None, None, [], Idle)
  end = (Some 64, Some 64, None, [1000], Idle).
Proof. vm_compute. reflexivity. Qed.
(* a client writes over the link; the next xmemfree sets it again *)
Example C35_ex_clean :
  view (steps start (prelude ++ [(1%nat, Client_write 0 77)] ++ free 1 0 ++ [(0%nat, Call_clean)] ++ all 0 (64 * 2 + 3 * 2)))
       [5; 6] = Some ([], [0; 0]).
Proof. vm_compute. reflexivity. Qed.
Example C35_ex_sane : Forall (fun x => sane (snd x)) prelude.
Proof. repeat (constructor; [first [exact I | left; vm_compute; discriminate]|]). constructor. Qed.
Example C35_ex_touch :
  match steps start (prelude ++ [(0%nat, Call_alloc 1 40 use_cache); (0%nat, Step); (1%nat, Call_free 0 use_cache)]) with
  | Next c => (touches (thr c 0%nat), touches (thr c 1%nat))
  | _ => (None, None)
  end = (Some 1000, Some 3000).
Proof. vm_compute. reflexivity. Qed.
