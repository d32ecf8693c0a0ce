(* C33, C34: a pass of the garbage collector over one generation. *)
From Verif Require Import Base GcModel GcSpec GcProofs.

(* A pass terminates, violates none of its assertions and does what GcSpec.v
   says, for every memory, every order of the hash maps, with and without a
   next generation. *)
Theorem C34_exact : forall w base tracked next pick n,
  coherent w -> closed w -> exact_counts w base -> managed w tracked ->
  incl tracked (w_vars w) -> NoDup tracked ->
  (length tracked + 2 * length (universe w) < n)%nat ->
  exists r, collect (w_heap w) base pick n tracked next = GOk r /\ pass_ok w tracked next r.
Proof. exact collect_ok. Qed.
Print Assumptions C34_exact.

(* Whatever cannot be reached from outside or from another generation is
   cleared. *)
Theorem C34_complete : forall w base tracked next pick n r,
  coherent w -> closed w -> exact_counts w base -> managed w tracked ->
  incl tracked (w_vars w) -> NoDup tracked ->
  (length tracked + 2 * length (universe w) < n)%nat ->
  collect (w_heap w) base pick n tracked next = GOk r ->
  forall v, In v tracked -> ~ outside w tracked v -> In v (r_cleared r).
Proof. exact collect_complete. Qed.
Print Assumptions C34_complete.

(* Nothing that can be reached from outside is cleared, provided that no
   reference inside a visited variable is shared with a value outside of
   variables or with a variable that is not visited. *)
Theorem C33_safe_partial : forall w base tracked next pick n r,
  coherent w -> closed w -> exact_counts w base -> managed w tracked -> unshared w tracked ->
  incl tracked (w_vars w) -> NoDup tracked ->
  (length tracked + 2 * length (universe w) < n)%nat ->
  collect (w_heap w) base pick n tracked next = GOk r ->
  forall v, In v (r_cleared r) -> ~ reach w v.
Proof. exact collect_safe. Qed.
Print Assumptions C33_safe_partial.

(* Without that proviso it is false.  First memory: variable 1 of an older
   generation, which a name refers to, and variable 2 of this generation hold
   the same function, which captures variables 2 and 3:

     var f;  std.gc.collect(0);
     f = func() { var x, v = 1;  x = func() { x; v; };  return x; }();
     std.gc.collect(0);

   The pass clears x and v although f still uses them. *)
Theorem C33_shared_refuted : exists w base tracked next pick n r v,
  coherent w /\ closed w /\ exact_counts w base /\ managed w tracked /\
  incl tracked (w_vars w) /\ NoDup tracked /\
  (length tracked + 2 * length (universe w) < n)%nat /\ w_outer w = [] /\
  collect (w_heap w) base pick n tracked next = GOk r /\
  In v (r_cleared r) /\ reach w v.
Proof. exact shared_refuted. Qed.
Print Assumptions C33_shared_refuted.

(* Second memory: the function is a temporary value, such as an argument of a
   call in progress. *)
Theorem C33_temporary_refuted : exists w base tracked next pick n r v,
  coherent w /\ closed w /\ exact_counts w base /\ managed w tracked /\
  tracked = w_vars w /\ NoDup tracked /\
  (length tracked + 2 * length (universe w) < n)%nat /\
  collect (w_heap w) base pick n tracked next = GOk r /\
  In v (r_cleared r) /\ reach w v.
Proof. exact temporary_refuted. Qed.
Print Assumptions C33_temporary_refuted.

(* If a variable is held by no map of a collector (one that was cleared, put
   into the pool and dropped with the pool while a variable of an older
   generation still referred to it), an assertion of the second loop fails. *)
Theorem C33_assert_refuted : exists w base tracked next pick n,
  coherent w /\ closed w /\ exact_counts w base /\
  incl tracked (w_vars w) /\ NoDup tracked /\
  (length tracked + 2 * length (universe w) < n)%nat /\
  collect (w_heap w) base pick n tracked next = GAssert.
Proof. exact assert_refuted. Qed.
Print Assumptions C33_assert_refuted.

(* ---- example ---- *)

(* Variable 1 has a name and holds an array [ref 2]; 2 and 3 refer to each
   other and 3 to itself; 4 and 5 are a cycle that nothing else refers to, and
   4 also refers to 2; the pass clears 4 and 5 and promotes the others. *)
Definition ex_heap (v : Z) : val :=
  match v with
  | 1 => VNode 10 [VLeaf; VNode 11 [VRef 12 2]]
  | 2 => VNode 20 [VRef 21 3]
  | 3 => VNode 30 [VRef 31 2; VRef 32 3]
  | 4 => VNode 40 [VRef 41 5; VRef 42 2]
  | 5 => VNode 50 [VRef 51 4]
  | _ => VLeaf
  end.
Definition ex_base (v : Z) : Z :=
  match v with 1 => 1 | 2 => 3 | 3 => 2 | 4 => 1 | 5 => 1 | _ => 0 end.

Example C34_ex :
  collect ex_heap ex_base (fun _ i => i) 50 [1; 2; 3; 4; 5] (Some [9])
  = GOk (mk_result [4; 5] [] [3; 2; 1; 9] 3).
Proof. reflexivity. Qed.

Example C34_ex_oldest :
  collect ex_heap ex_base (fun _ i => i) 50 [1; 2; 3; 4; 5] None
  = GOk (mk_result [4; 5] [1; 2; 3] [] 0).
Proof. reflexivity. Qed.
