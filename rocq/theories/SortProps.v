(* C19-C21: sorting and searching arrays *)
From Verif Require Import Base SortModel SortSpec SortProofs SortSearchProofs.

Theorem C19_sort_stable : forall (A St : Type) (c : A -> A -> compare), total_preorder c ->
  forall (st : St) l, exists out, array_sort (pure c) st l = (st, Ok out) /\ is_stable_sort c l out.
Proof. exact @sort_ok. Qed.
Print Assumptions C19_sort_stable.

Theorem C19_usort_first : forall (A St : Type) (c : A -> A -> compare), total_preorder c ->
  forall (st : St) l, exists out, array_usort (pure c) st l = (st, Ok out) /\ is_unique_sort c l out.
Proof. exact @usort_ok. Qed.
Print Assumptions C19_usort_first.

(* sorting the pairs of an object by key *)
Theorem C19_ksort : forall (K V St : Type) (c : K -> K -> compare), total_preorder c ->
  forall (st : St) (l : list (K * V)), exists out, array_ksort (pure c) st l = (st, Ok out) /\
    is_stable_sort (fun p q => c (fst p) (fst q)) l out.
Proof. exact @ksort_ok. Qed.
Print Assumptions C19_ksort.

Theorem C19_is_sorted : forall (A St : Type) (c : A -> A -> compare), total_preorder c ->
  forall (st : St) l, exists b, array_is_sorted (pure c) st l = (st, Ok b) /\
    (b = true <-> StronglySorted (not_after c) l).
Proof. exact @is_sorted_ok. Qed.
Print Assumptions C19_is_sorted.

(* pairs compared by their first component only *)
Definition by_fst (p q : Z * Z) : compare :=
  match Z.compare (fst p) (fst q) with Lt => Less | Eq => Equal | Gt => Greater end.
Definition sample : list (Z * Z) := [(3,0);(1,1);(2,2);(3,3);(1,4);(2,5);(1,6)].
Example C19_ex_sort : snd (array_sort (pure by_fst) tt sample)
  = Ok [(1,1);(1,4);(1,6);(2,2);(2,5);(3,0);(3,3)].
Proof. vm_compute. reflexivity. Qed.
Example C19_ex_usort : snd (array_usort (pure by_fst) tt sample) = Ok [(1,1);(2,2);(3,0)].
Proof. vm_compute. reflexivity. Qed.
Example C19_ex_preorder : total_preorder by_fst.
Proof.
  constructor; unfold by_fst; intros.
  - destruct (fst x ?= fst y); discriminate.
  - rewrite Z.compare_antisym. destruct (fst x ?= fst y); reflexivity.
  - destruct (Z.compare_spec (fst x) (fst y)), (Z.compare_spec (fst y) (fst z)),
      (Z.compare_spec (fst x) (fst z)); try discriminate; try congruence; lia.
Qed.

(* Any comparator: stateful, inconsistent, throwing. *)
Theorem C20_sort_permutes : forall (A St : Type) (comp : St -> A -> A -> St * option compare) st l,
  match snd (array_sort comp st l) with
  | Ok out => Permutation l out | Throw => True | UB => False end.
Proof. exact @sort_any. Qed.
Print Assumptions C20_sort_permutes.

Theorem C20_usort_selects : forall (A St : Type) (comp : St -> A -> A -> St * option compare) st l,
  match snd (array_usort comp st l) with
  | Ok out => exists dropped, Permutation l (out ++ dropped) | Throw => True | UB => False end.
Proof. exact @usort_any. Qed.
Print Assumptions C20_usort_selects.

(* throws exactly when a comparison threw or was unordered *)
Theorem C20_throws_iff : forall (A St : Type) (comp : St -> A -> A -> St * option compare) st l,
  match array_sort (noting comp) (st, false) l with (_, UB) => False | ((_, bad), r) => bad = true <-> r = Throw end /\
  match array_usort (noting comp) (st, false) l with (_, UB) => False | ((_, bad), r) => bad = true <-> r = Throw end.
Proof. exact @sort_fail. Qed.
Print Assumptions C20_throws_iff.

Theorem C20_search_in_range : forall (A St : Type) (comp : St -> A -> A -> St * option compare) st l t,
  (match snd (array_binary_search comp st l t) with Ok (Some p) => (p < length l)%nat | Ok None => True | Throw => True | UB => False end) /\
  (match snd (array_lower_bound comp st l t) with Ok p => (p <= length l)%nat | Throw => True | UB => False end) /\
  (match snd (array_upper_bound comp st l t) with Ok p => (p <= length l)%nat | Throw => True | UB => False end) /\
  (match snd (array_equal_range comp st l t) with Ok (p, n) => (p + n <= length l)%nat | Throw => True | UB => False end).
Proof. exact @search_any. Qed.
Print Assumptions C20_search_in_range.

(* a comparator that answers Greater and Less in turn *)
Definition flipflop : bool -> Z -> Z -> bool * option compare :=
  fun st _ _ => (negb st, Some (if st then Less else Greater)).
Example C20_ex : snd (array_sort flipflop true [1;2;3;4;5]) = Ok [5;1;4;2;3].
Proof. vm_compute. reflexivity. Qed.
Example C20_ex_unordered : snd (array_sort (pure (fun x y => if Z.eqb x 3 then Unordered else Less)) tt [1;2;3;4]) = Throw.
Proof. vm_compute. reflexivity. Qed.

Theorem C21_lower_bound : forall (A St : Type) (c : A -> A -> compare), total_preorder c ->
  forall (st : St) l t, StronglySorted (not_after c) l ->
  array_lower_bound (pure c) st l t = (st, Ok (count (fun x => cmp_eqb (c x t) Less) l)).
Proof. exact @lower_bound_ok. Qed.
Print Assumptions C21_lower_bound.

Theorem C21_upper_bound : forall (A St : Type) (c : A -> A -> compare), total_preorder c ->
  forall (st : St) l t, StronglySorted (not_after c) l ->
  array_upper_bound (pure c) st l t = (st, Ok (count (fun x => negb (cmp_eqb (c x t) Greater)) l)).
Proof. exact @upper_bound_ok. Qed.
Print Assumptions C21_upper_bound.

Theorem C21_equal_range : forall (A St : Type) (c : A -> A -> compare), total_preorder c ->
  forall (st : St) l t, StronglySorted (not_after c) l ->
  array_equal_range (pure c) st l t =
    (st, Ok (count (fun x => cmp_eqb (c x t) Less) l, count (fun x => cmp_eqb (c x t) Equal) l)).
Proof. exact @equal_range_ok. Qed.
Print Assumptions C21_equal_range.

Theorem C21_binary_search : forall (A St : Type) (c : A -> A -> compare), total_preorder c ->
  forall (st : St) l t, StronglySorted (not_after c) l ->
  (exists i x, array_binary_search (pure c) st l t = (st, Ok (Some i)) /\ nth_error l i = Some x /\ c x t = Equal) \/
  (array_binary_search (pure c) st l t = (st, Ok None) /\ forall x, In x l -> c x t <> Equal).
Proof. exact @binary_search_ok. Qed.
Print Assumptions C21_binary_search.

Definition sorted_sample : list (Z * Z) := [(1,1);(1,4);(2,2);(2,5);(2,7);(4,0)].
Example C21_ex_range : snd (array_equal_range (pure by_fst) tt sorted_sample (2,0)) = Ok (2,3)%nat.
Proof. vm_compute. reflexivity. Qed.
Example C21_ex_missing : snd (array_equal_range (pure by_fst) tt sorted_sample (3,0)) = Ok (5,0)%nat.
Proof. vm_compute. reflexivity. Qed.
Example C21_ex_search : snd (array_binary_search (pure by_fst) tt sorted_sample (3,0)) = Ok None.
Proof. vm_compute. reflexivity. Qed.
