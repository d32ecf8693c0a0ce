(* C72: extremes of arrays, and generation. *)
From Verif Require Import Base Text SortModel SortSpec SeqModel SeqSpec ValueModel FindModel FindSpec FindProofs.

Local Open Scope Z_scope.

(* With a consistent comparator, the result is the first of the greatest elements that are not
   null, and null if there are none. *)
Theorem C72_max : forall (A St : Type) (c : A -> A -> compare), total_preorder c ->
  forall (st : St) (l : list (option A)), exists r, array_max_of (pure c) st l = (st, Ok r) /\
    first_best (fun x y => c y x = Less) (present l) r.
Proof. exact @max_ok. Qed.
Print Assumptions C72_max.

Theorem C72_min : forall (A St : Type) (c : A -> A -> compare), total_preorder c ->
  forall (st : St) (l : list (option A)), exists r, array_min_of (pure c) st l = (st, Ok r) /\
    first_best (fun x y => c y x = Greater) (present l) r.
Proof. exact @min_ok. Qed.
Print Assumptions C72_min.

(* The documentation says that elements which are unordered with the first one are ignored
   silently; an exception is thrown. *)
Theorem C72_unordered_refuted : exists (a b : value),
  compare_partial 10 a b = Some (Ok Unordered) /\
  array_max_of builtin_compare tt [Some a; Some b] = (tt, Throw).
Proof. exact max_unordered. Qed.
Print Assumptions C72_unordered_refuted.

(* The generator is called for 0, 1, 2 and so on, each time with the element before, until there
   are as many elements as requested or it throws. *)
Theorem C72_generate : forall (A St : Type) (gen : St -> Z -> option A -> St * option A) max_size st n,
  0 <= n <= max_size -> max_size < 2 ^ 63 -> exists st' r,
  array_generate gen max_size st n = (st', r) /\
  ((exists l, generated gen st 0 None l st' /\ zlen l = n /\ r = Ok l) \/
   (r = Throw /\ exists l st1, generated gen st 0 None l st1 /\ zlen l < n /\
      gen st1 (zlen l) (last_of l) = (st', None))).
Proof. exact @generate_ok. Qed.
Print Assumptions C72_generate.

(* It is never called if the length is negative or too large; an exception is thrown. *)
Theorem C72_generate_length : forall (A St : Type) (gen : St -> Z -> option A -> St * option A) max_size st n,
  0 <= max_size < 2 ^ 63 -> is_int64 n -> n < 0 \/ max_size < n ->
  array_generate gen max_size st n = (st, Throw).
Proof. exact @generate_too_long. Qed.
Print Assumptions C72_generate_length.

(* examples; pairs are compared by their first components only *)
Definition C72_cmp (x y : Z * Z) : compare :=
  match fst x ?= fst y with Lt => Less | Eq => Equal | Gt => Greater end.
Example C72_ex_preorder : total_preorder C72_cmp.
Proof.
  unfold C72_cmp. split; intros [x x'] [y y']; cbn.
  - destruct (x ?= y); discriminate.
  - rewrite (Z.compare_antisym x y). destruct (x ?= y); reflexivity.
  - intros [z z']. cbn. destruct (Z.compare_spec x y), (Z.compare_spec y z), (Z.compare_spec x z); try congruence; lia.
Qed.
Example C72_ex_max : array_max_of (pure C72_cmp) tt [None; Some (3, 1); None; Some (5, 2); Some (5, 3); Some (4, 4)] = (tt, Ok (Some (5, 2))).
Proof. reflexivity. Qed.
Example C72_ex_min : array_min_of (pure C72_cmp) tt [Some (3, 1); Some (2, 2); None; Some (2, 3)] = (tt, Ok (Some (2, 2))).
Proof. reflexivity. Qed.
Example C72_ex_null : array_max_of (pure C72_cmp) tt [None; None] = (tt, Ok None).
Proof. reflexivity. Qed.
Definition C72_gen (st : list Z) (i : Z) (prev : option Z) : list Z * option Z :=
  (st ++ [i], if i =? 4 then None else Some (match prev with Some p => 2 * p | None => 1 end)).
Example C72_ex_generate : array_generate C72_gen 1000 [] 4 = ([0; 1; 2; 3], Ok [1; 2; 4; 8]).
Proof. reflexivity. Qed.
Example C72_ex_throw : array_generate C72_gen 1000 [] 6 = ([0; 1; 2; 3; 4], Throw).
Proof. reflexivity. Qed.
Example C72_ex_negative : array_generate C72_gen 1000 [] (-1) = ([], Throw).
Proof. reflexivity. Qed.
