(* C71: searching, counting and excluding elements of arrays. *)
From Verif Require Import Base SortModel SeqModel SeqSpec FindModel FindSpec FindProofs.

Local Open Scope Z_scope.

(* The elements of the slice are tested in order until one gives [m]; its position is returned.
   The test may have effects and may throw. *)
Theorem C71_find : forall (A St : Type) (test : St -> A -> St * option bool) m st l from len,
  fits l -> opt_int64 from -> opt_int64 len ->
  let lo := range_low (zlen l) from in let hi := range_high (zlen l) from len in
  exists st' r, array_find test m st l from len = (st', at_offset (fun i => lo + i) r) /\
    finds test m st (window lo hi 0 l) st' r.
Proof. exact @array_find_ok. Qed.
Print Assumptions C71_find.

(* The same backwards. *)
Theorem C71_rfind : forall (A St : Type) (test : St -> A -> St * option bool) m st l from len,
  fits l -> opt_int64 from -> opt_int64 len ->
  let lo := range_low (zlen l) from in let hi := range_high (zlen l) from len in
  exists st' r, array_rfind test m st l from len = (st', at_offset (fun i => hi - 1 - i) r) /\
    finds test m st (rev (window lo hi 0 l)) st' r.
Proof. exact @array_rfind_ok. Qed.
Print Assumptions C71_rfind.

(* What is found is determined by the test. *)
Theorem C71_unique : forall (A St : Type) (test : St -> A -> St * option bool) m st l s1 r1 s2 r2,
  finds test m st l s1 r1 -> finds test m st l s2 r2 -> s1 = s2 /\ r1 = r2.
Proof. exact @finds_fun. Qed.
Print Assumptions C71_unique.

(* Every element of the slice is tested once, in order; those that give [m] are counted. *)
Theorem C71_count : forall (A St : Type) (test : St -> A -> St * option bool) m st l from len,
  fits l -> opt_int64 from -> opt_int64 len ->
  let w := window (range_low (zlen l) from) (range_high (zlen l) from len) 0 l in
  (exists bs st', tested test st w bs st' /\
    array_count test m st l from len = (st', Ok (Z.of_nat (count_occ Bool.bool_dec bs m)))) \/
  (exists st', broken test st w st' /\ array_count test m st l from len = (st', Throw)).
Proof. exact @array_count_ok. Qed.
Print Assumptions C71_count.

(* ... or excluded; what is outside of the slice stays. *)
Theorem C71_exclude : forall (A St : Type) (test : St -> A -> St * option bool) m st l from len,
  fits l -> opt_int64 from -> opt_int64 len ->
  let n := zlen l in let lo := range_low n from in let hi := range_high n from len in
  let w := window lo hi 0 l in
  (exists bs st', tested test st w bs st' /\
    array_exclude test m st l from len = (st', Ok (window 0 lo 0 l ++ kept m w bs ++ window hi n 0 l))) \/
  (exists st', broken test st w st' /\ array_exclude test m st l from len = (st', Throw)).
Proof. exact @array_exclude_ok. Qed.
Print Assumptions C71_exclude.

(* With a test that has no effects, excluding is filtering, and counting is counting what a
   filter lets pass. *)
Theorem C71_exclude_pure : forall (A St : Type) (p : A -> bool) m (st : St) l from len,
  fits l -> opt_int64 from -> opt_int64 len ->
  let n := zlen l in let lo := range_low n from in let hi := range_high n from len in
  array_exclude (pure_test p) m st l from len = (st, Ok (window 0 lo 0 l
    ++ filter (fun x => negb (Bool.eqb (p x) m)) (window lo hi 0 l) ++ window hi n 0 l)).
Proof. exact @exclude_pure. Qed.
Print Assumptions C71_exclude_pure.

Theorem C71_count_pure : forall (A St : Type) (p : A -> bool) m (st : St) l from len,
  fits l -> opt_int64 from -> opt_int64 len ->
  array_count (pure_test p) m st l from len = (st, Ok (zlen (filter (fun x => Bool.eqb (p x) m)
    (window (range_low (zlen l) from) (range_high (zlen l) from len) 0 l)))).
Proof. exact @count_pure_ok. Qed.
Print Assumptions C71_count_pure.

(* examples: a test that records what it sees, finds even numbers, and throws at 99 *)
Definition C71_test (st : list Z) (x : Z) : list Z * option bool :=
  (st ++ [x], if x =? 99 then None else Some (Z.even x)).
Example C71_ex_find : array_find C71_test true [] [4; 1; 3; 8; 5; 6] (Some 1) None = ([1; 3; 8], Ok (Some 3)).
Proof. reflexivity. Qed.
Example C71_ex_find_not : array_find C71_test false [] [4; 2; 8; 6] (Some 1) (Some 2) = ([2; 8], Ok None).
Proof. reflexivity. Qed.
Example C71_ex_rfind : array_rfind C71_test true [] [4; 1; 3; 8; 5; 6] (Some 1) (Some 4) = ([5; 8], Ok (Some 3)).
Proof. reflexivity. Qed.
Example C71_ex_throw : array_rfind C71_test true [] [4; 99; 3] None None = ([3; 99], Throw).
Proof. reflexivity. Qed.
Example C71_ex_count : array_count C71_test true [] [4; 1; 3; 8; 5; 6] (Some (-3)) None = ([8; 5; 6], Ok 2).
Proof. reflexivity. Qed.
Example C71_ex_exclude : array_exclude C71_test true [] [4; 2; 8; 3; 6; 0] (Some 1) (Some 4) = ([2; 8; 3; 6], Ok [4; 3; 0]).
Proof. reflexivity. Qed.
