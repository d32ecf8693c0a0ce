(* C06: comparing values *)
From Verif Require Import Base Text SortModel SortSpec ValueModel ValueSpec ValueProofs.
Open Scope Z_scope.

(* the comparison terminates, never has undefined behaviour and gives the order of the specification *)
Theorem C06_compare : forall a b, wf_value a -> wf_value b -> compares a b (vcmp a b).
Proof. exact compares_vcmp. Qed.
Print Assumptions C06_compare.

(* numbers of either type compare as the rationals they denote *)
Theorem C06_exact_numbers : forall a b x y, wf_value a -> wf_value b ->
  num_of a = Some x -> num_of b = Some y -> compares a b (num_cmp x y).
Proof. exact compares_num. Qed.
Print Assumptions C06_exact_numbers.

Theorem C06_swap : forall a b c, wf_value a -> wf_value b -> compares a b c -> compares b a (flip c).
Proof. exact compares_swap. Qed.
Print Assumptions C06_swap.

Theorem C06_reflexive : forall a, wf_value a -> plain a = true -> compares a a Equal.
Proof. exact compares_refl. Qed.
Print Assumptions C06_reflexive.

(* equal values are interchangeable in comparisons; transitivity of equality is r = Equal *)
Theorem C06_equal_transitive : forall a b c r, wf_value a -> wf_value b -> wf_value c ->
  compares a b Equal -> compares b c r -> compares a c r.
Proof. exact compares_equal_trans. Qed.
Print Assumptions C06_equal_transitive.

Theorem C06_less_irreflexive : forall a, wf_value a -> ~ compares a a Less.
Proof. exact compares_less_irrefl. Qed.
Print Assumptions C06_less_irreflexive.

Theorem C06_less_transitive : forall a b c, wf_value a -> wf_value b -> wf_value c ->
  compares a b Less -> compares b c Less -> compares a c Less.
Proof. exact compares_less_trans. Qed.
Print Assumptions C06_less_transitive.

(* compare_total throws exactly on unordered operands *)
Theorem C06_total : forall a b, wf_value a -> wf_value b ->
  exists n, forall fuel, (n <= fuel)%nat ->
    compare_total fuel a b = Some (if cmp_eqb (vcmp a b) Unordered then Throw else Ok (vcmp a b)).
Proof. exact compare_total_ok. Qed.
Print Assumptions C06_total.

(* 2^53 + 1 against the double 2^53, which is what a conversion to nearest would give *)
Example C06_ex_near : compare_partial 5 (VInt (2 ^ 53 + 1)) (VReal (RFin false (2 ^ 52) 1)) = Some (Ok Greater).
Proof. vm_compute. reflexivity. Qed.
(* INT64_MAX against 2^63 *)
Example C06_ex_max : compare_partial 5 (VReal (RFin false (2 ^ 52) 11)) (VInt (2 ^ 63 - 1)) = Some (Ok Greater).
Proof. vm_compute. reflexivity. Qed.
Example C06_ex_neg : compare_partial 5 (VInt (- (2 ^ 53) - 1)) (VReal (RFin true (2 ^ 52) 1)) = Some (Ok Less).
Proof. vm_compute. reflexivity. Qed.
Example C06_ex_array :
  compare_partial 20 (VArr [VInt 1; VArr [VStr (str "a"); VBool true]; VNull])
                     (VArr [VReal (RFin false 1 0); VArr [VStr (str "a")]; VInt 5]) = Some (Ok Greater).
Proof. vm_compute. reflexivity. Qed.
Example C06_ex_nan : compare_partial 20 (VArr [VReal RNan]) (VArr [VReal RNan]) = Some (Ok Unordered).
Proof. vm_compute. reflexivity. Qed.
Example C06_ex_wf : wf_value (VArr [VInt (2 ^ 53 + 1); VReal (RFin false (2 ^ 52) 1)]) /\
  vcmp (VInt (2 ^ 53 + 1)) (VReal (RFin false (2 ^ 52) 1)) = Greater.
Proof. split; [cbn; unfold is_int64, int64_min, int64_max; repeat split; lia|vm_compute; reflexivity]. Qed.
