(* Property theorems C07-C10: integer operators. *)
From Verif Require Import Base IntOpsModel IntOpsSpec IntOpsProofs.

(* C07: checked arithmetic *)
Theorem C07_inc : forall v, checked (v + 1) (op_inc v).
Proof. exact op_inc_ok. Qed.
Print Assumptions C07_inc.
Example C07_inc_ex : op_inc int64_max = Throw /\ op_inc (-1) = Ok 0.
Proof. split; reflexivity. Qed.

Theorem C07_dec : forall v, checked (v - 1) (op_dec v).
Proof. exact op_dec_ok. Qed.
Print Assumptions C07_dec.
Example C07_dec_ex : op_dec int64_min = Throw /\ op_dec 0 = Ok (-1).
Proof. split; reflexivity. Qed.

Theorem C07_neg : forall v, checked (- v) (op_neg v).
Proof. exact op_neg_ok. Qed.
Print Assumptions C07_neg.
Example C07_neg_ex : op_neg int64_min = Throw /\ op_neg int64_max = Ok (int64_min + 1).
Proof. split; reflexivity. Qed.

Theorem C07_abs : forall v, is_int64 v -> checked (Z.abs v) (op_abs v).
Proof. exact op_abs_ok. Qed.
Print Assumptions C07_abs.
Example C07_abs_ex : is_int64 (-42) /\ op_abs (-42) = Ok 42 /\ op_abs int64_min = Throw.
Proof. vm_compute; intuition congruence. Qed.

Theorem C07_add : forall l r, checked (l + r) (op_add l r).
Proof. exact op_add_ok. Qed.
Print Assumptions C07_add.
Example C07_add_ex : op_add int64_max 1 = Throw /\ op_add int64_max int64_min = Ok (-1).
Proof. split; reflexivity. Qed.

Theorem C07_sub : forall l r, checked (l - r) (op_sub l r).
Proof. exact op_sub_ok. Qed.
Print Assumptions C07_sub.
Example C07_sub_ex : op_sub 0 int64_min = Throw /\ op_sub (-1) int64_max = Ok int64_min.
Proof. split; reflexivity. Qed.

Theorem C07_mul : forall l r, checked (l * r) (op_mul l r).
Proof. exact op_mul_ok. Qed.
Print Assumptions C07_mul.
Example C07_mul_ex : op_mul int64_min (-1) = Throw /\ op_mul (2 ^ 31) (- 2 ^ 32) = Ok int64_min.
Proof. split; reflexivity. Qed.

(* Division by zero throws; otherwise the truncated quotient, checked. *)
Theorem C07_div_zero : forall l, op_div l 0 = Throw /\ op_mod l 0 = Throw.
Proof. split; reflexivity. Qed.
Print Assumptions C07_div_zero.
Theorem C07_div : forall l r q m, is_int64 l -> is_int64 r -> r <> 0 ->
  trunc_div l r q m -> checked q (op_div l r).
Proof. exact op_div_ok. Qed.
Print Assumptions C07_div.
Example C07_div_ex : trunc_div (-7) 2 (-3) (-1) /\ op_div (-7) 2 = Ok (-3)
  /\ op_div int64_min (-1) = Throw.
Proof. vm_compute; intuition congruence. Qed.

(* The remainder; it throws exactly when the quotient does. *)
Theorem C07_mod : forall l r q m, is_int64 l -> is_int64 r -> r <> 0 ->
  trunc_div l r q m ->
  (is_int64 q /\ op_mod l r = Ok m) \/ (~ is_int64 q /\ op_mod l r = Throw).
Proof. exact op_mod_ok. Qed.
Print Assumptions C07_mod.
Example C07_mod_ex : trunc_div (-7) 2 (-3) (-1) /\ op_mod (-7) 2 = Ok (-1).
Proof. vm_compute; intuition congruence. Qed.

(* C08: modular and saturating arithmetic *)
Theorem C08_addm : forall l r, exists x, op_addm l r = Ok x /\ modular (l + r) x.
Proof. exact op_addm_ok. Qed.
Print Assumptions C08_addm.
Theorem C08_subm : forall l r, exists x, op_subm l r = Ok x /\ modular (l - r) x.
Proof. exact op_subm_ok. Qed.
Print Assumptions C08_subm.
Theorem C08_mulm : forall l r, exists x, op_mulm l r = Ok x /\ modular (l * r) x.
Proof. exact op_mulm_ok. Qed.
Print Assumptions C08_mulm.
Example C08_mod_ex : op_addm int64_max 1 = Ok int64_min /\ op_subm int64_min 1 = Ok int64_max
  /\ op_mulm (2 ^ 62) 6 = Ok int64_min.
Proof. repeat split; reflexivity. Qed.

Theorem C08_adds : forall l r, is_int64 l -> is_int64 r ->
  exists x, op_adds l r = Ok x /\ saturated (l + r) x.
Proof. exact op_adds_ok. Qed.
Print Assumptions C08_adds.
Theorem C08_subs : forall l r, is_int64 l -> is_int64 r ->
  exists x, op_subs l r = Ok x /\ saturated (l - r) x.
Proof. exact op_subs_ok. Qed.
Print Assumptions C08_subs.
Theorem C08_muls : forall l r, is_int64 l -> is_int64 r ->
  exists x, op_muls l r = Ok x /\ saturated (l * r) x.
Proof. exact op_muls_ok. Qed.
Print Assumptions C08_muls.
Example C08_sat_ex : is_int64 int64_min /\ op_adds int64_min (-1) = Ok int64_min
  /\ op_subs 5 int64_min = Ok int64_max /\ op_muls int64_min (-1) = Ok int64_max
  /\ op_muls int64_max (-2) = Ok int64_min.
Proof. vm_compute; intuition congruence. Qed.

(* C09: shifts and bit counting *)
Theorem C09_sll : forall l r, r < 0 /\ op_sll l r = Throw \/
  0 <= r /\ exists x, op_sll l r = Ok x /\ modular (l * 2 ^ r) x.
Proof. exact op_sll_ok. Qed.
Print Assumptions C09_sll.
Example C09_sll_ex : op_sll 3 63 = Ok int64_min /\ op_sll 3 64 = Ok 0 /\ op_sll (-1) 4 = Ok (-16).
Proof. repeat split; reflexivity. Qed.

(* The unsigned quotient, reinterpreted as a signed integer. *)
Theorem C09_srl : forall l r, r < 0 /\ op_srl l r = Throw \/
  0 <= r /\ op_srl l r = Ok (to_i64 (l mod 2 ^ 64 / 2 ^ r)).
Proof. exact op_srl_ok. Qed.
Print Assumptions C09_srl.
Example C09_srl_ex : op_srl (-1) 60 = Ok 15 /\ op_srl (-1) 0 = Ok (-1) /\ op_srl (-1) 1000 = Ok 0.
Proof. repeat split; reflexivity. Qed.

Theorem C09_sra : forall l r, is_int64 l -> r < 0 /\ op_sra l r = Throw \/
  0 <= r /\ op_sra l r = Ok (l / 2 ^ r).
Proof. exact op_sra_ok. Qed.
Print Assumptions C09_sra.
Example C09_sra_ex : is_int64 (-9) /\ op_sra (-9) 2 = Ok (-3) /\ op_sra (-9) 100 = Ok (-1).
Proof. vm_compute; intuition congruence. Qed.

Theorem C09_sla : forall l r, is_int64 l ->
  r < 0 /\ op_sla l r = Throw \/ 0 <= r /\ checked (l * 2 ^ r) (op_sla l r).
Proof. exact op_sla_ok. Qed.
Print Assumptions C09_sla.
Example C09_sla_ex : op_sla (-1) 63 = Ok int64_min /\ op_sla 1 63 = Throw
  /\ op_sla 0 1000 = Ok 0 /\ op_sla 5 3 = Ok 40.
Proof. vm_compute; intuition congruence. Qed.

Theorem C09_lzcnt : forall v, exists k, op_lzcnt v = Ok k /\ leading_zeros v k.
Proof. exact op_lzcnt_ok. Qed.
Print Assumptions C09_lzcnt.
Theorem C09_tzcnt : forall v, exists k, op_tzcnt v = Ok k /\ trailing_zeros v k.
Proof. exact op_tzcnt_ok. Qed.
Print Assumptions C09_tzcnt.
Theorem C09_popcnt : forall v, exists k, op_popcnt v = Ok k /\ ones v k.
Proof. exact op_popcnt_ok. Qed.
Print Assumptions C09_popcnt.
Example C09_count_ex : op_lzcnt 1 = Ok 63 /\ op_lzcnt 0 = Ok 64 /\ op_tzcnt 40 = Ok 3
  /\ op_popcnt (-1) = Ok 64 /\ op_lzcnt (-1) = Ok 0.
Proof. vm_compute; intuition congruence. Qed.

(* C10: `x op= x` against `x op x`.  True for every operator but <<<=. *)
Theorem C10_self_assign_partial : forall o x, is_int64 x -> o <> Bsll ->
  apply_self_assign o x = apply_binop o x x.
Proof. exact self_assign_ok. Qed.
Print Assumptions C10_self_assign_partial.
Example C10_ex : is_int64 5 /\ Bsrl <> Bsll /\ apply_self_assign Bmul 5 = Ok 25.
Proof. vm_compute; intuition congruence. Qed.

(* The full claim is false: with x = 1, `x <<< x` is 2 but `x <<<= x` stores 4. *)
Theorem C10_self_assign_refuted :
  exists o x, is_int64 x /\ apply_binop o x x = Ok 2 /\ apply_self_assign o x = Ok 4.
Proof. exact self_assign_refuted. Qed.
Print Assumptions C10_self_assign_refuted.
