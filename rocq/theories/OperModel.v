(* The binary operators that the compiler may combine with a constant right
   operand: the general form, which takes both operands from the stack, and
   the form for a 32-bit constant.
   Source: asteria/src/runtime/air_node.cpp 2947-4095 (index_apply_operator)
   and 4907-5895 (index_apply_operator_bi32), under case xop_*.
   Simplifications: an operator is a function of the values of the two
   operands; how they are fetched and where the result goes is in CompModel.v.
   Throw stands for throwing Runtime_Error.  Real arithmetic and the conversion
   of an integer to a real are arguments.  Running out of memory and the
   largest length of strings and arrays are not modelled. *)
From Verif Require Import Base Monad Text SortModel ValueModel IntOpsModel SeqModel.

(* asteria/fwd.hpp Xop.  xo_misc k n is any other operator, with n operands. *)
Inductive xop :=
  | xo_assign | xo_index
  | xo_cmp_eq | xo_cmp_ne | xo_cmp_un | xo_cmp_lt | xo_cmp_gt | xo_cmp_lte | xo_cmp_gte | xo_cmp_3way
  | xo_add | xo_sub | xo_mul | xo_div | xo_mod
  | xo_andb | xo_orb | xo_xorb
  | xo_addm | xo_subm | xo_mulm | xo_adds | xo_subs | xo_muls
  | xo_sll | xo_srl | xo_sla | xo_sra
  | xo_pos | xo_notb
  | xo_misc (k : Z) (n : nat).

(* + - * / and fmod on reals, and static_cast<V_real>(V_integer) *)
Record arith := { r_op : xop -> real -> real -> real; r_of : Z -> real }.

(* value.hpp:188-190 is_real, 192-201 as_real *)
Definition as_real (a : arith) (v : value) : option real :=
  match v with
  | VInt n => Some (r_of a n)
  | VReal r => Some r
  | _ => None
  end.

Definition omap {A B} (f : A -> B) (x : outcome A) : outcome B :=
  match x with Ok a => Ok (f a) | Throw => Throw | UB => UB end.

(* the last branch of the operators that take integers or reals *)
Definition on_reals (a : arith) (o : xop) (l r : value) : outcome value :=
  match as_real a l, as_real a r with
  | Some x, Some y => Ok (VReal (r_op a o x y))
  | _, _ => Throw
  end.

(* 3539-3549: the shorter length *)
Fixpoint str_and (v m : bytes) : bytes :=
  match v, m with
  | x :: v, y :: m => Z.land x y :: str_and v m
  | _, _ => []
  end.
(* 3586-3596, 3633-3643: the longer length, missing bytes being zero *)
Definition pad_to {A} (n : nat) (z : A) (v : list A) : list A := v ++ repeat z (n - length v).
Fixpoint str_mask (f : Z -> Z -> Z) (v m : bytes) : bytes :=
  match v, m with
  | x :: v, y :: m => f x y :: str_mask f v m
  | v, [] => v
  | [], _ :: _ => []
  end.
Definition str_or (v m : bytes) : bytes := str_mask Z.lor (pad_to (length m) 0 v) m.
Definition str_xor (v m : bytes) : bytes := str_mask Z.lxor (pad_to (length m) 0 v) m.

(* clamp_cast<size_t>(n, 0, size) for n >= 0 *)
Definition clamp_len {A} (n : Z) (v : list A) : nat := Z.to_nat (Z.min (Z.max n 0) (zlen v)).
(* 3896-3909: erase(0, n), append(n, z) *)
Definition seq_sll {A} (z : A) (v : list A) (n : Z) : list A :=
  let k := clamp_len n v in skipn k v ++ repeat z k.
(* 3952-3965: pop_back(n), insert(0, n, z) *)
Definition seq_srl {A} (z : A) (v : list A) (n : Z) : list A :=
  let k := clamp_len n v in repeat z k ++ firstn (length v - k) v.
(* 4009-4020: append(n, z) *)
Definition seq_sla {A} (z : A) (v : list A) (n : Z) : list A := v ++ repeat z (Z.to_nat n).
(* 4061-4072: pop_back(n) *)
Definition seq_sra {A} (v : list A) (n : Z) : list A := firstn (length v - clamp_len n v) v.

Definition shift (ints : Z -> Z -> outcome Z) (strs : bytes -> Z -> bytes) (arrs : list value -> Z -> list value)
    (l : value) (n : Z) : outcome value :=
  match l with
  | VInt x => omap VInt (ints x n)
  | VStr s => Ok (VStr (strs s n))
  | VArr v => Ok (VArr (arrs v n))
  | _ => Throw
  end.

(* lhs = cmp == ... ; 3035-3247 *)
Definition cmp_code (c : compare) : Z :=
  match c with Less => -1 | Equal => 0 | Greater => 1 | Unordered => 2 end.
Definition decide_partial (o : xop) (c : compare) : value :=
  match o with
  | xo_cmp_eq => VBool (cmp_code c =? 0)
  | xo_cmp_ne => VBool (negb (cmp_code c =? 0))
  | xo_cmp_un => VBool (cmp_code c =? 2)
  | _ => if cmp_code c =? 2 then VStr (str "[unordered]") else VInt (cmp_code c)
  end.
Definition decide_total (o : xop) (c : compare) : value :=
  match o with
  | xo_cmp_lt => VBool (cmp_code c =? -1)
  | xo_cmp_gt => VBool (cmp_code c =? 1)
  | xo_cmp_lte => VBool (negb (cmp_code c =? 1))
  | _ => VBool (negb (cmp_code c =? -1))
  end.

(* the general operators; None: the comparison ran out of fuel.  xop_index is
   not a function of values; see CompModel.v. *)
Definition general (a : arith) (fuel : nat) (o : xop) (l r : value) : option (outcome value) :=
  match o with
  | xo_assign => Some (Ok r)
  | xo_cmp_eq | xo_cmp_ne | xo_cmp_un | xo_cmp_3way =>
    match compare_partial fuel l r with
    | Some c => Some (omap (decide_partial o) c)
    | None => None
    end
  | xo_cmp_lt | xo_cmp_gt | xo_cmp_lte | xo_cmp_gte =>
    match compare_total fuel l r with
    | Some c => Some (omap (decide_total o) c)
    | None => None
    end
  | xo_add => Some
    match l, r with
    | VInt x, VInt y => omap VInt (op_add x y)
    | VBool x, VBool y => Ok (VBool (x || y))
    | VStr x, VStr y => Ok (VStr (x ++ y))
    | _, _ => on_reals a o l r
    end
  | xo_sub => Some
    match l, r with
    | VInt x, VInt y => omap VInt (op_sub x y)
    | _, _ => on_reals a o l r
    end
  | xo_mul => Some
    match l, r with
    | VInt x, VInt y => omap VInt (op_mul x y)
    | VBool x, VBool y => Ok (VBool (x && y))
    | VStr x, VInt n => omap VStr (duplicate x n)
    | VArr x, VInt n => omap VArr (duplicate x n)
    | VInt n, VStr x => omap VStr (duplicate x n)
    | VInt n, VArr x => omap VArr (duplicate x n)
    | _, _ => on_reals a o l r
    end
  | xo_div => Some
    match l, r with
    | VInt x, VInt y => omap VInt (op_div x y)
    | VStr x, VStr y => Ok (VStr (x ++ [47] ++ y))
    | _, _ => on_reals a o l r
    end
  | xo_mod => Some
    match l, r with
    | VInt x, VInt y => omap VInt (op_mod x y)
    | _, _ => on_reals a o l r
    end
  | xo_andb => Some
    match l, r with
    | VInt x, VInt y => omap VInt (op_andb x y)
    | VBool x, VBool y => Ok (VBool (x && y))
    | VStr x, VStr y => Ok (VStr (str_and x y))
    | _, _ => Throw
    end
  | xo_orb => Some
    match l, r with
    | VInt x, VInt y => omap VInt (op_orb x y)
    | VBool x, VBool y => Ok (VBool (x || y))
    | VStr x, VStr y => Ok (VStr (str_or x y))
    | _, _ => Throw
    end
  | xo_xorb => Some
    match l, r with
    | VInt x, VInt y => omap VInt (op_xorb x y)
    | VBool x, VBool y => Ok (VBool (xorb x y))
    | VStr x, VStr y => Ok (VStr (str_xor x y))
    | _, _ => Throw
    end
  | xo_addm => Some match l, r with VInt x, VInt y => omap VInt (op_addm x y) | _, _ => Throw end
  | xo_subm => Some match l, r with VInt x, VInt y => omap VInt (op_subm x y) | _, _ => Throw end
  | xo_mulm => Some match l, r with VInt x, VInt y => omap VInt (op_mulm x y) | _, _ => Throw end
  | xo_adds => Some match l, r with VInt x, VInt y => omap VInt (op_adds x y) | _, _ => Throw end
  | xo_subs => Some match l, r with VInt x, VInt y => omap VInt (op_subs x y) | _, _ => Throw end
  | xo_muls => Some match l, r with VInt x, VInt y => omap VInt (op_muls x y) | _, _ => Throw end
  | xo_sll => Some
    match r with
    | VInt n => if n <? 0 then Throw else shift op_sll (seq_sll 0) (seq_sll VNull) l n
    | _ => Throw
    end
  | xo_srl => Some
    match r with
    | VInt n => if n <? 0 then Throw else shift op_srl (seq_srl 0) (seq_srl VNull) l n
    | _ => Throw
    end
  | xo_sla => Some
    match r with
    | VInt n => if n <? 0 then Throw else shift op_sla (seq_sla 0) (seq_sla VNull) l n
    | _ => Throw
    end
  | xo_sra => Some
    match r with
    | VInt n => if n <? 0 then Throw else shift op_sra seq_sra seq_sra l n
    | _ => Throw
    end
  | _ => Some UB
  end.

(* value.hpp compare_numeric_total *)
Definition total_with_int (l : value) (n : Z) : outcome compare :=
  match compare_with_int l n with
  | Ok Unordered => Throw
  | c => c
  end.

Definition bi32_reals (a : arith) (o : xop) (l : value) (n : Z) : outcome value :=
  match as_real a l with
  | Some x => Ok (VReal (r_op a o x (r_of a n)))
  | None => Throw
  end.
Definition ints_only (f : Z -> Z -> outcome Z) (l : value) (n : Z) : outcome value :=
  match l with
  | VInt x => omap VInt (f x n)
  | _ => Throw
  end.
(* the form for a 32-bit constant on the right; UB stands for terminating in
   the operators for which no such form exists *)
Definition bi32 (a : arith) (o : xop) (l : value) (n : Z) : outcome value :=
  match o with
  | xo_assign => Ok (VInt n)
  | xo_cmp_eq | xo_cmp_ne | xo_cmp_un | xo_cmp_3way => omap (decide_partial o) (compare_with_int l n)
  | xo_cmp_lt | xo_cmp_gt | xo_cmp_lte | xo_cmp_gte => omap (decide_total o) (total_with_int l n)
  | xo_add => match l with VInt x => omap VInt (op_add x n) | _ => bi32_reals a o l n end
  | xo_sub => match l with VInt x => omap VInt (op_sub x n) | _ => bi32_reals a o l n end
  | xo_mul =>
    match l with
    | VInt x => omap VInt (op_mul x n)
    | VStr x => omap VStr (duplicate x n)
    | VArr x => omap VArr (duplicate x n)
    | _ => bi32_reals a o l n
    end
  | xo_div => match l with VInt x => omap VInt (op_div x n) | _ => bi32_reals a o l n end
  | xo_mod => match l with VInt x => omap VInt (op_mod x n) | _ => bi32_reals a o l n end
  | xo_andb => ints_only op_andb l n
  | xo_orb => ints_only op_orb l n
  | xo_xorb => ints_only op_xorb l n
  | xo_addm => ints_only op_addm l n
  | xo_subm => ints_only op_subm l n
  | xo_mulm => ints_only op_mulm l n
  | xo_adds => ints_only op_adds l n
  | xo_subs => ints_only op_subs l n
  | xo_muls => ints_only op_muls l n
  | xo_sll => if n <? 0 then Throw else shift op_sll (seq_sll 0) (seq_sll VNull) l n
  | xo_srl => if n <? 0 then Throw else shift op_srl (seq_srl 0) (seq_srl VNull) l n
  | xo_sla => if n <? 0 then Throw else shift op_sla (seq_sla 0) (seq_sla VNull) l n
  | xo_sra => if n <? 0 then Throw else shift op_sra seq_sra seq_sra l n
  | _ => UB
  end.

(* 5936-5960 check_null *)
Definition check_null (negative : bool) (l : value) : value :=
  VBool (negb (Bool.eqb (match l with VNull => true | _ => false end) negative)).

(* 2419-2449 xop_notb *)
Definition op_notb_value (v : value) : outcome value :=
  match v with
  | VInt x => omap VInt (op_notb x)
  | VBool b => Ok (VBool (negb b))
  | VStr s => Ok (VStr (map (fun c => 255 - c) s))
  | _ => Throw
  end.
