(* Integer operators of the interpreter.  Source: asteria/src/runtime/air_node.cpp
   (case xop_* under index_apply_operator) and asteria/rocket/fwd.hpp.
   Simplifications: only the branches whose operands are integers are modelled;
   Throw stands for throwing Runtime_Error, whose message is not modelled.
   Arithmetic right shift of a negative int64_t is taken to be the floor
   division, which is what GCC and Clang implement. *)
From Verif Require Import Base.

(* asteria/rocket/fwd.hpp:463-471 addm; __builtin_add_overflow returns the
   wrapped sum and whether the exact sum is out of range.  Modelled for
   int64_t operands. *)
Definition addm (x y : Z) : Z * bool := (to_i64 (x + y), negb (is_int64b (x + y))).
(* asteria/rocket/fwd.hpp:477-485 *)
Definition subm (x y : Z) : Z * bool := (to_i64 (x - y), negb (is_int64b (x - y))).
(* asteria/rocket/fwd.hpp:491-499 *)
Definition mulm (x y : Z) : Z * bool := (to_i64 (x * y), negb (is_int64b (x * y))).

(* air_node.cpp:2103-2121 xop_inc, integer branch: new value of the operand *)
Definition op_inc (v : Z) : outcome Z :=
  let '(r, ovr) := addm v 1 in if ovr then Throw else Ok r.
(* air_node.cpp:2147-2165 xop_dec *)
Definition op_dec (v : Z) : outcome Z :=
  let '(r, ovr) := subm v 1 in if ovr then Throw else Ok r.
(* air_node.cpp:2380-2398 xop_neg *)
Definition op_neg (v : Z) : outcome Z :=
  let '(r, ovr) := subm 0 v in if ovr then Throw else Ok r.
(* air_node.cpp:2633-2651 xop_abs *)
Definition op_abs (v : Z) : outcome Z :=
  let '(negv, ovr) := subm 0 v in
  if ovr then Throw
  else Ok (Z.lxor (Z.land (Z.lxor v negv) (Z.shiftr v 63)) v).
(* air_node.cpp:2419-2433 xop_notb *)
Definition op_notb (v : Z) : outcome Z := Ok (Z.lnot v).

(* air_node.cpp:3266-3285 xop_add *)
Definition op_add (l r : Z) : outcome Z :=
  let '(x, ovr) := addm l r in if ovr then Throw else Ok x.
(* air_node.cpp:3318-3337 xop_sub *)
Definition op_sub (l r : Z) : outcome Z :=
  let '(x, ovr) := subm l r in if ovr then Throw else Ok x.
(* air_node.cpp:3360-3379 xop_mul *)
Definition op_mul (l r : Z) : outcome Z :=
  let '(x, ovr) := mulm l r in if ovr then Throw else Ok x.
(* air_node.cpp:3427-3447 xop_div; the built-in / would be undefined for a zero
   divisor and for INT64_MIN / -1. *)
Definition op_div (l r : Z) : outcome Z :=
  if r =? 0 then Throw
  else if (l =? int64_min) && (r =? -1) then Throw
  else if (r =? 0) || negb (is_int64b (Z.quot l r)) then UB
  else Ok (Z.quot l r).
(* air_node.cpp:3476-3496 xop_mod; % is undefined in C++ when / is. *)
Definition op_mod (l r : Z) : outcome Z :=
  if r =? 0 then Throw
  else if (l =? int64_min) && (r =? -1) then Throw
  else if (r =? 0) || negb (is_int64b (Z.quot l r)) then UB
  else Ok (Z.rem l r).
(* air_node.cpp:3519-3533, 3566-3580, 3613-3627 *)
Definition op_andb (l r : Z) : outcome Z := Ok (Z.land l r).
Definition op_orb (l r : Z) : outcome Z := Ok (Z.lor l r).
Definition op_xorb (l r : Z) : outcome Z := Ok (Z.lxor l r).

(* air_node.cpp:3660-3675, 3693-3708, 3726-3741 *)
Definition op_addm (l r : Z) : outcome Z := Ok (fst (addm l r)).
Definition op_subm (l r : Z) : outcome Z := Ok (fst (subm l r)).
Definition op_mulm (l r : Z) : outcome Z := Ok (fst (mulm l r)).

(* air_node.cpp:3759-3777 xop_adds *)
Definition op_adds (l r : Z) : outcome Z :=
  let '(x, ovr) := addm l r in
  Ok (if ovr then Z.lxor (Z.shiftr l 63) int64_max else x).
(* air_node.cpp:3795-3813 xop_subs *)
Definition op_subs (l r : Z) : outcome Z :=
  let '(x, ovr) := subm l r in
  Ok (if ovr then Z.lxor (Z.shiftr l 63) int64_max else x).
(* air_node.cpp:3831-3849 xop_muls *)
Definition op_muls (l r : Z) : outcome Z :=
  let '(x, ovr) := mulm l r in
  Ok (if ovr then Z.lxor (Z.lxor (Z.shiftr l 63) (Z.shiftr r 63)) int64_max else x).

(* reinterpret_cast<uint64_t&>(val) <<= n: undefined unless 0 <= n < 64. *)
Definition ushl (v n : Z) : outcome Z :=
  if (0 <=? n) && (n <? 64) then Ok (to_i64 (Z.shiftl (to_u64 v) n)) else UB.
Definition ushr (v n : Z) : outcome Z :=
  if (0 <=? n) && (n <? 64) then Ok (to_i64 (Z.shiftr (to_u64 v) n)) else UB.

Definition bind {A B} (x : outcome A) (f : A -> outcome B) : outcome B :=
  match x with Ok a => f a | Throw => Throw | UB => UB end.

(* air_node.cpp:3867-3893 xop_sll.  `rhs` is re-read after the first shift has
   been stored in `val` (line 3890-3891), hence the two reads of the count. *)
Definition sll_steps (val : Z) (rhs_before : Z) (rhs_after : Z -> Z) : outcome Z :=
  if rhs_before <? 0 then Throw
  else
    let n := Z.min rhs_before 63 in
    bind (ushl val n) (fun v1 =>
    ushl v1 (if n =? rhs_after v1 then 0 else 1)).
Definition op_sll (l r : Z) : outcome Z := sll_steps l r (fun _ => r).

(* air_node.cpp:3923-3949 xop_srl *)
Definition srl_steps (val : Z) (rhs_before : Z) (rhs_after : Z -> Z) : outcome Z :=
  if rhs_before <? 0 then Throw
  else
    let n := Z.min rhs_before 63 in
    bind (ushr val n) (fun v1 =>
    ushr v1 (if n =? rhs_after v1 then 0 else 1)).
Definition op_srl (l r : Z) : outcome Z := srl_steps l r (fun _ => r).

(* air_node.cpp:3979-4006 xop_sla; the count is read before val is written. *)
Definition op_sla (l r : Z) : outcome Z :=
  if r <? 0 then Throw
  else
    let n := Z.min r 63 in
    if negb (l =? 0) &&
       (negb (n =? r) || negb (Z.shiftr l (63 - n) =? Z.shiftr l 63))
    then Throw
    else ushl l n.
(* air_node.cpp:4035-4058 xop_sra *)
Definition op_sra (l r : Z) : outcome Z :=
  if r <? 0 then Throw else Ok (Z.shiftr l (Z.min r 63)).

(* asteria/rocket/fwd.hpp:713-728 with __builtin_clzll/ctzll/popcountll as
   bit-counting loops over the 64 bits of the operand (most significant first
   for clz). clz/ctz of zero is not reached. *)
Fixpoint count_leading (u : Z) (n : nat) : Z :=
  match n with
  | O => 0
  | S k => if Z.testbit u (Z.of_nat k) then 0 else 1 + count_leading u k
  end.
Fixpoint count_trailing (u : Z) (from : Z) (n : nat) : Z :=
  match n with
  | O => 0
  | S k => if Z.testbit u from then 0 else 1 + count_trailing u (from + 1) k
  end.
Fixpoint count_ones (u : Z) (n : nat) : Z :=
  match n with
  | O => 0
  | S k => (if Z.testbit u (Z.of_nat k) then 1 else 0) + count_ones u k
  end.
Definition lzcnt64 (u : Z) : Z := if u =? 0 then 64 else Z.land (count_leading u 64) 63.
Definition tzcnt64 (u : Z) : Z := if u =? 0 then 64 else Z.land (count_trailing u 0 64) 63.
Definition popcnt64 (u : Z) : Z := count_ones u 64.
(* air_node.cpp:2960-2973, 2989-3002, 3018-3031 *)
Definition op_lzcnt (v : Z) : outcome Z := Ok (lzcnt64 (to_u64 v)).
Definition op_tzcnt (v : Z) : outcome Z := Ok (tzcnt64 (to_u64 v)).
Definition op_popcnt (v : Z) : outcome Z := Ok (popcnt64 (to_u64 v)).

(* Compound assignment `x op= x`, where the mutable operand and the read-only
   operand are the same stored value (rhs is obtained by dereference_readonly
   and lhs by dereference_mutable of the same variable; no copy is made:
   air_node.cpp:3871-3875 etc., infix_element.cpp extract). *)
Inductive binop :=
  | Badd | Bsub | Bmul | Bdiv | Bmod | Bandb | Borb | Bxorb
  | Baddm | Bsubm | Bmulm | Badds | Bsubs | Bmuls
  | Bsll | Bsrl | Bsla | Bsra.

(* `l op r` with distinct operands *)
Definition apply_binop (o : binop) (l r : Z) : outcome Z :=
  match o with
  | Badd => op_add l r | Bsub => op_sub l r | Bmul => op_mul l r
  | Bdiv => op_div l r | Bmod => op_mod l r
  | Bandb => op_andb l r | Borb => op_orb l r | Bxorb => op_xorb l r
  | Baddm => op_addm l r | Bsubm => op_subm l r | Bmulm => op_mulm l r
  | Badds => op_adds l r | Bsubs => op_subs l r | Bmuls => op_muls l r
  | Bsll => op_sll l r | Bsrl => op_srl l r | Bsla => op_sla l r | Bsra => op_sra l r
  end.

(* `x op= x`: only sll and srl read rhs again after val has been modified;
   every other operator reads rhs completely before its single store. *)
Definition apply_self_assign (o : binop) (x : Z) : outcome Z :=
  match o with
  | Bsll => sll_steps x x (fun v1 => v1)
  | Bsrl => srl_steps x x (fun v1 => v1)
  | _ => apply_binop o x x
  end.
