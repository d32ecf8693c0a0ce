(* Meaning of bit rotation and of binary packing. *)
From Verif Require Import Base.

(* r is the m-bit rotation of x to the left by n, as a signed 64-bit integer *)
Definition is_rotation (m x n r : Z) : Prop :=
  is_int64 r /\
  forall i, 0 <= i < 64 ->
    Z.testbit r i = if i <? m then Z.testbit x ((i - n) mod m) else false.

(* value of a byte string read with the least / most significant byte first *)
Fixpoint le_value (s : bytes) : Z :=
  match s with [] => 0 | b :: t => b + 256 * le_value t end.
Definition be_value (s : bytes) : Z := le_value (rev s).

(* x reduced to w bytes and sign-extended *)
Definition sign_extended (w : nat) (x r : Z) : Prop :=
  - 2 ^ (8 * Z.of_nat w - 1) <= r < 2 ^ (8 * Z.of_nat w - 1) /\
  exists q, x = r + q * 2 ^ (8 * Z.of_nat w).
