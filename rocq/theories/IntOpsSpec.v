(* Mathematical specification of the integer operators, over Z. *)
From Verif Require Import Base.

(* The exact result when it is representable, otherwise an exception. *)
Definition checked (exact : Z) (res : outcome Z) : Prop :=
  (is_int64 exact /\ res = Ok exact) \/ (~ is_int64 exact /\ res = Throw).

(* q and m are the quotient truncated toward zero and the remainder. *)
Definition trunc_div (l r q m : Z) : Prop :=
  l = q * r + m /\ Z.abs m < Z.abs r /\ 0 <= m * l.

(* The signed 64-bit representative of z modulo 2^64. *)
Definition modular (z x : Z) : Prop := is_int64 x /\ exists k, z = x + k * 2 ^ 64.

(* z clamped to the signed 64-bit range. *)
Definition saturated (z x : Z) : Prop :=
  is_int64 x /\ (is_int64 z -> x = z) /\ (z < int64_min -> x = int64_min)
  /\ (int64_max < z -> x = int64_max).

(* Bit i of the two's complement representation of v. *)
Definition bit (v : Z) (i : Z) : bool := Z.testbit v i.

Definition leading_zeros (v k : Z) : Prop :=
  0 <= k <= 64 /\ (forall i, 64 - k <= i < 64 -> bit v i = false)
  /\ (k < 64 -> bit v (63 - k) = true).
Definition trailing_zeros (v k : Z) : Prop :=
  0 <= k <= 64 /\ (forall i, 0 <= i < k -> bit v i = false)
  /\ (k < 64 -> bit v k = true).
Definition ones (v k : Z) : Prop :=
  k = Z.of_nat (length (filter (fun i => bit v (Z.of_nat i)) (seq 0 64))).
