(* C41: std.numeric.random. *)
From Verif Require Import Base NumSpec RandModel RandProofs.

Local Open Scope Z_scope.

(* The arithmetic used is that of IEEE 754. *)
Theorem C41_rounding : forall k N, 0 <= k -> 0 <= N -> nearest_at k N (fl_round k N).
Proof. exact fl_round_nearest. Qed.
Print Assumptions C41_rounding.

(* Without a limit: a multiple of 2^-53 in [0,1), without rounding. *)
Theorem C41_unit : forall b1 b2, 0 <= b1 < 2 ^ 32 -> 0 <= b2 < 2 ^ 32 ->
  exists p i, std_numeric_random b1 b2 None = Ok p /\ 0 <= i < 2 ^ 53 /\
    minus_bit p = false /\ magnitude p < infinity /\ real_units p * 2 ^ 53 = i * 2 ^ 1074 /\
    0 <= real_units p < 2 ^ 1074.
Proof. exact random_unit. Qed.
Print Assumptions C41_unit.

(* All of these are equally likely if all outputs of the generator are: each comes from
   2^11 pairs, one for each value of the high bits of the second output. *)
Theorem C41_uniform : forall i c, 0 <= i < 2 ^ 53 -> 0 <= c < 2 ^ 11 ->
  exists! b : Z * Z, (0 <= fst b < 2 ^ 32 /\ 0 <= snd b < 2 ^ 32) /\ snd b / 2 ^ 21 = c /\
    exists p, std_numeric_random (fst b) (snd b) None = Ok p /\ real_units p * 2 ^ 53 = i * 2 ^ 1074.
Proof. exact random_uniform. Qed.
Print Assumptions C41_uniform.

(* With a limit: on the side of the limit, and nearer to zero if the magnitude of the limit
   exceeds 2^-1022.  Missing: other limits, for which the result may be the limit itself. *)
Theorem C41_limit_partial : forall b1 b2 l, 0 <= b1 < 2 ^ 32 -> 0 <= b2 < 2 ^ 32 -> 0 <= l < 2 ^ 64 ->
  0 < magnitude l < infinity ->
  exists p, std_numeric_random b1 b2 (Some l) = Ok p /\ minus_bit p = minus_bit l /\
    magnitude p <= magnitude l /\ (2 ^ 52 < magnitude l -> magnitude p < magnitude l) /\
    exists q, std_numeric_random b1 b2 None = Ok q /\
      nearest_at 1074 (real_units q * Z.abs (real_units l)) (magnitude p).
Proof. exact random_limited. Qed.
Print Assumptions C41_limit_partial.

Theorem C41_limit_refuted : exists b1 b2 l, 0 <= b1 < 2 ^ 32 /\ 0 <= b2 < 2 ^ 32 /\
  0 < magnitude l < infinity /\ std_numeric_random b1 b2 (Some l) = Ok l.
Proof.
  exists (2 ^ 32 - 1), (2 ^ 21 - 1), (2 ^ 52).
  split; [lia|]. split; [lia|]. split; [vm_compute; split; reflexivity|].
  vm_compute; reflexivity.
Qed.
Print Assumptions C41_limit_refuted.

Theorem C41_rejects : forall b1 b2 l, 0 <= b1 < 2 ^ 32 -> 0 <= b2 < 2 ^ 32 ->
  magnitude l = 0 \/ infinity <= magnitude l -> std_numeric_random b1 b2 (Some l) = Throw.
Proof. exact random_rejects. Qed.
Print Assumptions C41_rejects.

Example C41_ex :
  std_numeric_random (2 ^ 32 - 1) (2 ^ 21 - 1) None = Ok 0x3fefffffffffffff /\
  std_numeric_random 0x80000000 0 None = Ok 0x3fe0000000000000 /\
  std_numeric_random 0 1 None = Ok 0x3ca0000000000000 /\
  std_numeric_random 0x80000000 0 (Some 0xc024000000000000) = Ok 0xc014000000000000 /\
  std_numeric_random 0 0 (Some 0xc024000000000000) = Ok 0x8000000000000000 /\
  std_numeric_random 0 0 (Some 0x7ff0000000000000) = Throw.
Proof. vm_compute. repeat split. Qed.
