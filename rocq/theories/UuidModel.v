(* Random UUIDs.
   Source: asteria/src/library/system.cpp:100-157 std_system_random_uuid.
   The two numbers that RAND_bytes fills in are parameters; that it may fail,
   which is not checked, is left out.  Characters are their codes. *)
From Verif Require Import Base.

(* 106-111; the quad is cast to int before the lowest four bits are taken, which
   makes no difference *)
Definition y (quad : Z) (index : Z) : Z :=
  let value := Z.land (Z.shiftr quad (index * 4)) 0x0F in
  let shift_to_digit := 0x30 - Z.shiftr (Z.land (9 - value) (- 0x2700)) 8 in
  value + shift_to_digit.

(* 119-154 *)
Definition random_uuid (q0 q1 : Z) : bytes :=
  [y q0 0; y q0 1; y q0 2; y q0 3; y q0 4; y q0 5; y q0 6; y q0 7; 45;
   y q0 8; y q0 9; y q0 10; y q0 11; 45;
   52; y q0 12; y q0 13; y q0 14; 45;
   y (Z.lor 8 (Z.land q1 3)) 0; y q1 1; y q1 2; y q1 3; 45;
   y q1 4; y q1 5; y q1 6; y q1 7; y q1 8; y q1 9; y q1 10; y q1 11; y q1 12; y q1 13; y q1 14; y q1 15].
