(* std.numeric.random (asteria/src/library/numeric.cpp:249-276) and the arithmetic on
   doubles it uses.

   A double is its bit pattern, a Z in [0, 2^64).  The processor's conversion and
   multiplication are those of IEEE 754 rounding to the nearest, ties to even; this is
   defined here as a function and shown to be the nearest in the proofs.  The two outputs
   of the generator (runtime/random_engine.hpp, bump) are arguments: they are any 32-bit
   numbers. *)
From Verif Require Import Base.

Local Open Scope Z_scope.

Definition fl_inf : Z := 2047 * 2 ^ 52.
Definition fl_sign (x : Z) : bool := 2 ^ 63 <=? x.
Definition fl_mag (x : Z) : Z := x mod 2 ^ 63.
(* The value of a finite magnitude in units of 2^-1074. *)
Definition fl_units (m : Z) : Z :=
  if m <? 2 ^ 52 then m else (2 ^ 52 + m mod 2 ^ 52) * 2 ^ (m / 2 ^ 52 - 1).
Definition fl_make (sign : bool) (m : Z) : Z := (if sign then 2 ^ 63 else 0) + m.

(* Round N / 2^k units. *)
Definition fl_round (k N : Z) : Z :=
  let e := Z.max 0 (Z.log2 N - k - 52) in
  let d := 2 ^ (k + e) in
  let q := N / d in
  let r := N mod d in
  let up := (d <? 2 * r) || ((d =? 2 * r) && Z.odd q) in
  Z.min fl_inf (e * 2 ^ 52 + q + (if up then 1 else 0)).

Definition fl_of_nonneg (i : Z) : Z := fl_round 0 (i * 2 ^ 1074).
(* Multiplication of finite numbers. *)
Definition fl_mul (x y : Z) : Z :=
  fl_make (xorb (fl_sign x) (fl_sign y)) (fl_round 1074 (fl_units (fl_mag x) * fl_units (fl_mag y))).

(* 0x1p-53 *)
Definition fl_2_m53 : Z := (1023 - 53) * 2 ^ 52.

(* std::fpclassify *)
Inductive fp_class := Fp_nan | Fp_infinite | Fp_zero | Fp_subnormal | Fp_normal.
Definition fpclassify (x : Z) : fp_class :=
  let m := fl_mag x in
  if fl_inf <? m then Fp_nan
  else if m =? fl_inf then Fp_infinite
  else if m =? 0 then Fp_zero
  else if m <? 2 ^ 52 then Fp_subnormal
  else Fp_normal.

(* numeric.cpp:249-276, std_numeric_random, where bump() returns [b1] and then [b2].
   `ireg <<= 21` is a shift of an int64_t. *)
Definition std_numeric_random (b1 b2 : Z) (limit : option Z) : outcome Z :=
  let i1 := Z.shiftl b1 21 in
  if negb (is_int64b i1) then UB
  else
    let ireg := Z.lxor i1 b2 in
    let ratio := fl_mul (fl_of_nonneg ireg) fl_2_m53 in
    match limit with
    | None => Ok ratio
    | Some l =>
        match fpclassify l with
        | Fp_zero | Fp_infinite | Fp_nan => Throw
        | _ => Ok (fl_mul ratio l)
        end
    end.
