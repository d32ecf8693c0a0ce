(* What it means for a double to be close to a decimal number.  Nothing here refers to the
   model of the code. *)
From Verif Require Import Base Text NumSpec.

Local Open Scope Z_scope.

(* The double [m] is one of the two doubles around N / K units, and if it is not the nearer
   one, then N / K is within 1/32 of their distance from their mean. *)
Definition close_at (K N m : Z) : Prop :=
  0 <= m <= infinity /\
  (dbl infinity * K <= N -> m = infinity) /\
  forall t, 0 <= t < infinity -> dbl t * K <= N <= dbl (t + 1) * K ->
    let gap := (dbl (t + 1) - dbl t) * K in
    let sum := (dbl t + dbl (t + 1)) * K in
    (m = t /\ 16 * (2 * N - sum) <= gap) \/ (m = t + 1 /\ 16 * (sum - 2 * N) <= gap).

(* ... to D * 10^E; the unit is 2^-1074 *)
Definition close_decimal (D E m : Z) : Prop :=
  close_at (10 ^ Z.max (- E) 0) (D * 10 ^ Z.max E 0 * 2 ^ 1074) m.

(* D * 10^E is the double [t] *)
Definition is_double (D E t : Z) : Prop :=
  dbl t * 10 ^ Z.max (- E) 0 = D * 10 ^ Z.max E 0 * 2 ^ 1074.

(* The double [m] is D * 10^E rounded to the nearest, ties to even. *)
Definition nearest_decimal (D E m : Z) : Prop :=
  0 <= m <= infinity /\
  forall c, 0 <= c <= infinity -> c <> m ->
    let e x := Z.abs (D * 10 ^ Z.max E 0 * 2 ^ 1074 - dbl x * 10 ^ Z.max (- E) 0) in
    e m < e c \/ e m = e c /\ Z.even m = true.

(* D * 10^E differs from the double [m] by less than half the distance to the next one. *)
Definition within_half (D E m : Z) : Prop :=
  2 * Z.abs (D * 10 ^ Z.max E 0 * 2 ^ 1074 - dbl m * 10 ^ Z.max (- E) 0)
    < (dbl (m + 1) - dbl m) * 10 ^ Z.max (- E) 0.

(* The doubles next to [m] are equally far away.  This is so unless it is a power of two,
   and for those below 2^-1021. *)
Definition even_spacing (m : Z) : Prop := m mod 2 ^ 52 <> 0 \/ m <= 2 ^ 52.

(* D * 10^E differs from [m] by less than 15/32 of the distance to the double below, which
   is not larger than the one to the double above. *)
Definition near_double (D E m : Z) : Prop :=
  32 * Z.abs (D * 10 ^ Z.max E 0 * 2 ^ 1074 - dbl m * 10 ^ Z.max (- E) 0)
    < 15 * (dbl m - dbl (m - 1)) * 10 ^ Z.max (- E) 0.
