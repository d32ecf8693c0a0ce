(* Rounding, absolute values, extremes and clamping of numbers.
   Sources: asteria/src/library/numeric.cpp, asteria/src/utils.cpp,
   asteria/src/runtime/air_node.cpp.
   Simplifications: std::round, floor, ceil and trunc are taken to do what the
   C standard says on the exact number; they never report an error.  The
   argument reader is left out (see ArgModel): a function that gets another
   type throws. *)
From Verif Require Import Base Monad SortModel ValueModel.

(* std::trunc *)
Definition f_trunc (r : real) : real :=
  match r with
  | RFin s m e => if 0 <=? e then r else RFin s (m / 2 ^ (- e)) 0
  | _ => r
  end.
(* std::floor *)
Definition f_floor (r : real) : real :=
  match r with
  | RFin s m e =>
    if 0 <=? e then r else
    if s && negb (m mod 2 ^ (- e) =? 0) then RFin s (m / 2 ^ (- e) + 1) 0 else RFin s (m / 2 ^ (- e)) 0
  | _ => r
  end.
(* std::ceil *)
Definition f_ceil (r : real) : real :=
  match r with
  | RFin s m e =>
    if 0 <=? e then r else
    if negb s && negb (m mod 2 ^ (- e) =? 0) then RFin s (m / 2 ^ (- e) + 1) 0 else RFin s (m / 2 ^ (- e)) 0
  | _ => r
  end.
(* std::round: halfway cases away from zero *)
Definition f_round (r : real) : real :=
  match r with
  | RFin s m e =>
    if 0 <=? e then r else
    if 2 ^ (- e) <=? 2 * (m mod 2 ^ (- e)) then RFin s (m / 2 ^ (- e) + 1) 0 else RFin s (m / 2 ^ (- e)) 0
  | _ => r
  end.

(* utils.cpp:182-198 safe_double_to_int64: llrint raises FE_INVALID if its
   argument is not finite or its result is out of range, else FE_INEXACT if its
   argument is not integral; either way an exception is thrown *)
Definition safe_double_to_int64 (r : real) : outcome Z :=
  match r with
  | RFin s m e =>
    if 0 <=? e then
      let t := signed s (m * 2 ^ e) in if is_int64b t then Ok t else Throw
    else if m mod 2 ^ (- e) =? 0 then
      let t := signed s (m / 2 ^ (- e)) in if is_int64b t then Ok t else Throw
    else Throw
  | _ => Throw
  end.

(* the four functions and operators without and with i *)
Inductive mode := Nearest | Down | Up | Toward_zero.
Definition f_of (d : mode) : real -> real :=
  match d with Nearest => f_round | Down => f_floor | Up => f_ceil | Toward_zero => f_trunc end.

(* numeric.cpp:153-163 round, 177-187 floor, 201-211 ceil, 225-235 trunc; and
   air_node.cpp:2705-2831 for __round, __floor, __ceil and __trunc *)
Definition numeric_round (d : mode) (v : value) : outcome value :=
  match v with
  | VInt n => Ok (VInt n)
  | VReal r => Ok (VReal (f_of d r))
  | _ => Throw
  end.
(* numeric.cpp:165-175 iround, 189-199 ifloor, 213-223 iceil, 237-247 itrunc; and
   air_node.cpp:2833-2959 for __iround, __ifloor, __iceil and __itrunc *)
Definition numeric_iround (d : mode) (v : value) : outcome value :=
  match v with
  | VInt n => Ok (VInt n)
  | VReal r => do n <- safe_double_to_int64 (f_of d r) ; Ok (VInt n)
  | _ => Throw
  end.

(* numeric.cpp:56-71 std_numeric_abs *)
Definition numeric_abs (v : value) : outcome value :=
  match v with
  | VInt n => if n =? - 2 ^ 63 then Throw else Ok (VInt (Z.abs n))
  | VReal r => Ok (VReal (match r with RNan => RNan | RInf _ => RInf false | RFin _ m e => RFin false m e end))
  | _ => Throw
  end.

(* numeric.cpp:121-129 std_numeric_max (wanted is Less) and 131-139
   std_numeric_min (Greater); None: a comparison ran out of fuel *)
Fixpoint extreme_from (fuel : nat) (wanted : compare) (result : value) (values : list value) : option (outcome value) :=
  match values with
  | [] => Some (Ok result)
  | r :: values =>
    match result with
    | VNull => extreme_from fuel wanted r values
    | _ =>
      match compare_partial fuel result r with
      | Some (Ok c) => extreme_from fuel wanted (if cmp_eqb c wanted then r else result) values
      | Some Throw => Some Throw
      | Some UB => Some UB
      | None => None
      end
    end
  end.
Definition numeric_max (fuel : nat) (values : list value) := extreme_from fuel Less VNull values.
Definition numeric_min (fuel : nat) (values : list value) := extreme_from fuel Greater VNull values.

(* numeric.cpp:141-151 std_numeric_clamp *)
Definition numeric_clamp (fuel : nat) (v lower upper : value) : option (outcome value) :=
  match compare_total fuel v lower with
  | Some (Ok Less) => Some (Ok lower)
  | Some (Ok _) =>
    match compare_total fuel v upper with
    | Some (Ok Greater) => Some (Ok upper)
    | Some (Ok _) => Some (Ok v)
    | Some Throw => Some Throw
    | Some UB => Some UB
    | None => None
    end
  | Some Throw => Some Throw
  | Some UB => Some UB
  | None => None
  end.
