(* What numbers written as text mean, and what rounding to a double means.  Nothing here
   refers to the model of the code. *)
From Verif Require Import Base Text.

Local Open Scope Z_scope.

(* The digits of a number, each with its value and the case of its letter. *)
Definition digit := (Z * bool)%type.
Definition digit_text (d : digit) : Z :=
  nth (Z.to_nat (fst d)) (if snd d then str "0123456789ABCDEF" else str "0123456789abcdef") 0.
Definition digits_text (ds : list digit) : bytes := map digit_text ds.

(* Positional value. *)
Fixpoint positional (base : Z) (ds : list digit) : Z :=
  match ds with
  | [] => 0
  | d :: t => fst d * base ^ Z.of_nat (length t) + positional base t
  end.

Inductive notation := Binary | Decimal | Hexadecimal.
Definition radix (n : notation) : Z :=
  match n with Binary => 2 | Decimal => 10 | Hexadecimal => 16 end.
(* The base of the power by which the exponent scales, and how many of these powers one
   digit is worth. *)
Definition power (n : notation) : Z := match n with Decimal => 10 | _ => 2 end.
Definition per_digit (n : notation) : Z := match n with Hexadecimal => 4 | _ => 1 end.

(* A numeric literal: sign, prefix with a small or capital letter, digits before the
   point, the point with the digits after it, and the exponent. *)
Record exponent := Expo {
  e_capital : bool;
  e_sign : option bool;          (* Some true is '-', Some false is '+' *)
  e_digits : list digit
}.
Record literal := Lit {
  l_sign : option bool;
  l_notation : notation;
  l_capital : bool;
  l_int : list digit;
  l_frac : option (list digit);
  l_exp : option exponent
}.

Definition sign_text (s : option bool) : bytes :=
  match s with None => [] | Some false => str "+" | Some true => str "-" end.
Definition prefix_text (n : notation) (capital : bool) : bytes :=
  match n with
  | Binary => if capital then str "0B" else str "0b"
  | Hexadecimal => if capital then str "0X" else str "0x"
  | Decimal => []
  end.
Definition frac_text (f : option (list digit)) : bytes :=
  match f with None => [] | Some ds => str "." ++ digits_text ds end.
Definition mark_text (n : notation) (capital : bool) : bytes :=
  match n with
  | Decimal => if capital then str "E" else str "e"
  | _ => if capital then str "P" else str "p"
  end.
Definition exp_text (n : notation) (e : option exponent) : bytes :=
  match e with
  | None => []
  | Some e => mark_text n (e_capital e) ++ sign_text (e_sign e) ++ digits_text (e_digits e)
  end.
Definition text_of (l : literal) : bytes :=
  sign_text (l_sign l) ++ prefix_text (l_notation l) (l_capital l) ++
  digits_text (l_int l) ++ frac_text (l_frac l) ++ exp_text (l_notation l) (l_exp l).

Definition frac_digits (l : literal) : list digit :=
  match l_frac l with None => [] | Some ds => ds end.
Definition signed (s : option bool) (x : Z) : Z :=
  match s with Some true => - x | _ => x end.
Definition exp_value (l : literal) : Z :=
  match l_exp l with
  | None => 0
  | Some e => signed (e_sign e) (positional 10 (e_digits e))
  end.

(* The literal denotes  +-D * power ^ E. *)
Definition significand (l : literal) : Z :=
  positional (radix (l_notation l)) (l_int l ++ frac_digits l).
Definition scale (l : literal) : Z :=
  exp_value l - per_digit (l_notation l) * Z.of_nat (length (frac_digits l)).
Definition negative (l : literal) : bool :=
  match l_sign l with Some true => true | _ => false end.

Definition digits_ok (base : Z) (ds : list digit) : Prop :=
  Forall (fun d => 0 <= fst d < base) ds.

(* Well formed: at least one digit, digits of the radix, at least one decimal digit in the
   exponent.  The magnitude of the exponent is below 10^18 and the text is shorter than
   2^60 bytes, so that no arithmetic on exponents overflows. *)
Definition wf_literal (l : literal) : Prop :=
  digits_ok (radix (l_notation l)) (l_int l ++ frac_digits l) /\
  l_int l ++ frac_digits l <> [] /\
  Z.of_nat (length (text_of l)) < 2 ^ 60 /\
  match l_exp l with
  | None => True
  | Some e => digits_ok 10 (e_digits e) /\ e_digits e <> [] /\
              positional 10 (e_digits e) < 10 ^ 18
  end.

(* The form of a literal, whatever its size. *)
Definition literal_form (l : literal) : Prop :=
  digits_ok (radix (l_notation l)) (l_int l ++ frac_digits l) /\
  l_int l ++ frac_digits l <> [] /\
  match l_exp l with
  | None => True
  | Some e => digits_ok 10 (e_digits e) /\ e_digits e <> []
  end.

(* The words for values that have no digits. *)
Definition infinity_words : list bytes := [str "inf"; str "Inf"; str "infinity"; str "Infinity"].
Definition nan_words : list bytes := [str "nan"; str "NaN"].

(* A number: a literal, or one of these words with or without a sign. *)
Definition number_text (t : bytes) : Prop :=
  (exists l, literal_form l /\ t = text_of l) \/
  (exists s w, In w (infinity_words ++ nan_words) /\ t = sign_text s ++ w).

(* D * p ^ E is the integer a. *)
Definition is_integer (p D E a : Z) : Prop :=
  D * p ^ Z.max E 0 = a * p ^ Z.max (- E) 0.
Definition denotes_integer (l : literal) (i : Z) : Prop :=
  is_integer (power (l_notation l)) (signed (l_sign l) (significand l)) (scale l) i.

(* The value of the positive double whose bit pattern is [m], in units of 2^-1074.  The
   pattern of infinity is given the value 2^1024, as rounding in IEEE 754 does. *)
Definition infinity : Z := 2047 * 2 ^ 52.
Definition dbl (m : Z) : Z :=
  if m <? 2 ^ 52 then m else (2 ^ 52 + m mod 2 ^ 52) * 2 ^ (m / 2 ^ 52 - 1).

(* The double [m] is the nearest to N / 2^k units; of two equally near ones, it is the one
   whose last bit is zero. *)
Definition nearest_at (k N m : Z) : Prop :=
  0 <= m <= infinity /\
  forall c, 0 <= c <= infinity -> c <> m ->
    let e x := Z.abs (N - dbl x * 2 ^ k) in
    e m < e c \/ e m = e c /\ Z.even m = true.

(* The double [m] is D * 2^E rounded to the nearest, ties to even. *)
Definition nearest_even (D E m : Z) : Prop :=
  let k := Z.max 0 (- (E + 1074)) in
  nearest_at k (D * 2 ^ (E + 1074 + k)) m.

(* D * 2^E lies above 2^-1075, half the least positive double, by less than one part in
   2^60. *)
Definition just_above_half_least (D E : Z) : Prop :=
  let k := Z.max 0 (- (E + 1135)) in
  2 ^ (60 + k) < D * 2 ^ (E + 1135 + k) < (2 ^ 60 + 1) * 2 ^ k.

Definition is_white (c : Z) : Prop := In c [9; 10; 11; 12; 13; 32].
Definition sign_pattern (neg : bool) : Z := if neg then 2 ^ 63 else 0.

(* Letters among the digits are capitals. *)
Definition capitals (ds : list digit) : Prop := Forall (fun d => snd d = true) ds.

(* No leading zero, except those that make up [p] digits. *)
Definition least_digits (p : Z) (ds : list digit) : Prop :=
  Z.of_nat (length ds) = p \/
  p < Z.of_nat (length ds) /\ match ds with [] => False | d :: _ => fst d <> 0 end.

(* Which notation the arguments of std.numeric.format select. *)
Definition base_notation (base : option Z) (n : notation) : Prop :=
  match base with None => n = Decimal | Some b => b = radix n end.
Definition ebase_fits (n : notation) (ebase : option Z) : Prop :=
  match ebase with None => True | Some e => e = power n end.

(* The parts of the bit pattern of a double, and its value in units of 2^-1074. *)
Definition magnitude (bits : Z) : Z := bits mod 2 ^ 63.
Definition minus_bit (bits : Z) : bool := 2 ^ 63 <=? bits.
Definition real_units (bits : Z) : Z :=
  if minus_bit bits then - dbl (magnitude bits) else dbl (magnitude bits).
Definition is_nan (bits : Z) : Prop := infinity < magnitude bits.

(* D * p ^ E = D' * p ^ E'. *)
Definition same_value (p D E D' E' : Z) : Prop :=
  exists s s', 0 <= s /\ 0 <= s' /\ s - s' = E - E' /\ D * p ^ s = D' * p ^ s'.
