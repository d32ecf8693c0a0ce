(* C12: integers written as text and read back; C42: reals written in binary or hexadecimal
   and read back; C43: binary and hexadecimal literals are rounded to the nearest double. *)
From Verif Require Import Base Text NumTables NumGetModel NumPutModel NumSpec
  NumGetProofs NumCastProofs NumRoundProofs NumRealProofs NumPutProofs NumFormatProofs NumTripProofs NumLangProofs.

Local Open Scope Z_scope.

(* C12.  Every integer is written in every notation as a literal that denotes it, with the
   fewest digits. *)
Theorem C12_format : forall v base ebase n,
  is_int64 v -> base_notation base n -> ebase_fits n ebase ->
  exists l, format_int v base ebase = Ok (text_of l) /\ wf_literal l /\
    l_notation l = n /\ l_capital l = false /\ l_frac l = None /\
    l_sign l = (if v <? 0 then Some true else None) /\
    capitals (l_int l) /\ least_digits 1 (l_int l) /\ denotes_integer l v /\
    match l_exp l with
    | None => ebase = None
    | Some e => ebase <> None /\ (v <> 0 -> significand l mod power n <> 0)
    end.
Proof. exact format_int_shape. Qed.
Print Assumptions C12_format.

Theorem C12_roundtrip : forall v base ebase n,
  is_int64 v -> base_notation base n -> ebase_fits n ebase ->
  exists t, format_int v base ebase = Ok t /\ std_numeric_parse t = Ok (Integer v).
Proof. exact format_int_trip. Qed.
Print Assumptions C12_roundtrip.

Theorem C12_rejects : forall v base ebase,
  ~ (exists n, base_notation base n /\ ebase_fits n ebase) -> format_int v base ebase = Throw.
Proof. exact format_int_rejects. Qed.
Print Assumptions C12_rejects.

(* The writers under it take a number of digits to be filled up with zeroes. *)
Theorem C12_put : forall n v p, is_int64 v -> 1 <= p -> (n = Binary -> p < 64) ->
  exists ds,
    (match n with Binary => put_BI | Decimal => put_DI | Hexadecimal => put_XI end) v p =
      Ok (text_of (Lit (if v <? 0 then Some true else None) n false ds None None)) /\
    digits_ok (radix n) ds /\ capitals ds /\ positional (radix n) ds = Z.abs v /\
    least_digits (Z.min p (match n with Binary => 64 | Decimal => 20 | Hexadecimal => 16 end)) ds /\
    (length ds <= 64)%nat.
Proof. exact put_I_ok. Qed.
Print Assumptions C12_put.

(* The text is read back by the reader of the notation and by the one that looks for the
   prefix. *)
Theorem C12_put_get : forall n v p, is_int64 v -> 1 <= p -> (n = Binary -> p < 64) ->
  exists t,
    (match n with Binary => put_BI | Decimal => put_DI | Hexadecimal => put_XI end) v p = Ok t /\
    (exists x, (match n with Binary => parse_BI | Decimal => parse_DI | Hexadecimal => parse_XI end) t
               = Ok (Some (x, [])) /\ cast_I x = (v, true)) /\
    (exists x, parse_I t = Ok (Some (x, [])) /\ cast_I x = (v, true)).
Proof. exact put_get. Qed.
Print Assumptions C12_put_get.

(* With 64 binary digits, the byte before the buffer is written to. *)
Theorem C12_put_refuted : exists v, is_int64 v /\ put_BI v 64 = UB.
Proof. exists 127. split; [vm_compute; split; congruence|vm_compute; reflexivity]. Qed.
Print Assumptions C12_put_refuted.

(* Reading: whatever is read as an integer is the integer which the literal denotes, and
   every literal without a point that denotes a 64-bit integer is read as this integer. *)
Theorem C12_parse_sound : forall a l b i,
  wf_literal l -> Forall is_white a -> Forall is_white b ->
  std_numeric_parse (a ++ text_of l ++ b) = Ok (Integer i) ->
  l_frac l = None /\ is_int64 i /\ denotes_integer l i.
Proof. exact parse_sound. Qed.
Print Assumptions C12_parse_sound.

Theorem C12_parse_complete : forall a l b i,
  wf_literal l -> Forall is_white a -> Forall is_white b ->
  l_frac l = None -> l_notation l <> Hexadecimal \/ significand l < 2 ^ 64 ->
  denotes_integer l i -> is_int64 i ->
  std_numeric_parse (a ++ text_of l ++ b) = Ok (Integer i).
Proof. exact parse_complete. Qed.
Print Assumptions C12_parse_complete.

(* Hexadecimal literals with larger significands may be read as reals of another value. *)
Definition wide_hex : literal :=
  Lit None Hexadecimal false
    (map (fun d => (d, false)) [1;0;0;0;0;0;0;0;0;0;0;0;0;0;0;0;8]) None
    (Some (Expo false (Some true) [(3, false)])).
Theorem C12_parse_refuted : exists l i r,
  wf_literal l /\ l_frac l = None /\ denotes_integer l i /\ is_int64 i /\
  std_numeric_parse (text_of l) = Ok (Real r) /\ real_units r <> i * 2 ^ 1074.
Proof.
  exists wide_hex, (2 ^ 61 + 1), 0x43c0000000000000.
  split.
  { split; [|split; [discriminate|split; [vm_compute; reflexivity|]]].
    - repeat (constructor; [vm_compute; split; congruence|]). constructor.
    - split; [repeat (constructor; [vm_compute; split; congruence|]); constructor|].
      split; [discriminate|vm_compute; reflexivity]. }
  split; [reflexivity|]. split; [vm_compute; reflexivity|]. split; [vm_compute; split; congruence|].
  split; [vm_compute; reflexivity|vm_compute; congruence].
Qed.
Print Assumptions C12_parse_refuted.

(* Nothing else is read as a number. *)
Theorem C12_language : forall text v, std_numeric_parse text = Ok v ->
  exists a t b, text = a ++ t ++ b /\ Forall is_white a /\ Forall is_white b /\ number_text t.
Proof. exact parse_language. Qed.
Print Assumptions C12_language.

Example C12_ex :
  format_int (- 9223372036854775808) None None = Ok (str "-9223372036854775808") /\
  format_int 255 (Some 16) None = Ok (str "0xFF") /\
  format_int (-96) (Some 2) (Some 2) = Ok (str "-0b11p+05") /\
  format_int 12000 (Some 10) (Some 10) = Ok (str "12e+03") /\
  format_int 1 (Some 8) None = Throw /\ format_int 1 (Some 16) (Some 10) = Throw /\
  std_numeric_parse (str "  -0x8000000000000000 ") = Ok (Integer (- 9223372036854775808)) /\
  std_numeric_parse (str "9223372036854775808") = Ok (Real 0x43e0000000000000) /\
  std_numeric_parse (str "1200e-2") = Ok (Integer 12) /\
  std_numeric_parse (str "12.") = Ok (Real 0x4028000000000000) /\
  std_numeric_parse (str "12 3") = Throw /\ std_numeric_parse (str "0x") = Throw /\
  std_numeric_parse (str "1e+") = Throw /\ std_numeric_parse (str "-Infinity ") = Ok (Real 0xfff0000000000000) /\
  put_XI 255 4 = Ok (str "0x00FF").
Proof. repeat split; vm_compute; reflexivity. Qed.
Example C12_ex_refuted : text_of wide_hex = str "0x10000000000000008p-3".
Proof. reflexivity. Qed.

(* C42.  A real written in binary or hexadecimal is read back as the same real or, if
   there is no point in the text, as the integer of the same value. *)
Theorem C42_roundtrip : forall n bits base ebase,
  n <> Decimal -> 0 <= bits < 2 ^ 64 -> ~ is_nan bits ->
  base_notation base n -> ebase_fits n ebase ->
  exists t, format_real bits base ebase = Ok t /\
    (exists x, parse_D t = Ok (Some (x, [])) /\ cast_D x = bits) /\
    (std_numeric_parse t = Ok (Real bits) \/
     exists i, std_numeric_parse t = Ok (Integer i) /\ is_int64 i /\ magnitude bits < infinity /\
       real_units bits = i * 2 ^ 1074).
Proof. exact format_real_trip. Qed.
Print Assumptions C42_roundtrip.

Theorem C42_nan : forall n bits base ebase,
  0 <= bits < 2 ^ 64 -> is_nan bits -> base_notation base n -> ebase_fits n ebase ->
  exists t b, format_real bits base ebase = Ok t /\ std_numeric_parse t = Ok (Real b) /\
    is_nan b /\ minus_bit b = minus_bit bits.
Proof. exact format_real_nan. Qed.
Print Assumptions C42_nan.

(* The text is a literal of exactly the value of the real. *)
Theorem C42_text : forall n bits base ebase,
  n <> Decimal -> 0 <= bits < 2 ^ 64 -> 0 < magnitude bits < infinity ->
  base_notation base n -> ebase_fits n ebase ->
  exists l, format_real bits base ebase = Ok (text_of l) /\ wf_literal l /\
    l_notation l = n /\ l_capital l = false /\
    l_sign l = (if minus_bit bits then Some true else None) /\
    capitals (l_int l ++ frac_digits l) /\
    same_value 2 (significand l) (scale l) (dbl (magnitude bits)) (-1074) /\
    (ebase <> None -> l_exp l <> None /\ length (l_int l) = 1%nat /\
       match l_int l with [] => False | d :: _ => fst d <> 0 end).
Proof. exact format_real_shape. Qed.
Print Assumptions C42_text.

Theorem C42_rejects : forall bits base ebase,
  ~ (exists n, base_notation base n /\ ebase_fits n ebase) -> format_real bits base ebase = Throw.
Proof. exact format_real_rejects. Qed.
Print Assumptions C42_rejects.

Example C42_ex :
  format_real 0x3fb999999999999a (Some 16) None = Ok (str "0x0.1999999999999A") /\
  format_real 0xbfb999999999999a (Some 16) (Some 2) = Ok (str "-0x1.999999999999Ap-04") /\
  format_real 1 (Some 2) None = Ok (str "0b1p-1074") /\
  format_real 0x7fefffffffffffff (Some 16) None = Ok (str "0xF.FFFFFFFFFFFF8p+1020") /\
  format_real 0x4024000000000000 (Some 2) None = Ok (str "0b1010") /\
  std_numeric_parse (str "0b1010") = Ok (Integer 10) /\
  std_numeric_parse (str "0xF.FFFFFFFFFFFF8p+1020") = Ok (Real 0x7fefffffffffffff).
Proof. repeat split; vm_compute; reflexivity. Qed.

(* C43.  Binary and hexadecimal literals. *)
Theorem C43_nearest_partial : forall a l b,
  wf_literal l -> Forall is_white a -> Forall is_white b ->
  l_notation l <> Decimal -> ~ just_above_half_least (significand l) (scale l) ->
  match std_numeric_parse (a ++ text_of l ++ b) with
  | Ok (Integer i) => l_frac l = None /\ is_int64 i /\ denotes_integer l i
  | Ok (Real r) => exists m, r = sign_pattern (negative l) + m /\
                             nearest_even (significand l) (scale l) m
  | _ => False
  end.
Proof. exact parse_real_nearest. Qed.
Print Assumptions C43_nearest_partial.

(* A literal slightly above half of the least positive double is rounded down to zero. *)
Definition above_half : literal :=
  Lit None Hexadecimal false [(1, false)]
    (Some (map (fun d => (d, false)) [0;0;0;0;0;0;0;0;0;0;0;0;0;0;0;0;1]))
    (Some (Expo false (Some true) (map (fun d => (d, false)) [1;0;7;5]))).
Theorem C43_nearest_refuted : exists l r,
  wf_literal l /\ l_notation l = Hexadecimal /\
  std_numeric_parse (text_of l) = Ok (Real r) /\
  ~ exists m, r = sign_pattern (negative l) + m /\ nearest_even (significand l) (scale l) m.
Proof.
  exists above_half, 0. split.
  { split; [|split; [discriminate|split; [vm_compute; reflexivity|]]].
    - repeat (constructor; [vm_compute; split; congruence|]). constructor.
    - split; [repeat (constructor; [vm_compute; split; congruence|]); constructor|].
      split; [discriminate|vm_compute; reflexivity]. }
  split; [reflexivity|]. split; [vm_compute; reflexivity|].
  intros (m & Hm & [_ HN]). change (sign_pattern (negative above_half)) with 0 in Hm.
  assert (m = 0) by lia. subst m.
  specialize (HN 1 ltac:(vm_compute; split; congruence) ltac:(lia)). cbv zeta beta in HN.
  revert HN. vm_compute. intros [H|[H _]]; discriminate H.
Qed.
Print Assumptions C43_nearest_refuted.

(* An exponent that does not fit in 64 bits overflows a signed integer. *)
Theorem C43_exponent_refuted : exists t, std_numeric_parse t = UB.
Proof.
  exists (str "0x10000000000000000p92233720368547758070"). vm_compute. reflexivity.
Qed.
Print Assumptions C43_exponent_refuted.

(* The words. *)
Theorem C43_special : forall a b s w (inf : bool), Forall is_white a -> Forall is_white b ->
  In w (if inf then infinity_words else nan_words) ->
  std_numeric_parse (a ++ (sign_text s ++ w) ++ b) =
  Ok (Real (sign_pattern (match s with Some true => true | _ => false end) +
            (if inf then infinity else 4095 * 2 ^ 51))).
Proof. exact parse_special. Qed.
Print Assumptions C43_special.

Example C43_ex :
  std_numeric_parse (str "0x1.00000000000008p0") = Ok (Real 0x3ff0000000000000) /\
  std_numeric_parse (str "0x1.000000000000080000000000000001p0") = Ok (Real 0x3ff0000000000001) /\
  std_numeric_parse (str "-0b1.1p-1074") = Ok (Real 0x8000000000000002) /\
  std_numeric_parse (str "0x.8p1025") = Ok (Real 0x7ff0000000000000) /\
  std_numeric_parse (str "0x0.00000000001p5000") = Ok (Real 0x7ff0000000000000) /\
  text_of above_half = str "0x1.00000000000000001p-1075".
Proof. repeat split; vm_compute; reflexivity. Qed.
