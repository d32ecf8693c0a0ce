(* Model of rocket::ascii_numput (asteria/src/rocket/ascii_numput.cpp): conversion of
   integers and reals to text, and of std.numeric.format built on it.

   A double is its bit pattern.  The buffer m_stor has 71 bytes (rocket/ascii_numput.hpp:20);
   what has been written to it is a list, so the length of the list is the write pointer
   relative to m_stor.  A write outside the buffer, a failed ASTERIA_ASSERT and a loop that
   does not end within the fuel given are all UB.  The table s_small_decimals
   (ascii_numput.cpp:9-252), which holds "-0" to "-2047", is not copied: its entry is
   computed, as stated at [small_decimal].  The null terminators are left out. *)
From Verif Require Import Base Text Monad NumTables NumGetModel.

Local Open Scope Z_scope.

Definition stor_size : Z := 71.

(* ascii_numput.cpp:281 and 1318: '0' + digit + ((9U - digit) >> 29), where 9U - digit is
   uint32_t. *)
Definition digit_char (digit : Z) : Z := 48 + digit + Z.shiftr ((9 - digit) mod 2 ^ 32) 29.

(* ascii_numput.cpp:273-282: the digits popped from [value], most significant first.
   64 digits suffice for any uint64_t. *)
Fixpoint pop_digits (fuel : nat) (base value : Z) (acc : bytes) : outcome bytes :=
  if value =? 0 then Ok acc
  else match fuel with
       | O => UB
       | S f => pop_digits f base (value / base) (digit_char (value mod base) :: acc)
       end.

(* ascii_numput.cpp:269-292, do_write_digits_backwards: the text from wptr to the end, to
   which zeroes are prepended up to `precision` digits.  They are written 8 at a time. *)
Definition write_digits_backwards (precision : Z) (base value : Z) : outcome bytes :=
  do ds <- pop_digits 64 base value [] ;
  let n := Z.of_nat (length ds) in
  let wptr := stor_size - 1 - n in
  let start := stor_size - 1 - precision in
  if wptr <? 0 then UB
  else if start <? wptr then
    if wptr - 8 * ((wptr - start + 7) / 8) <? 0 then UB
    else Ok (repeat 48 (Z.to_nat (wptr - start)) ++ ds)
  else Ok ds.

(* ascii_numput.cpp:254-266, do_get_small_decimal: the decimal digits of a value below
   2048, without leading zeroes. *)
Definition small_decimal (value : Z) : outcome bytes :=
  if (0 <=? value) && (value <? 2048) then
    Ok (if value <? 10 then [48 + value]
        else if value <? 100 then [48 + value / 10; 48 + value mod 10]
        else if value <? 1000 then
          [48 + value / 100; 48 + value / 10 mod 10; 48 + value mod 10]
        else [48 + value / 1000; 48 + value / 100 mod 10;
              48 + value / 10 mod 10; 48 + value mod 10])
  else UB.

(* min(-(uint64_t) value, (uint64_t) value) *)
Definition abs_value (value : Z) : Z := Z.min (to_u64 (- to_u64 value)) (to_u64 value).

(* ascii_numput.cpp:1435-1452 put_BI, 1454-1471 put_XI: four bytes are written before the
   digits. *)
Definition put_prefixed (mark base limit value precision : Z) : outcome bytes :=
  do ds <- write_digits_backwards (Z.min precision limit) base (abs_value value) ;
  if stor_size - 1 - Z.of_nat (length ds) - 4 <? 0 then UB
  else Ok ((if value <? 0 then [45] else []) ++ [48; mark] ++ ds).
Definition put_BI (value precision : Z) : outcome bytes := put_prefixed 98 2 64 value precision.
Definition put_XI (value precision : Z) : outcome bytes := put_prefixed 120 16 16 value precision.

(* ascii_numput.cpp:1473-1498, put_DI. *)
Definition put_DI (value precision : Z) : outcome bytes :=
  let a := abs_value value in
  if (precision =? 1) && (a <? 2048) then
    do ds <- small_decimal a ;
    Ok ((if value <? 0 then [45] else []) ++ ds)
  else
    do ds <- write_digits_backwards (Z.min precision 20) 10 a ;
    if stor_size - 1 - Z.of_nat (length ds) - 1 <? 0 then UB
    else Ok ((if value <? 0 then [45] else []) ++ ds).

(* ascii_numput.cpp:1017-1032, fpclass and frexp. *)
Inductive fpclass := Fp_zero | Fp_subnormal | Fp_infinity | Fp_nan | Fp_normal.
Record frexp := Frexp { f_cls : fpclass; f_sign : bool; f_exp : Z; f_mant : Z }.

(* ascii_numput.cpp:1081-1098 and 1200-1217, the common start of do_frexp2_52 and
   do_frexp10_17: class, sign, biased exponent and mantissa without the hidden bit, but
   with the hidden bit set if the value was subnormal and has been normalized. *)
Definition split_double (bits : Z) : frexp :=
  let sign := to_i64 bits <? 0 in
  let exp := Z.land (Z.shiftr bits 52) 2047 in
  let mant := Z.land bits (2 ^ 52 - 1) in
  if (exp <=? 0) || (2047 <=? exp) then
    let code := Z.lor (Z.land exp 2) (Z.shiftr (mant + int64_max) 63) in
    if code =? 1 then
      let sh := lzcnt64 mant - 11 in
      Frexp Fp_subnormal sign (exp - (sh - 1)) (to_u64 (Z.shiftl mant sh))
    else
      Frexp (if code =? 0 then Fp_zero else if code =? 2 then Fp_infinity else Fp_nan)
            sign exp mant
  else Frexp Fp_normal sign exp mant.

Definition finite_nonzero (f : frexp) : bool :=
  match f_cls f with Fp_subnormal | Fp_normal => true | _ => false end.

(* ascii_numput.cpp:1069-1103, do_frexp2_52. *)
Definition frexp2_52 (bits : Z) : frexp :=
  let f := split_double bits in
  if finite_nonzero f
  then Frexp (f_cls f) (f_sign f) (f_exp f - 1075) (Z.lor (f_mant f) (2 ^ 52))
  else f.

(* ascii_numput.cpp:1274-1302, do_is_special_class. *)
Definition special_text (f : frexp) : option bytes :=
  let sg := if f_sign f then [45] else [] in
  match f_cls f with
  | Fp_zero => Some (sg ++ str "0")
  | Fp_infinity => Some (sg ++ str "infinity")
  | Fp_nan => Some (sg ++ str "nan")
  | Fp_subnormal | Fp_normal => None
  end.

(* ascii_numput.cpp:1308-1320, the loop of do_write_mantissa.  The byte at the radix point
   is skipped; the value there is not known yet, which is written as zero here. *)
Fixpoint write_mant_digits (fuel : nat) (out : bytes) (reg divisor base rdxpp : Z)
  : outcome bytes :=
  if reg =? 0 then Ok out
  else match fuel with
       | O => UB
       | S f =>
           let digit := reg / divisor in
           let reg' := to_u64 (reg mod divisor * base) in
           let out' := if Z.of_nat (length out) =? rdxpp then out ++ [0] else out in
           if negb (digit <? base) || (stor_size <=? Z.of_nat (length out')) then UB
           else write_mant_digits f (out' ++ [digit_char digit]) reg' divisor base rdxpp
       end.

(* ascii_numput.cpp:1304-1329, do_write_mantissa; zeroes up to the radix point are written
   8 at a time. *)
Definition write_mantissa (out : bytes) (mant divisor base rdxpp : Z) : outcome bytes :=
  do o <- write_mant_digits 64 out mant divisor base rdxpp ;
  let w := Z.of_nat (length o) in
  if w <? rdxpp then
    if stor_size <? w + 8 * ((rdxpp - w + 7) / 8) then UB
    else Ok (o ++ repeat 48 (Z.to_nat (rdxpp - w)))
  else Ok o.

(* ascii_numput.cpp:1331-1355, do_write_exponent: 4 bytes are copied, of which as many as
   there are digits are kept. *)
Definition write_exponent (out : bytes) (exp : Z) : outcome bytes :=
  let a := Z.abs exp in
  if stor_size <? Z.of_nat (length out) + 5 then UB
  else
    let o := out ++ [if 0 <=? exp then 43 else 45] in
    if a <? 100 then
      do ds <- small_decimal (100 + a) ;
      Ok (o ++ firstn 2 (tl ds))
    else
      do ds <- small_decimal a ;
      Ok (o ++ ds).

(* `*rdxpp = this->m_rdxp`: if this is at the write pointer, it is overwritten by what
   comes next, or by the null terminator. *)
Definition set_point (out : bytes) (rdxpp : Z) : bytes :=
  let i := Z.to_nat rdxpp in
  if (i <? length out)%nat then firstn i out ++ [46] ++ skipn (S i) out else out.

(* The parts which the functions below have in common.  The buffer starts with "-0b0",
   "-0x0" or "..-0"; its first three bytes are [head]. *)
Definition plain_middle (head : bytes) (mant exp divisor base : Z) : outcome bytes :=
  let rdxpp := 3 + exp + 1 in
  do o <- write_mantissa head mant divisor base rdxpp ;
  Ok (set_point o rdxpp).
Definition plain_zero (head : bytes) (mant exp divisor base : Z) : outcome bytes :=
  let rdxpp := 3 + 1 in
  do o1 <- write_mantissa (head ++ [48; 0]) 0 1 1 (rdxpp - exp) ;
  do o <- write_mantissa o1 mant divisor base rdxpp ;
  Ok (set_point o rdxpp).
Definition scientific (head : bytes) (mant exp divisor base mark : Z) : outcome bytes :=
  let rdxpp := 3 + 1 in
  do o <- write_mantissa head mant divisor base rdxpp ;
  write_exponent (set_point o rdxpp ++ [mark]) exp.
(* ASTERIA_ASSERT(wptr < end(m_stor)), then m_data = m_stor + (1U - sign). *)
Definition finish_real (drop : Z) (r : outcome bytes) : outcome bytes :=
  do o <- r ;
  if Z.of_nat (length o) <? stor_size then Ok (skipn (Z.to_nat drop) o) else UB.

(* ascii_numput.cpp:1732-1777 put_BD, 1779-1806 put_BED. *)
Definition drop_sign (n : Z) (f : frexp) : Z := if f_sign f then n - 1 else n.
Definition put_B (plain : bool) (bits : Z) : outcome bytes :=
  let f := frexp2_52 bits in
  match special_text f with
  | Some t => Ok t
  | None =>
      let head := str "-0b" in
      let exp := f_exp f + 52 in
      finish_real (drop_sign 1 f)
        (if plain && (0 <=? exp) && (exp <? 53) then plain_middle head (f_mant f) exp (2 ^ 52) 2
         else if plain && (-4 <=? exp) && (exp <? 0) then plain_zero head (f_mant f) exp (2 ^ 52) 2
         else scientific head (f_mant f) exp (2 ^ 52) 2 112)
  end.
(* ascii_numput.cpp:1808-1855 put_XD, 1857-1886 put_XED. *)
Definition put_X (plain : bool) (bits : Z) : outcome bytes :=
  let f := frexp2_52 bits in
  match special_text f with
  | Some t => Ok t
  | None =>
      let head := str "-0x" in
      let exp1 := f_exp f + 52 in
      let mant := to_u64 (Z.shiftl (f_mant f) (Z.land exp1 3)) in
      let exp := Z.shiftr exp1 2 in
      let put_sci := scientific head mant (exp * 4) (2 ^ 52) 16 112 in
      finish_real (drop_sign 1 f)
        (if plain && (0 <=? exp) && (exp <? 14) then plain_middle head mant exp (2 ^ 52) 16
         else if plain && (-4 <=? exp) && (exp <? 0) then plain_zero head mant exp (2 ^ 52) 16
         else put_sci)
  end.

(* ascii_numput.cpp:1219-1232, the binary search for the multiplier.  The two bounds are
   uint32_t and at most 633 apart. *)
Fixpoint search_mult (fuel : nat) (bits mlo mhi : Z) : outcome Z :=
  if mlo =? mhi then Ok mlo
  else match fuel with
       | O => UB
       | S f =>
           let mid := (mlo + mhi) / 2 in
           match nth_error put_multipliers (Z.to_nat mid) with
           | Some (bound, _, _) =>
               if bits <? bound then search_mult f bits mlo mid
               else search_mult f bits (mid + 1) mhi
           | None => UB
           end
       end.

(* ascii_numput.cpp:1246-1259, the loop that removes trailing digits. *)
Definition shorten (divs : list Z) (mant_min mant_diff bits : Z) : Z :=
  let '(b, _, _) :=
    fold_left (fun acc div =>
        let '(b, r_digits, r_mult) := acc in
        let next_digits := to_u64 (r_digits + div / 2) / div in
        let next_mult := to_u64 (r_mult * div) in
        let next_bits := to_u64 (next_digits * next_mult) in
        if to_u64 (next_bits - mant_min) <=? mant_diff
        then (next_bits, next_digits, next_mult) else acc)
      divs (bits, bits, 1) in
  b.

(* ascii_numput.cpp:1190-1270, do_frexp10_17. *)
Definition frexp10_17 (bits : Z) : outcome frexp :=
  let f := split_double bits in
  if negb (finite_nonzero f) then Ok f
  else
    let mant := Z.land (f_mant f) (2 ^ 52 - 1) in
    let b := Z.land bits (2 ^ 63 - 1) in
    let lo := 1 + (51 + f_exp f) * 0x134413 / 0x400000 in
    let hi := 633 - (2046 - f_exp f) * 0x134413 / 0x400000 in
    do m1 <- search_mult 12 b lo hi ;
    let mlo := m1 - 1 in
    match nth_error put_multipliers (Z.to_nat mlo) with
    | None => UB
    | Some (_, mm, exp2) =>
        let sh := f_exp f + exp2 - 1075 in
        if (sh <? 1) || (63 <? sh) then UB
        else
          let x := to_u64 (Z.shiftl (Z.lor (2 ^ 52) mant) sh) in
          let half_ulp := 2 ^ (sh - 1) in
          let mant_min := to_u64 (mulh128 (to_u64 (x - half_ulp)) mm + 1) in
          let mant_diff := to_u64 (mulh128 (to_u64 (x + half_ulp)) (mm - 1) - mant_min) in
          let r := shorten [100000000; 10000; 100; 100; 10] mant_min mant_diff
                     (to_u64 (mant_min + mant_diff / 2)) in
          if 10 ^ 18 <=? r
          then Ok (Frexp (f_cls f) (f_sign f) (mlo + 1 - 341) (r / 10))
          else Ok (Frexp (f_cls f) (f_sign f) (mlo - 341) r)
    end.

(* ascii_numput.cpp:1888-1931 put_DD, 1933-1962 put_DED. *)
Definition put_Dec (plain : bool) (bits : Z) : outcome bytes :=
  do f <- frexp10_17 bits ;
  match special_text f with
  | Some t => Ok t
  | None =>
      let head := str "..-" in
      let exp := f_exp f + 17 in
      finish_real (drop_sign 3 f)
        (if plain && (0 <=? exp) && (exp <? 15)
         then plain_middle head (f_mant f) exp (10 ^ 17) 10
         else if plain && (-4 <=? exp) && (exp <? 0)
         then plain_zero head (f_mant f) exp (10 ^ 17) 10
         else scientific head (f_mant f) exp (10 ^ 17) 10 101)
  end.

(* src/library/numeric.cpp:14-33, do_decompose_integer.  Every round divides by [ebase], so
   64 rounds are enough. *)
Fixpoint decompose_integer (fuel : nat) (ebase ireg iexp : Z) : outcome (Z * Z) :=
  if ireg =? 0 then Ok (ireg, iexp)
  else match fuel with
       | O => UB
       | S f => if Z.rem ireg ebase =? 0
                then decompose_integer f ebase (Z.quot ireg ebase) (iexp + 1)
                else Ok (ireg, iexp)
       end.

(* src/library/numeric.cpp:35-51, do_append_exponent. *)
Definition append_exponent (text : bytes) (delim exp : Z) : outcome bytes :=
  do t <- put_DI exp 2 ;
  Ok (text ++ [delim] ++ (if 0 <=? exp then [43] else []) ++ t).

(* src/library/numeric.cpp:346-423, std_numeric_format for integers.  None is the absence
   of an argument. *)
Definition format_int (value : Z) (base ebase : option Z) : outcome bytes :=
  let b := match base with Some b => b | None => 10 end in
  let with_exp (eb delim : Z) (put : Z -> Z -> outcome bytes) :=
    match ebase with
    | None => put value 1
    | Some e =>
        if e =? eb then
          do p <- decompose_integer 64 eb value 0 ;
          do t <- put (fst p) 1 ;
          append_exponent t delim (snd p)
        else Throw
    end in
  if b =? 2 then with_exp 2 112 put_BI
  else if b =? 16 then with_exp 2 112 put_XI
  else if b =? 10 then with_exp 10 101 put_DI
  else Throw.

(* src/library/numeric.cpp:425-496, std_numeric_format for reals. *)
Definition format_real (bits : Z) (base ebase : option Z) : outcome bytes :=
  let b := match base with Some b => b | None => 10 end in
  let with_exp (eb : Z) (put : bool -> Z -> outcome bytes) :=
    match ebase with
    | None => put true bits
    | Some e => if e =? eb then put false bits else Throw
    end in
  if b =? 2 then with_exp 2 put_B
  else if b =? 16 then with_exp 2 put_X
  else if b =? 10 then with_exp 10 put_Dec
  else Throw.
