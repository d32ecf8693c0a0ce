(* Model of rocket::ascii_numget (asteria/src/rocket/ascii_numget.cpp): conversion of text
   to integers and reals, and of std.numeric.parse built on it.

   Text is a list of bytes; the read pointer `rptr` is the list of the bytes not read yet,
   so the end pointer is the end of the list.  A double is its bit pattern, a Z in
   [0, 2^64).  Simplifications: the radix point m_rdxp is '.', which no code changes; the
   flags m_ovfl, m_udfl and m_inxct are returned along with the value instead of being
   stored, and only for cast_I, whose caller reads them; the ranges given to cast_I and
   cast_D are the whole range of the type, as in std.numeric.parse, so the range check
   at the end does nothing.  Signed overflow is UB. *)
From Verif Require Import Base Text Monad NumTables.

Local Open Scope Z_scope.

(* ascii_numget.cpp:72-91, s_digit_values, converted to uint32_t as at :124 and :176. *)
Definition digit_value (c : Z) : Z :=
  if (48 <=? c) && (c <=? 57) then c - 48
  else if (65 <=? c) && (c <=? 90) then c - 55
  else if (97 <=? c) && (c <=? 122) then c - 87
  else 2 ^ 32 - 1.

(* ascii_numget.cpp:10-23, do_subseq: the rest after [w] if the text starts with [w]. *)
Fixpoint subseq (w s : bytes) : option bytes :=
  match w, s with
  | [], _ => Some s
  | a :: w', b :: s' => if a =? b then subseq w' s' else None
  | _ :: _, [] => None
  end.

(* ascii_numget.cpp:25-36, do_get_sign. *)
Definition get_sign (s : bytes) : bool * bytes :=
  match subseq (str "+") s with
  | Some r => (false, r)
  | None => match subseq (str "-") s with
            | Some r => (true, r)
            | None => (false, s)
            end
  end.

(* ascii_numget.cpp:38-45, value_class, without the two classes that no parser makes. *)
Inductive value_class := Cls_infinity | Cls_nan | Cls_normal.

(* ascii_numget.cpp:47-61, do_get_special_value. *)
Definition get_special_value (s : bytes) : value_class * bytes :=
  let try w k := match subseq w s with Some r => Some (k, r) | None => None end in
  let orelse (a b : option (value_class * bytes)) := match a with Some _ => a | None => b end in
  match orelse (try (str "nan") Cls_nan) (orelse (try (str "NaN") Cls_nan)
       (orelse (try (str "infinity") Cls_infinity) (orelse (try (str "Infinity") Cls_infinity)
       (orelse (try (str "inf") Cls_infinity) (try (str "Inf") Cls_infinity))))) with
  | Some p => p
  | None => (Cls_normal, s)
  end.

(* ascii_numget.cpp:63-69, do_skip_base_prefix. *)
Definition skip_base_prefix (base_char : Z) (s : bytes) : bytes :=
  match s with
  | a :: b :: r => if (a =? 48) && (Z.lor b 32 =? base_char) then r else s
  | _ => s
  end.

(* ascii_numget.cpp:62-69, xuint. *)
Record xuint := XU {
  xu_exp : Z;
  xu_mant : Z;
  xu_has_point : bool;
  xu_valid : bool;
  xu_more : bool
}.

(* rocket/fwd.hpp:460-499, mulm and addm on uint64_t: the wrapped result and whether it
   overflowed. *)
Definition mulm_u (x y : Z) : Z * bool := (to_u64 (x * y), negb (x * y <? 2 ^ 64)).
Definition addm_u (x y : Z) : Z * bool := (to_u64 (x + y), negb (x + y <? 2 ^ 64)).
(* The same on int64_t. *)
Definition mulm_i (x y : Z) : Z * bool := (to_i64 (x * y), negb (is_int64b (x * y))).
Definition addm_i (x y : Z) : Z * bool := (to_i64 (x + y), negb (is_int64b (x + y))).

(* ascii_numget.cpp:112-146, the loop over significant figures of do_collect_digits.
   [rdxp] is -1 for integers.  The increments of exp cannot overflow, for they are at most
   as many as there are bytes. *)
Fixpoint collect_mantissa (base rdxp : Z) (s : bytes) (xu : xuint) (ovfl : bool)
  : xuint * bytes :=
  match s with
  | [] => (xu, [])
  | c :: r =>
      if negb (xu_has_point xu) && (c =? rdxp) then
        collect_mantissa base rdxp r
          (XU (xu_exp xu) (xu_mant xu) true (xu_valid xu) (xu_more xu)) ovfl
      else
        let digit := digit_value c in
        if base <=? digit then (xu, s)
        else
          let '(m1, o1) := mulm_u (xu_mant xu) base in
          let '(m2, o2) := addm_u m1 digit in
          let ovfl' := ovfl || o1 || o2 in
          let mant' := if ovfl' then xu_mant xu else m2 in
          let more' := if ovfl' then xu_more xu || negb (digit =? 0) else xu_more xu in
          let exp1 := if ovfl' then xu_exp xu + 1 else xu_exp xu in
          let exp2 := if xu_has_point xu then exp1 - 1 else exp1 in
          collect_mantissa base rdxp r (XU exp2 mant' (xu_has_point xu) true more') ovfl'
  end.

(* ascii_numget.cpp:154-167: the text after the mark of the exponent and its sign, and
   whether the exponent is negative; None if there is no exponent. *)
Definition is_dec (c : Z) : bool := (48 <=? c) && (c <=? 57).
Definition exponent_start (base : Z) (s : bytes) : option (bytes * bool) :=
  let mark := if base =? 10 then 101 else 112 in
  match s with
  | a :: b :: r =>
      if (Z.lor a 32 =? mark) && is_dec b then Some (b :: r, false)
      else match r with
           | c :: _ =>
               if (Z.lor a 32 =? mark) && ((b =? 43) || (b =? 45)) && is_dec c
               then Some (r, b =? 45) else None
           | [] => None
           end
  | _ => None
  end.

(* ascii_numget.cpp:174-186, the loop over the digits of the exponent.  [xs] is exp_sign,
   [orig] is exp_orig.  `xu.exp - exp_orig` and `(digit ^ exp_sign) - exp_sign + exp_orig`
   are ordinary signed operations. *)
Fixpoint collect_exponent (xs orig : Z) (s : bytes) (exp : Z) (ovfl : bool)
  : outcome (Z * bool * bytes) :=
  match s with
  | [] => Ok (exp, ovfl, [])
  | c :: r =>
      let digit := digit_value c in
      if 10 <=? digit then Ok (exp, ovfl, s)
      else
        let d := exp - orig in
        let k := Z.lxor digit xs - xs + orig in
        if is_int64b d && is_int64b k then
          let '(e1, o1) := mulm_i d 10 in
          let '(e2, o2) := addm_i e1 k in
          collect_exponent xs orig r e2 (ovfl || o1 || o2)
        else UB
  end.

(* ascii_numget.cpp:100-192, do_collect_digits. *)
Definition collect_digits (base rdxp : Z) (s : bytes) : outcome (xuint * bytes) :=
  let '(xu, s1) := collect_mantissa base rdxp s (XU 0 0 false false false) false in
  let exp := if base =? 16 then xu_exp xu * 4 else xu_exp xu in
  let with_exp e := XU e (xu_mant xu) (xu_has_point xu) (xu_valid xu) (xu_more xu) in
  match exponent_start base s1 with
  | None => Ok (with_exp exp, s1)
  | Some (s2, neg) =>
      let xs := if neg then -1 else 0 in
      do p <- collect_exponent xs exp s2 exp false ;
      let '(e, ovfl, s3) := p in
      Ok (with_exp (if ovfl : bool then Z.lxor int64_max xs else e), s3)
  end.

(* What the parsers store: rocket/ascii_numget.hpp:15-31. *)
Record num := Num {
  n_sign : bool;
  n_cls : value_class;
  n_base : Z;
  n_exp : Z;
  n_mant : Z;
  n_more : bool
}.

(* The parsers return the number stored and the text left; None stands for the return
   value zero.

   ascii_numget.cpp:1041-1068 parse_BI, 1069-1096 parse_XI, 1097-1121 parse_DI: no prefix
   for decimal numbers, and the base of the exponent. *)
Definition finish (sign : bool) (ebase : Z) (r : outcome (xuint * bytes))
  : outcome (option (num * bytes)) :=
  do p <- r ;
  let '(xu, s) := p in
  if xu_valid xu
  then Ok (Some (Num sign Cls_normal ebase (xu_exp xu) (xu_mant xu) (xu_more xu), s))
  else Ok None.

Definition parse_BI (s : bytes) : outcome (option (num * bytes)) :=
  let '(sign, s1) := get_sign s in
  finish sign 2 (collect_digits 2 (-1) (skip_base_prefix 98 s1)).
Definition parse_XI (s : bytes) : outcome (option (num * bytes)) :=
  let '(sign, s1) := get_sign s in
  finish sign 2 (collect_digits 16 (-1) (skip_base_prefix 120 s1)).
Definition parse_DI (s : bytes) : outcome (option (num * bytes)) :=
  let '(sign, s1) := get_sign s in
  finish sign 10 (collect_digits 10 (-1) s1).

(* ascii_numget.cpp:1123-1152 parse_BD, 1154-1183 parse_XD, 1185-1212 parse_DD. *)
Definition special_or (sign : bool) (s : bytes) (k : bytes -> outcome (option (num * bytes)))
  : outcome (option (num * bytes)) :=
  match get_special_value s with
  | (Cls_normal, s1) => k s1
  | (c, s1) => Ok (Some (Num sign c 0 0 0 false, s1))
  end.

Definition parse_BD (s : bytes) : outcome (option (num * bytes)) :=
  let '(sign, s1) := get_sign s in
  special_or sign s1 (fun s2 =>
    finish sign 2 (collect_digits 2 46 (skip_base_prefix 98 s2))).
Definition parse_XD (s : bytes) : outcome (option (num * bytes)) :=
  let '(sign, s1) := get_sign s in
  special_or sign s1 (fun s2 =>
    finish sign 2 (collect_digits 16 46 (skip_base_prefix 120 s2))).
Definition parse_DD (s : bytes) : outcome (option (num * bytes)) :=
  let '(sign, s1) := get_sign s in
  special_or sign s1 (fun s2 => finish sign 10 (collect_digits 10 46 s2)).

(* ascii_numget.cpp:1233-1259 parse_I, 1262-1288 parse_D: choose by the prefix, perhaps
   after a sign. *)
Definition choose_base (s : bytes) : Z :=
  let by_letter c := if Z.lor c 32 =? 98 then 2 else if Z.lor c 32 =? 120 then 16 else 10 in
  let signed :=
    match s with
    | a :: b :: c :: _ => if ((a =? 43) || (a =? 45)) && (b =? 48) then by_letter c else 10
    | _ => 10
    end in
  match s with
  | a :: b :: _ =>
      if a =? 48 then
        (if by_letter b =? 10 then signed else by_letter b)
      else signed
  | _ => signed
  end.
Definition parse_I (s : bytes) : outcome (option (num * bytes)) :=
  let b := choose_base s in
  if b =? 2 then parse_BI s else if b =? 16 then parse_XI s else parse_DI s.
Definition parse_D (s : bytes) : outcome (option (num * bytes)) :=
  let b := choose_base s in
  if b =? 2 then parse_BD s else if b =? 16 then parse_XD s else parse_DD s.

(* ascii_numget.cpp:1455-1468, raise the mantissa; [n] is exp, at least one. *)
Fixpoint raise_mant (base : Z) (n : nat) (bits : Z) : Z * bool :=
  match n with
  | O => (bits, false)
  | S n' => let '(b, o) := mulm_u bits base in
            if o then (b, true) else raise_mant base n' b
  end.
(* ascii_numget.cpp:1469-1483, lower the mantissa; [n] is -exp, at least one. *)
Fixpoint lower_mant (base : Z) (n : nat) (bits : Z) (inxct : bool) : Z * bool :=
  match n with
  | O => (bits, inxct)
  | S n' => let inxct' := inxct || negb (bits mod base =? 0) in
            let b := bits / base in
            if b =? 0 then (b, inxct') else lower_mant base n' b inxct'
  end.

(* ascii_numget.cpp:1395-1502, cast_I with the range of int64_t: the value and whether
   none of m_ovfl, m_udfl and m_inxct is set. *)
Definition cast_I (x : num) : Z * bool :=
  match n_cls x with
  | Cls_infinity => (if n_sign x then int64_min else int64_max, false)
  | Cls_nan => (int64_min, false)
  | Cls_normal =>
      if n_mant x =? 0 then (0, negb (n_more x))
      else if n_exp x <? -10000 then (0, false)
      else if 10000 <? n_exp x then (int64_max, false)
      else
        let umax := if n_sign x then 2 ^ 63 else int64_max in
        let last bits inxct :=
          if umax <? bits then (to_i64 umax, false)
          else (to_i64 (Z.lxor (Z.lxor (to_u64 (bits - umax + int64_max)) int64_max) umax),
                negb inxct) in
        if 0 <? n_exp x then
          let '(bits, o) := raise_mant (n_base x) (Z.to_nat (n_exp x)) (n_mant x) in
          if o then (to_i64 umax, false) else last bits (n_more x)
        else if n_exp x <? 0 then
          let '(bits, inxct) := lower_mant (n_base x) (Z.to_nat (- n_exp x)) (n_mant x) (n_more x) in
          if bits =? 0 then (0, false) else last bits inxct
        else last (n_mant x) (n_more x)
  end.

(* rocket/fwd.hpp lzcnt64, on a nonzero value. *)
Definition lzcnt64 (x : Z) : Z := 63 - Z.log2 x.

(* rocket/fwd.hpp:1272-1280, mulh128: the high half of the product. *)
Definition mulh128 (x y : Z) : Z := x * y / 2 ^ 64.

(* ascii_numget.cpp:907-909, sd_zero, sd_inf, sd_qnan. *)
Definition sign_bit (sign : bool) : Z := if sign then 2 ^ 63 else 0.
Definition sd_zero (sign : bool) : Z := sign_bit sign.
Definition sd_inf (sign : bool) : Z := sign_bit sign + 2047 * 2 ^ 52.
Definition sd_qnan (sign : bool) : Z := sign_bit sign + 4095 * 2 ^ 51.

(* ascii_numget.cpp:1797-1800 and 1821-1824: the increment by which the mantissa [q],
   already shifted, is rounded, where [bits_out] is the part shifted out, doubled, with
   m_more in its lowest bit. *)
Definition round_up (ulp bits_out q : Z) : Z :=
  Z.land (Z.land (Z.shiftr (to_u64 (ulp - 1 - bits_out)) 63)
                 (Z.lor (Z.shiftr (to_u64 (ulp - bits_out)) 63) q)) 1.

(* ascii_numget.cpp:1785-1864, the end of cast_D: round the 64-bit mantissa [bits], whose
   MSB is set, with the biased exponent [exp]. *)
Definition compose (sign more : bool) (bits exp : Z) : Z :=
  let with_exp b e :=
    Z.lor (Z.lor b (sign_bit sign)) (Z.shiftl (Z.land e (Z.shiftr (- e) 15)) 52) in
  let b2z (b : bool) := if b then 1 else 0 in
  if 1 <=? exp then
    let ulp := 2 ^ 11 in
    let bits_out := Z.lor (Z.shiftl (Z.land bits (ulp - 1)) 1) (b2z more) in
    let q := Z.shiftr bits 11 in
    let q' := q + round_up ulp bits_out q in
    let sh := Z.land (Z.shiftr q' 53) 1 in
    let exp' := exp + sh in
    if 2046 <? exp' then sd_inf sign
    else with_exp (Z.land (Z.shiftr q' sh) (2 ^ 52 - 1)) exp'
  else if -51 <=? exp then
    let sh := 12 - exp in
    let ulp := 2 ^ sh in
    let bits_out := Z.lor (Z.shiftl (Z.land bits (ulp - 1)) 1) (b2z more) in
    let q := Z.shiftr bits sh in
    let q' := q + round_up ulp bits_out q in
    let sh' := Z.land (Z.shiftr q' 52) 1 in
    let exp' := exp + sh' in
    with_exp (Z.land (Z.shiftr q' (Z.land sh' (Z.shiftr exp' 15))) (2 ^ 52 - 1)) exp'
  else if exp =? -52 then
    if bits <=? 2 ^ 63 then sd_zero sign else with_exp 1 (-51)
  else sd_zero sign.

(* ascii_numget.cpp:1689-1869, cast_D with the range of double.  The index into the table
   is in range (checked at :1759). *)
Definition cast_D (x : num) : Z :=
  match n_cls x with
  | Cls_infinity => sd_inf (n_sign x)
  | Cls_nan => sd_qnan (n_sign x)
  | Cls_normal =>
      if n_mant x =? 0 then sd_zero (n_sign x)
      else if n_exp x <? -10000 then sd_zero (n_sign x)
      else if 10000 <? n_exp x then sd_inf (n_sign x)
      else
        let sh := lzcnt64 (n_mant x) in
        let bits := to_u64 (Z.shiftl (n_mant x) sh) in
        if n_base x =? 10 then
          if n_exp x <? -343 then sd_zero (n_sign x)
          else if 308 <? n_exp x then sd_inf (n_sign x)
          else
            let '(mm, exp2) := nth (Z.to_nat (343 + n_exp x)) get_multipliers (0, 0) in
            let b1 := mulh128 bits mm in
            let rsh := lzcnt64 b1 in
            compose (n_sign x) (n_more x) (to_u64 (Z.shiftl b1 rsh)) (exp2 - (sh + rsh) + 1086)
        else compose (n_sign x) (n_more x) bits (n_exp x - sh + 1086)
  end.

(* src/library/numeric.cpp:498-525, std_numeric_parse.  The result is an integer or the bit
   pattern of a real. *)
Inductive number := Integer (i : Z) | Real (bits : Z).

Definition is_space (c : Z) : bool :=
  existsb (Z.eqb c) [32; 12; 10; 13; 9; 11].
Fixpoint skip_spaces (s : bytes) : bytes :=
  match s with
  | c :: r => if is_space c then skip_spaces r else s
  | [] => []
  end.

Definition std_numeric_parse (text : bytes) : outcome number :=
  match skip_spaces text with
  | [] => Throw
  | t1 =>
      let t := rev (skip_spaces (rev t1)) in
      do p <- parse_D t ;
      match p with
      | Some (x, []) =>
          let '(i, exact) := cast_I x in
          if negb (existsb (Z.eqb 46) text) && exact then Ok (Integer i)
          else Ok (Real (cast_D x))
      | _ => Throw
      end
  end.
