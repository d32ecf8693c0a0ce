(* UTF-8 and UTF-16 conversion.  Source: asteria/src/utils.cpp:200-415.
   A char pointer plus the remaining length is a list of the remaining bytes
   (values 0..255) or 16-bit units (0..65535). *)
From Verif Require Import Base.

Definition surrogate_or_large (cp : Z) : bool :=
  ((0xD800 <=? cp) && (cp <? 0xE000)) || (0x110000 <=? cp).

(* utils.cpp:213-214 do_utf8_encode_one_(sh, m), on 32-bit unsigned integers
   and converted to char *)
Definition utf8_encode_one (cp sh m : Z) : Z :=
  (Z.lor ((Z.shiftl (2 ^ 32 - 1 - m) 1) mod 2 ^ 32) (Z.land (Z.shiftr cp sh) m)) mod 256.

(* utils.cpp:200-233 utf8_encode(char*&, char32_t): the bytes written, or None
   when it returns false *)
Definition utf8_encode (cp : Z) : option bytes :=
  if cp <? 0x80 then Some [cp mod 256]
  else if surrogate_or_large cp then None
  else if cp <? 0x800 then
    Some [utf8_encode_one cp 6 0x1F; utf8_encode_one cp 0 0x3F]
  else if cp <? 0x10000 then
    Some [utf8_encode_one cp 12 0x0F; utf8_encode_one cp 6 0x3F; utf8_encode_one cp 0 0x3F]
  else
    Some [utf8_encode_one cp 18 0x07; utf8_encode_one cp 12 0x3F;
          utf8_encode_one cp 6 0x3F; utf8_encode_one cp 0 0x3F].

Definition b2z (b : bool) : Z := if b then 1 else 0.

(* utils.cpp:269-273: the loop reading n trailing units.  The test is the one
   in the code, with `||`. None = return false (also used when the input ends,
   which the caller has excluded). *)
Fixpoint utf8_trail (cp : Z) (s : bytes) (n : nat) {struct n} : option (Z * bytes) :=
  match n with
  | O => Some (cp, s)
  | S k =>
    match s with
    | [] => None
    | b :: s' =>
      if (0x80 <=? b) || (b <? 0xC0)
      then utf8_trail (Z.lor (Z.shiftl cp 6) (Z.land b 0x3F)) s' k
      else None
    end
  end.

(* utils.cpp:249-283 utf8_decode(char32_t&, const char*&, size_t): the code
   point and the remaining input, or None when it returns false. *)
Definition utf8_decode (s : bytes) : option (Z * bytes) :=
  match s with
  | [] => None
  | c :: s' =>
    if c <? 0x80 then Some (c, s')
    else if (c <? 0xC0) || (0xF8 <=? c) then None
    else
      let u8len := 2 + b2z (0xE0 <=? c) + b2z (0xF0 <=? c) in
      if Z.of_nat (length s) <? u8len then None
      else
        match utf8_trail (Z.land c (Z.shiftr 0xFF u8len)) s' (Z.to_nat (u8len - 1)) with
        | None => None
        | Some (cp, rest) =>
          if surrogate_or_large cp then None
          else if negb (1 + b2z (0x80 <=? cp) + b2z (0x800 <=? cp) + b2z (0x10000 <=? cp) =? u8len)
          then None
          else Some (cp, rest)
        end
  end.

(* utils.cpp:303-314 utf8_validate: loop until the end of input.  Every
   iteration consumes at least one byte, so the length is enough fuel; None is
   fuel exhaustion. *)
Fixpoint utf8_validate_loop (fuel : nat) (s : bytes) : option bool :=
  match s with
  | [] => Some true
  | _ :: _ =>
    match fuel with
    | O => None
    | S k =>
      match utf8_decode s with
      | None => Some false
      | Some (_, s') => utf8_validate_loop k s'
      end
    end
  end.
Definition utf8_validate (s : bytes) : option bool := utf8_validate_loop (length s) s.

(* utils.cpp:323-338 utf16_encode *)
Definition utf16_encode (cp : Z) : option (list Z) :=
  if surrogate_or_large cp then None
  else if cp <? 0x10000 then Some [cp mod 2 ^ 16]
  else Some [(0xD800 + Z.shiftr (cp - 0x10000) 10) mod 2 ^ 16;
             (0xDC00 + Z.land cp 0x3FF) mod 2 ^ 16].

(* utils.cpp:355-380 utf16_decode *)
Definition utf16_decode (s : list Z) : option (Z * list Z) :=
  match s with
  | [] => None
  | cp :: s' =>
    if (cp <? 0xD800) || (0xE000 <=? cp) then Some (cp, s')
    else if 0xDC00 <=? cp then None
    else
      match s' with
      | [] => None
      | cu :: s'' =>
        if (cu <? 0xDC00) || (0xE000 <=? cu) then None
        else Some (0x10000 + Z.shiftl (Z.land cp 0x3FF) 10 + Z.land cu 0x3FF, s'')
      end
  end.

(* utils.cpp:398-409 utf16_validate *)
Fixpoint utf16_validate_loop (fuel : nat) (s : list Z) : option bool :=
  match s with
  | [] => Some true
  | _ :: _ =>
    match fuel with
    | O => None
    | S k =>
      match utf16_decode s with
      | None => Some false
      | Some (_, s') => utf16_validate_loop k s'
      end
    end
  end.
Definition utf16_validate (s : list Z) : option bool := utf16_validate_loop (length s) s.

(* clamp_cast<char32_t>(v, -1, INT32_MAX): rocket/fwd.hpp clamp_cast; -1 becomes
   0xFFFFFFFF *)
Definition clamp_char32 (v : Z) : Z :=
  (if v <? -1 then -1 else if 2 ^ 31 - 1 <? v then 2 ^ 31 - 1 else v) mod 2 ^ 32.

(* library/string.cpp:1608-1626 std_string_utf8_encode(V_array, ...) on an array
   of integers (other element types throw in as_integer and are not modelled).
   permissive = true only for an explicit true. *)
Fixpoint std_utf8_encode (permissive : bool) (cps : list Z) : outcome bytes :=
  match cps with
  | [] => Ok []
  | v :: t =>
    let piece := match utf8_encode (clamp_char32 v) with
                 | Some s => Ok s
                 | None => if permissive
                           then match utf8_encode 0xFFFD with Some s => Ok s | None => Ok [] end
                           else Throw
                 end in
    match piece with
    | Ok s => match std_utf8_encode permissive t with Ok r => Ok (s ++ r) | e => e end
    | e => e
    end
  end.

(* library/string.cpp:1628-1648 std_string_utf8_decode.  On failure the offset is
   unchanged (utils.cpp:287-300).  None = out of fuel. *)
Fixpoint std_utf8_decode_loop (fuel : nat) (permissive : bool) (s : bytes) : option (outcome (list Z)) :=
  match s with
  | [] => Some (Ok [])
  | b :: s' =>
    match fuel with
    | O => None
    | S k =>
      match utf8_decode s with
      | Some (cp, rest) =>
        match std_utf8_decode_loop k permissive rest with
        | Some (Ok r) => Some (Ok (cp :: r))
        | e => e
        end
      | None =>
        if permissive then
          match std_utf8_decode_loop k permissive s' with
          | Some (Ok r) => Some (Ok (Z.land b 0xFF :: r))
          | e => e
          end
        else Some Throw
      end
    end
  end.
Definition std_utf8_decode (permissive : bool) (s : bytes) := std_utf8_decode_loop (length s) permissive s.
