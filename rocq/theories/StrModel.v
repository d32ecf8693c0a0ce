(* Byte sets, trimming, padding, case and translation of strings.
   Sources: asteria/src/library/string.cpp, asteria/rocket/cow_string.hpp,
   asteria/rocket/xascii.hpp, asteria/rocket/xstring.hpp. *)
From Verif Require Import Base Monad Text SeqModel.

Definition mem (c : Z) (set : bytes) : bool := existsb (Z.eqb c) set.

(* string.cpp:183-196 do_find_of_opt: offset of the first element whose entry
   in the table equals `want` *)
Fixpoint find_of_loop (set : bytes) (want : bool) (t : bytes) (i : Z) : option Z :=
  match t with
  | [] => None
  | c :: t => if Bool.eqb (mem c set) want then Some i else find_of_loop set want t (i + 1)
  end.

(* string.cpp:847-853, 855-861 std_string_find_any_of, std_string_find_not_of *)
Definition string_find_of (text : bytes) (from len : option Z) (set : bytes) (want : bool)
    : outcome (option Z) :=
  do (b, e) <- do_slice (zlen text) from len;
  do r <- subrange text b e;
  Ok (match find_of_loop set want r 0 with Some k => Some (b + k) | None => None end).

(* string.cpp:863-879 std_string_rfind_any_of, std_string_rfind_not_of *)
Definition string_rfind_of (text : bytes) (from len : option Z) (set : bytes) (want : bool)
    : outcome (option Z) :=
  do (b, e) <- do_slice (zlen text) from len;
  do r <- subrange text b e;
  Ok (match find_of_loop set want (rev r) 0 with Some k => Some (e - k - 1) | None => None end).

(* cow_string.hpp:1688-1718 find_not_of(0, s, n); npos is size_t(-1).  With one
   byte per character `overflow` only selects the exact test. *)
Definition npos : Z := 2 ^ 64 - 1.
Definition cow_find_not_of (t set : bytes) : Z :=
  match find_of_loop set false t 0 with Some k => k | None => npos end.

(* cow_string.hpp:1801-1831 rfind_not_of(npos, s, n), from the last byte down *)
Definition cow_rfind_not_of (t set : bytes) : Z :=
  match find_of_loop set false (rev t) 0 with Some k => zlen t - 1 - k | None => npos end.

(* cow_string.hpp:1077-1098 substr; throws when the start is past the end.  How
   the storage is shared is modelled in CowModel. *)
Definition substr (t : bytes) (tpos tn : Z) : outcome bytes :=
  if zlen t <? tpos then Throw
  else subrange t tpos (tpos + Z.min (zlen t - tpos) tn).

(* string.cpp:198-205 do_get_reject *)
Definition get_reject (reject : option bytes) : bytes :=
  match reject with Some r => r | None => [0x20; 0x09] end.

(* string.cpp:888-908 std_string_trim *)
Definition string_trim (text : bytes) (reject : option bytes) : outcome bytes :=
  let r := get_reject reject in
  if zlen r =? 0 then Ok text
  else
    let bpos := cow_find_not_of text r in
    if bpos =? npos then Ok []
    else
      let epos := to_u64 (cow_rfind_not_of text r + 1) in
      if (bpos =? 0) && (epos =? zlen text) then Ok text
      else substr text bpos (to_u64 (epos - bpos)).

(* string.cpp:910-926 std_string_triml *)
Definition string_triml (text : bytes) (reject : option bytes) : outcome bytes :=
  let r := get_reject reject in
  if zlen r =? 0 then Ok text
  else
    let bpos := cow_find_not_of text r in
    if bpos =? npos then Ok []
    else if bpos =? 0 then Ok text
    else substr text bpos npos.

(* string.cpp:928-944 std_string_trimr *)
Definition string_trimr (text : bytes) (reject : option bytes) : outcome bytes :=
  let r := get_reject reject in
  if zlen r =? 0 then Ok text
  else
    let epos := to_u64 (cow_rfind_not_of text r + 1) in
    if epos =? 0 then Ok []
    else if epos =? zlen text then Ok text
    else substr text 0 epos.

(* string.cpp:207-217 do_get_padding *)
Definition get_padding (padding : option bytes) : outcome bytes :=
  match padding with None => Ok [0x20] | Some [] => Throw | Some p => Ok p end.

(* string.cpp:946-958 std_string_padl and 961-973 std_string_padr: the loop.
   `left` selects the side; max_size bounds reserve(). *)
Fixpoint pad_loop (fuel : nat) (left : bool) (text pad res : bytes) (length : Z) : outcome bytes :=
  if zlen res + zlen pad <=? length then
    match fuel with
    | O => UB
    | S fuel =>
      do res <- (if left then
                   do p <- iter (zlen res) (zlen res - zlen text);
                   splice res p p pad
                 else Ok (res ++ pad));
      pad_loop fuel left text pad res length
    end
  else Ok res.

Definition string_pad (max_size : Z) (left : bool) (text : bytes) (length : Z) (padding : option bytes)
    : outcome bytes :=
  do pad <- get_padding padding;
  if length <=? 0 then Ok text
  else if max_size <? Z.max (zlen text) length then Throw
  else pad_loop (Z.to_nat length) left text pad text length.

(* the value of a char, which is signed *)
Definition schar (b : Z) : Z := if b <? 0x80 then b else b - 0x100.

(* xascii.hpp:34-40, 42-48 ascii_to_upper, ascii_to_lower, as bytes *)
Definition ascii_to_upper (b : Z) : Z :=
  let c := schar b in
  Z.land c (Z.shiftr (Z.lor (Z.lor 0xDF00 (c - 0x61)) (0x7A - c)) 8) mod 256.
Definition ascii_to_lower (b : Z) : Z :=
  let c := schar b in
  Z.lor c (Z.shiftr (Z.land (Z.land 0x2000 (0x41 - c - 1)) (c - 0x5A - 1)) 8) mod 256.

(* string.cpp:976-1018: the loop of std_string_to_upper and to_lower at index i *)
Fixpoint case_loop (fuel : nat) (f : Z -> Z) (res : bytes) (i : nat) : outcome bytes :=
  match fuel with
  | O => Ok res
  | S fuel =>
    match nth_error res i with
    | None => UB
    | Some c =>
      let t := f c in
      case_loop fuel f (if c =? t then res else set_nth res i t) (S i)
    end
  end.
Definition string_to_upper (text : bytes) : outcome bytes := case_loop (length text) ascii_to_upper text 0.
Definition string_to_lower (text : bytes) : outcome bytes := case_loop (length text) ascii_to_lower text 0.

(* cow_string.hpp:1502-1515 find_of(0, c) *)
Fixpoint index_of (c : Z) (s : bytes) : option nat :=
  match s with
  | [] => None
  | x :: s => if x =? c then Some O else match index_of c s with Some k => Some (S k) | None => None end
  end.

(* string.cpp:1020-1044 std_string_translate: the loop at index i.  After an
   erasure the index is decremented and incremented again. *)
Fixpoint translate_loop (fuel : nat) (inputs : bytes) (outputs : option bytes) (res : bytes) (i : nat)
    : outcome bytes :=
  if (i <? length res)%nat then
    match fuel with
    | O => UB
    | S fuel =>
      match nth_error res i with
      | None => UB
      | Some c =>
        match index_of c inputs with
        | None => translate_loop fuel inputs outputs res (S i)
        | Some ipos =>
          match match outputs with Some o => nth_error o ipos | None => None end with
          | Some x => translate_loop fuel inputs outputs (set_nth res i x) (S i)
          | None => do res <- splice res (Z.of_nat i) (Z.of_nat i + 1) []; translate_loop fuel inputs outputs res i
          end
        end
      end
    end
  else Ok res.
Definition string_translate (text inputs : bytes) (outputs : option bytes) : outcome bytes :=
  translate_loop (length text) inputs outputs text 0.

(* xstring.hpp:67-76: memcmp of n bytes; the sign only *)
Fixpoint memcmp (a b : bytes) (n : nat) : outcome Z :=
  match n with
  | O => Ok 0
  | S n =>
    match a, b with
    | x :: a, y :: b => if x <? y then Ok (-1) else if y <? x then Ok 1 else memcmp a b n
    | _, _ => UB
    end
  end.

(* xstring.hpp:78-87 *)
Definition xmemcmp (a b : bytes) : outcome Z :=
  if zlen a <? zlen b then do c <- memcmp b a (length a); Ok (if c <? 0 then 1 else -1)
  else if zlen b <? zlen a then do c <- memcmp a b (length b); Ok (if c <? 0 then -1 else 1)
  else memcmp a b (length a).

(* string.cpp:768-781 std_string_compare *)
Definition string_compare (a b : bytes) (len : option Z) : outcome Z :=
  match len with
  | None => xmemcmp a b
  | Some n =>
    if 2 ^ 63 - 1 <=? n then xmemcmp a b
    else if n <=? 0 then Ok 0
    else
      do x <- substr a 0 n;
      do y <- substr b 0 n;
      xmemcmp x y
  end.

(* cow_string.hpp:2053-2059 starts_with, 2086-2092 ends_with *)
Definition starts_with (t p : bytes) : outcome bool :=
  if zlen p <=? zlen t then do c <- memcmp t p (length p); Ok (c =? 0) else Ok false.
Definition ends_with (t p : bytes) : outcome bool :=
  if zlen p <=? zlen t then
    do c <- memcmp (skipn (length t - length p) t) p (length p); Ok (c =? 0)
  else Ok false.

(* cow_string.hpp:900-909 replace: append the new bytes, then
   do_swizzle_unchecked (372-380) on the buffer with its terminator.  The
   result is the contents and the byte after them. *)
Definition cow_replace (t : bytes) (tpos tlen : nat) (s : bytes) : outcome (bytes * option Z) :=
  let buf := t ++ s ++ [0] in
  let m_len := (length t + length s)%nat in
  do buf <- rotate buf tpos (tpos + tlen) (m_len + 1);
  let m_len := (m_len - tlen)%nat in
  do buf <- rotate buf tpos (length t - tlen) m_len;
  Ok (firstn m_len buf, nth_error buf m_len).
