(* Bit rotation and binary packing.  Source: asteria/src/library/numeric.cpp
   and asteria/rocket/fwd.hpp (load_le/be, store_le/be on a little-endian host). *)
From Verif Require Import Base.

(* numeric.cpp:298-320 std_numeric_rotl *)
Definition rotl (m x n : Z) : outcome Z :=
  if (m <? 0) || (m >? 64) then Throw
  else if m =? 0 then Ok 0
  else
    let ireg := to_u64 x in
    let mask := to_u64 (to_u64 (Z.shiftl 2 (m - 1)) - 1) in
    let sh := Z.rem n m in
    let ireg :=
      if negb (sh =? 0) then
        let sh := sh + Z.land (Z.shiftr sh 63) m in
        Z.lor (to_u64 (Z.shiftl ireg sh)) (Z.shiftr (Z.land ireg mask) (m - sh))
      else ireg in
    Ok (to_i64 (Z.land ireg mask)).

(* numeric.cpp:322-344 std_numeric_rotr *)
Definition rotr (m x n : Z) : outcome Z :=
  if (m <? 0) || (m >? 64) then Throw
  else if m =? 0 then Ok 0
  else
    let ireg := to_u64 x in
    let mask := to_u64 (to_u64 (Z.shiftl 2 (m - 1)) - 1) in
    let sh := Z.rem n m in
    let ireg :=
      if negb (sh =? 0) then
        let sh := sh + Z.land (Z.shiftr sh 63) m in
        Z.lor (Z.shiftr (Z.land ireg mask) sh) (to_u64 (Z.shiftl ireg (m - sh)))
      else ireg in
    Ok (to_i64 (Z.land ireg mask)).

(* The memory image of an unsigned integer of w bytes on a little-endian host. *)
Fixpoint image (w : nat) (v : Z) : bytes :=
  match w with O => [] | S w' => v mod 256 :: image w' (v / 256) end.
Fixpoint unimage (s : bytes) : Z :=
  match s with [] => 0 | b :: t => b + 256 * unimage t end.
(* __builtin_bswap16/32/64 on the memory image *)
Definition bswap (w : nat) (v : Z) : Z := unimage (rev (image w v)).

(* rocket/fwd.hpp:604-692 store_be and store_le; the value has been converted
   to uintN_t by the caller *)
Definition store_le (w : nat) (v : Z) : bytes := image w v.
Definition store_be (w : nat) (v : Z) : bytes := image w (bswap w v).
(* rocket/fwd.hpp:500-602 load_be and load_le *)
Definition load_le (w : nat) (s : bytes) : Z := unimage s.
Definition load_be (w : nat) (s : bytes) : Z := bswap w (unimage s).

Definition width_bits (w : nat) : Z := 8 * Z.of_nat w.
(* static_cast<uintN_t>(value) and static_cast<intN_t>(value) *)
Definition cast_u (w : nat) (v : Z) : Z := v mod 2 ^ width_bits w.
Definition cast_i (w : nat) (v : Z) : Z :=
  (v + 2 ^ (width_bits w - 1)) mod 2 ^ width_bits w - 2 ^ (width_bits w - 1).

Inductive endian := LE | BE.
Definition store (e : endian) (w : nat) (v : Z) : bytes :=
  match e with LE => store_le w v | BE => store_be w v end.
Definition load (e : endian) (w : nat) (s : bytes) : Z :=
  match e with LE => load_le w s | BE => load_be w s end.

(* numeric.cpp:527-543 pack_i8, 557-576 pack_i16be, 593-612 pack_i16le,
   629-648 pack_i32be, 665-684 pack_i32le, 701-720 pack_i64be, 737-756
   pack_i64le.  The twelve functions differ in width and byte order only; the
   one-byte version stores (char) value directly.  Elements that are not
   integers make as_integer() throw and are not modelled. *)
Definition pack1 (e : endian) (w : nat) (value : Z) : bytes := store e w (cast_u w value).
Fixpoint pack (e : endian) (w : nat) (values : list Z) : bytes :=
  match values with [] => [] | v :: t => store e w (cast_u w v) ++ pack e w t end.

(* numeric.cpp:545-555, 578-591, 614-627, 650-663, 686-699, 722-735, 758-771
   unpack_*.  Reading outside the text, or a loop that misses the end of the
   text, is UB; fuel is the number of bytes. *)
Fixpoint unpack_loop (e : endian) (w : nat) (fuel : nat) (text : bytes) (off : nat) : outcome (list Z) :=
  if (off =? length text)%nat then Ok []
  else match fuel with
  | O => UB
  | S fuel' =>
    if (off + w <=? length text)%nat then
      let v := cast_i w (load e w (firstn w (skipn off text))) in
      match unpack_loop e w fuel' text (off + w) with
      | Ok r => Ok (v :: r)
      | o => o
      end
    else UB
  end.
Definition unpack (e : endian) (w : nat) (text : bytes) : outcome (list Z) :=
  if negb (Z.of_nat (length text) mod Z.of_nat w =? 0) then Throw
  else unpack_loop e w (length text) text 0.
