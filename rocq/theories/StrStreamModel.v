(* Streams on strings: tinyfmt_str, with characters of type `char`.
   Source: asteria/rocket/tinyfmt_str.hpp:208-378; resize is
   asteria/rocket/cow_string.hpp:485-491 and int_from is
   asteria/rocket/fwd.hpp:1221-1227.
   The string is a list of characters; `max` is its max_size().
   Simplifications: strings are values (for them see CowStrModel); append and
   push_back throw if the result would be longer than `max`; there is always
   enough memory. *)
From Verif Require Import Base.

Record stream := Stream { text : list Z; off : Z; can_read : bool; can_write : bool; append_mode : bool }.
Definition size (s : stream) : Z := Z.of_nat (length (text s)).
Definition with_ (s : stream) (t : list Z) (o : Z) : stream := Stream t o (can_read s) (can_write s) (append_mode s).

(* addm on int64_t *)
Definition add64 (a b : Z) : option Z :=
  let c := a + b in if (- 2 ^ 63 <=? c) && (c <? 2 ^ 63) then Some c else None.
Inductive seek_dir := Seek_set | Seek_cur | Seek_end.
(* 223-263 *)
Definition seek (s : stream) (o : Z) (dir : seek_dir) : outcome stream :=
  let orig := match dir with Seek_set => 0 | Seek_cur => off s | Seek_end => size s end in
  match add64 orig o with
  | None => Throw
  | Some targ => if targ <? 0 then Throw else Ok (with_ s (text s) targ)
  end.

(* 269-287 *)
Definition getn (s : stream) (n : Z) : outcome (list Z * stream) :=
  if negb (can_read s) then Throw
  else if off s >=? size s then Ok ([], s)
  else
    let r := Z.min n (size s - off s) in
    Ok (firstn (Z.to_nat r) (skipn (Z.to_nat (off s)) (text s)), with_ s (text s) (off s + r)).
(* 293-309 *)
Definition getc (s : stream) : outcome (Z * stream) :=
  if negb (can_read s) then Throw
  else if off s >=? size s then Ok (-1, s)
  else
    match nth_error (text s) (Z.to_nat (off s)) with
    | Some c => Ok (c mod 256, with_ s (text s) (off s + 1))
    | None => UB
    end.

Definition resize (t : list Z) (n : Z) : list Z :=
  if Z.of_nat (length t) <? n then t ++ repeat 0 (Z.to_nat n - length t) else firstn (Z.to_nat n) t.
(* copying characters into a string, which must have room for them *)
Definition overwrite (t : list Z) (at_ : Z) (l : list Z) : outcome (list Z) :=
  let k := Z.to_nat at_ in
  if (k + length l <=? length t)%nat then Ok (firstn k t ++ l ++ skipn (k + length l) t) else UB.

Section Max.
Variable max : Z.
(* 314-344 *)
Definition putn (s : stream) (l : list Z) : outcome stream :=
  let n := Z.of_nat (length l) in
  if negb (can_write s) then Throw
  else if append_mode s || (off s =? size s) then
    if max <? size s + n then Throw
    else let t := text s ++ l in Ok (with_ s t (Z.of_nat (length t)))
  else if (off s >? max) || (n >? max - off s) then Throw
  else
    match overwrite (resize (text s) (off s + n)) (off s) l with
    | Ok t => Ok (with_ s t (off s + n))
    | Throw => Throw
    | UB => UB
    end.
(* 349-378 *)
Definition putc (s : stream) (c : Z) : outcome stream :=
  if negb (can_write s) then Throw
  else if append_mode s || (off s =? size s) then
    if max <? size s + 1 then Throw
    else let t := text s ++ [c] in Ok (with_ s t (Z.of_nat (length t)))
  else if off s >=? max then Throw
  else
    match overwrite (resize (text s) (off s + 1)) (off s) [c] with
    | Ok t => Ok (with_ s t (off s + 1))
    | Throw => Throw
    | UB => UB
    end.
End Max.
