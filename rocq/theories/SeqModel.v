(* Slicing, rotating, shuffling and repeating sequences.
   Sources: asteria/src/library/{string,array}.cpp, asteria/rocket/fwd.hpp,
   asteria/rocket/xhashtable.hpp, asteria/src/runtime/air_node.cpp. *)
From Verif Require Import Base Monad IntOpsModel.

(* ---- do_slice ---- *)

(* An iterator of a sequence of n elements is its offset; making one outside
   [0, n] is UB. *)
Definition iter (n p : Z) : outcome Z := if (0 <=? p) && (p <=? n) then Ok p else UB.

(* Signed addition; overflow is UB. *)
Definition add_i64 (x y : Z) : outcome Z := if is_int64b (x + y) then Ok (x + y) else UB.

(* string.cpp:15-26, array.cpp:15-26: do_slice from an iterator *)
Definition slice_from (n tbegin : Z) (length : option Z) : outcome (Z * Z) :=
  match length with
  | None => Ok (tbegin, n)
  | Some len =>
    if n - tbegin <=? len then Ok (tbegin, n)
    else if len <=? 0 then Ok (tbegin, tbegin)
    else do e <- iter n (tbegin + len); Ok (tbegin, e)
  end.

(* string.cpp:28-60, array.cpp:28-60: do_slice from a subscript *)
Definition do_slice (n : Z) (from length : option Z) : outcome (Z * Z) :=
  let sfrom := match from with Some f => f | None => 0 end in
  if n <=? sfrom then Ok (n, n)
  else if 0 <=? sfrom then do b <- iter n sfrom; slice_from n b length
  else
    do rfrom <- add_i64 sfrom n;
    if 0 <=? rfrom then do b <- iter n rfrom; slice_from n b length
    else match length with
    | None => Ok (0, n)
    | Some len =>
      if len <=? 0 then Ok (0, 0)
      else do len' <- add_i64 rfrom len; slice_from n 0 (Some len')
    end.

Section Seq.
Context {A : Type}.
Definition zlen (l : list A) : Z := Z.of_nat (length l).

(* The elements in [b, e); anything but 0 <= b <= e <= n is UB. *)
Definition subrange (l : list A) (b e : Z) : outcome (list A) :=
  if (0 <=? b) && (b <=? e) && (e <=? zlen l)
  then Ok (firstn (Z.to_nat (e - b)) (skipn (Z.to_nat b) l)) else UB.

(* string.cpp:744-753 std_string_slice, array.cpp:242-251 std_array_slice *)
Definition slice (l : list A) (from length : option Z) : outcome (list A) :=
  do (b, e) <- do_slice (zlen l) from length;
  if negb (e - b =? zlen l) then subrange l b e else Ok l.

(* cow_string::replace on a whole string: the elements in [b, e) are replaced
   by r. *)
Definition splice (l : list A) (b e : Z) (r : list A) : outcome (list A) :=
  do _ <- subrange l b e;
  Ok (firstn (Z.to_nat b) l ++ r ++ skipn (Z.to_nat e) l).

(* std::move(first, last, dest): assign the elements of r one by one from
   position b on.  Writing past the end is UB. *)
Fixpoint overwrite (l : list A) (b : nat) (r : list A) {struct l} : outcome (list A) :=
  match r with
  | [] => Ok l
  | x :: r' =>
    match l with
    | [] => UB
    | y :: t =>
      match b with
      | O => do t' <- overwrite t O r'; Ok (x :: t')
      | S b => do t' <- overwrite t b r; Ok (y :: t')
      end
    end
  end.

(* string.cpp:755-766 std_string_replace_slice *)
Definition string_replace_slice (l : list A) (from length : option Z) (rep : list A)
    (rfrom rlength : option Z) : outcome (list A) :=
  do (b, e) <- do_slice (zlen l) from length;
  do (rb, re) <- do_slice (zlen rep) rfrom rlength;
  do r <- subrange rep rb re;
  splice l b e r.

(* ---- rotate ---- *)

Fixpoint set_nth (l : list A) (i : nat) (x : A) {struct l} : list A :=
  match l, i with
  | [], _ => []
  | _ :: t, O => x :: t
  | y :: t, S i => y :: set_nth t i x
  end.

(* swap(ptr[i], ptr[j]); positions outside the array are UB *)
Definition swap_at (l : list A) (i j : nat) : outcome (list A) :=
  match nth_error l i, nth_error l j with
  | Some x, Some y => Ok (set_nth (set_nth l i y) j x)
  | _, _ => UB
  end.

(* fwd.hpp:917-919, 936-938, 955-957:
   do swap(ptr[bot++], ptr[brk++]); while(bot != stop) -- or brk, if on_brk *)
Fixpoint swap_run (fuel : nat) (on_brk : bool) (stop : nat) (l : list A) (bot brk : nat)
    {struct fuel} : outcome (list A * nat * nat) :=
  match fuel with
  | O => UB
  | S fuel =>
    do l <- swap_at l bot brk;
    let bot := S bot in
    let brk := S brk in
    if ((if on_brk then brk else bot) =? stop)%nat then Ok (l, bot, brk)
    else swap_run fuel on_brk stop l bot brk
  end.

(* fwd.hpp:906-945: the loop of rotate *)
Fixpoint rotate_loop (fuel : nat) (l : list A) (bot brk stp end_ isl isr : nat)
    {struct fuel} : outcome (list A) :=
  if (isl =? isr)%nat then
    do (l, _, _) <- swap_run (length l) false stp l bot brk; Ok l
  else match fuel with
  | O => UB
  | S fuel =>
    if (isl <? isr)%nat then
      do (l, bot, brk) <- swap_run (length l) false stp l bot brk;
      let stp := brk in
      let isr := (end_ - brk)%nat in
      rotate_loop fuel l bot brk stp end_ isl isr
    else
      do (l, bot, brk) <- swap_run (length l) true end_ l bot brk;
      let brk := stp in
      let isl := (stp - bot)%nat in
      rotate_loop fuel l bot brk stp end_ isl isr
  end.

(* fwd.hpp:887-958 rotate *)
Definition rotate (l : list A) (begin seek end_ : nat) : outcome (list A) :=
  let bot := begin in
  let brk := seek in
  let stp := seek in
  let isl := (brk - bot)%nat in
  if (isl =? 0)%nat then Ok l else
  let isr := (end_ - brk)%nat in
  if (isr =? 0)%nat then Ok l else
  rotate_loop (length l) l bot brk stp end_ isl isr.

(* cow_vector.hpp:656-709 insert: append, then rotate (do_swizzle_unchecked,
   201-210).  An insertion point past the end is UB. *)
Definition vec_insert (l : list A) (tpos : nat) (xs : list A) : outcome (list A) :=
  if (length l <? tpos)%nat then UB else
  rotate (l ++ xs) tpos (length l) (length (l ++ xs)).

(* cow_vector.hpp:720-736 erase (do_erase_unchecked, 212-220): rotate, then
   drop the last elements.  A range past the end is UB. *)
Definition vec_erase (l : list A) (tpos tlen : nat) : outcome (list A) :=
  if (length l <? tpos + tlen)%nat then UB else
  do l' <- rotate l tpos (tpos + tlen) (length l);
  Ok (firstn (length l - tlen) l').

(* array.cpp:253-285 std_array_replace_slice *)
Definition array_replace_slice (l : list A) (from length : option Z) (rep : list A)
    (rfrom rlength : option Z) : outcome (list A) :=
  do (b, e) <- do_slice (zlen l) from length;
  do (rb, re) <- do_slice (zlen rep) rfrom rlength;
  let offset := b in
  let dist := e - b in
  let rep_offset := rb in
  let rep_dist := re - rb in
  if rep_dist <=? dist then
    do moved <- subrange rep rep_offset (rep_offset + rep_dist);
    do res <- overwrite l (Z.to_nat offset) moved;
    vec_erase res (Z.to_nat (offset + rep_dist)) (Z.to_nat (dist - rep_dist))
  else
    do moved <- subrange rep rep_offset (rep_offset + dist);
    do res <- overwrite l (Z.to_nat offset) moved;
    do ins <- subrange rep (rep_offset + dist) (rep_offset + rep_dist);
    vec_insert res (Z.to_nat (offset + dist)) ins.

(* array.cpp:619-633 std_array_rotate *)
Definition array_rotate (data : list A) (shift : Z) : outcome (list A) :=
  if (length data <=? 1)%nat then Ok data else
  let n := zlen data in
  let seek := Z.rem shift n in
  if seek =? 0 then Ok data else
  let seek := Z.land (Z.shiftr (Z.lnot seek) 63) n - seek in
  rotate data 0 (Z.to_nat (to_u64 seek)) (length data).

(* ---- shuffle ---- *)

(* xhashtable.hpp:12-19 probe_origin; size_t has 64 bits *)
Definition probe_origin (size hval : Z) : Z :=
  to_u64 (to_u64 (hval * 0x9E3779B9) mod 2 ^ 32 * size) / 2 ^ 32.

(* array.cpp:604-615: the loop of std_array_shuffle for k, k+1, ... *)
Fixpoint shuffle_loop (count : nat) (k : nat) (lcg : Z) (data : list A) {struct count} : outcome (list A) :=
  match count with
  | O => Ok data
  | S count =>
    let lcg := Z.land (to_u64 (to_u64 (lcg * 0x5DEECE66D) + 0xB)) 0xFFFFFFFFFFFF in
    let r := Z.to_nat (probe_origin (zlen data) (Z.shiftr lcg 16)) in
    do data <- (if (r =? k)%nat then Ok data else swap_at data r k);
    shuffle_loop count (S k) lcg data
  end.

(* array.cpp:585-617 std_array_shuffle.  The generator state that replaces an
   absent seed is an argument: lcg is the seed as an unsigned number, or two
   outputs of the global generator. *)
Definition array_shuffle (data : list A) (lcg : Z) : outcome (list A) :=
  if (length data <=? 1)%nat then Ok data else shuffle_loop (length data) 0 lcg data.

(* array.cpp:555-559 std_array_reverse, string.cpp:881-885 std_string_reverse *)
Definition seq_reverse (data : list A) : list A := rev data.

(* ---- repetition ---- *)

(* air_node.cpp:191-192: while(dst.size() * 2 <= ntotal) dst.append(dst) *)
Fixpoint double_up (fuel : nat) (ntotal : Z) (dst : list A) {struct fuel} : outcome (list A) :=
  if to_u64 (zlen dst * 2) <=? ntotal then
    match fuel with
    | O => UB
    | S fuel => double_up fuel ntotal (dst ++ dst)
    end
  else Ok dst.

(* air_node.cpp:170-195 do_duplicate_sequence.  Running out of memory is not
   modelled. *)
Definition duplicate (src : list A) (count : Z) : outcome (list A) :=
  if count <? 0 then Throw else
  let '(rlen, ovr) := mulm (zlen src) count in
  if ovr || (int64_max <? rlen) then Throw else
  if rlen =? 0 then Ok [] else
  do dst <- double_up (Z.to_nat rlen) rlen src;
  do more <- subrange dst 0 (rlen - zlen dst);
  Ok (dst ++ more).
End Seq.
