(* Copy-on-write arrays.
   asteria/rocket/cow_vector.hpp and asteria/rocket/details/cow_vector.ipp.

   A program is a history of operations over any number of vectors.  Memory is
   a list of storage blocks; every element slot of a block records whether an
   element lives there.  Constructing over a live element, destroying or
   reading a missing one and writing outside a block are undefined.

   Simplifications: one thread; reference counts do not overflow; copying and
   moving elements does not throw (Value's constructors are noexcept);
   allocation fails only above max_size(); iterators always tell their
   distance; the allocator is stateless. *)
From Verif Require Import Base Monad SeqModel.

Section Vec.
Context {A : Type}.

(* an element slot: raw memory, an element, an element that was moved away *)
Inductive cell := Raw | Val (a : A) | Moved.
(* basic_storage, details/cow_vector.ipp:11-70; nblk is kept as the number of
   slots, max_nelem_for_nblk(nblk) *)
Record storage := Storage { nref : Z; nelem : nat; nskip : nat; data : list cell }.
(* [Gone] is a block that was given back, with what was left in it *)
Inductive slot := Live (b : storage) | Gone (d : list cell).
(* a vector is its storage_handle, cow_vector.hpp:53; [None]: destroyed *)
Record mem := Mem { blocks : list slot; objs : list (option (option nat)) }.

Definition obj (m : mem) (h : nat) : outcome (option nat) :=
  match nth_error (objs m) h with Some (Some o) => Ok o | _ => UB end.
Definition set_obj (m : mem) (h : nat) (o : option (option nat)) : mem :=
  Mem (blocks m) (set_nth (objs m) h o).
Definition new_obj (m : mem) (o : option nat) : mem := Mem (blocks m) (objs m ++ [Some o]).
Definition block (m : mem) (s : nat) : outcome storage :=
  match nth_error (blocks m) s with Some (Live b) => Ok b | _ => UB end.
Definition set_block (m : mem) (s : nat) (b : slot) : mem :=
  Mem (set_nth (blocks m) s b) (objs m).

(* ~basic_storage, details/cow_vector.ipp:53-66: destroys backwards *)
Fixpoint destroy_from (n : nat) (skip : nat) (d : list cell) : outcome (list cell) :=
  match n with
  | O => Ok d
  | S n =>
      match nth_error d (skip + n) with
      | Some (Val _) | Some Moved => destroy_from n skip (set_nth d (skip + n) Raw)
      | _ => UB
      end
  end.
(* do_reset(nullptr), details/cow_vector.ipp:229-247 *)
Definition release (m : mem) (s : option nat) : outcome mem :=
  match s with
  | None => Ok m
  | Some s =>
      do b <- block m s;
      if nref b - 1 =? 0 then
        do d <- destroy_from (nelem b - nskip b) (nskip b) (data b);
        Ok (set_block m s (Gone d))
      else Ok (set_block m s (Live (Storage (nref b - 1) (nelem b) (nskip b) (data b))))
  end.
(* share_with, details/cow_vector.ipp:508-516, the increment *)
Definition acquire (m : mem) (s : option nat) : outcome mem :=
  match s with
  | None => Ok m
  | Some s =>
      do b <- block m s;
      Ok (set_block m s (Live (Storage (nref b + 1) (nelem b) (nskip b) (data b))))
  end.

(* details/cow_vector.ipp:279-336: unique, capacity, size, mut_data_opt (no
   storage counts as writable: the pointer is then -1, not null) *)
Definition unique (m : mem) (s : option nat) : outcome bool :=
  match s with None => Ok false | Some s => do b <- block m s; Ok (nref b =? 1) end.
Definition capacity (m : mem) (s : option nat) : outcome nat :=
  match s with None => Ok 0%nat | Some s => do b <- block m s; Ok (length (data b)) end.
Definition size (m : mem) (s : option nat) : outcome nat :=
  match s with None => Ok 0%nat | Some s => do b <- block m s; Ok (nelem b) end.
Definition writable (m : mem) (s : option nat) : outcome bool :=
  match s with None => Ok true | Some s => do b <- block m s; Ok (nref b =? 1) end.

(* data()[i] *)
Definition read_cell (m : mem) (s i : nat) : outcome A :=
  do b <- block m s;
  match nth_error (data b) i with Some (Val a) => Ok a | _ => UB end.
(* an argument of append(): a value of the caller, or an element in a block *)
Inductive source := Lit (a : A) | At (s i : nat).
Definition fetch (m : mem) (x : source) : outcome A :=
  match x with Lit a => Ok a | At s i => read_cell m s i end.

(* emplace_back_unchecked, details/cow_vector.ipp:90-102 *)
Definition emplace (m : mem) (s : nat) (a : A) : outcome mem :=
  do b <- block m s;
  if negb (nref b =? 1) then UB
  else match nth_error (data b) (nelem b) with
  | Some Raw =>
      Ok (set_block m s (Live (Storage (nref b) (S (nelem b)) (nskip b) (set_nth (data b) (nelem b) (Val a)))))
  | _ => UB
  end.
(* pop_back_unchecked, details/cow_vector.ipp:104-113 *)
Definition pop1 (m : mem) (s : nat) : outcome mem :=
  do b <- block m s;
  if negb (nref b =? 1) then UB
  else match nelem b with
  | O => UB
  | S off =>
      match nth_error (data b) off with
      | Some (Val _) | Some Moved =>
          Ok (set_block m s (Live (Storage (nref b) off (nskip b) (set_nth (data b) off Raw))))
      | _ => UB
      end
  end.
(* append_n_unchecked and append_range_unchecked, 402-417 *)
Fixpoint emplace_all (m : mem) (s : nat) (l : list source) : outcome mem :=
  match l with
  | [] => Ok m
  | x :: l => do a <- fetch m x; do m <- emplace m s a; emplace_all m s l
  end.
(* pop_n_unchecked, 419-425; with no storage and something to pop an assertion
   fails *)
Fixpoint pop_n (m : mem) (s : option nat) (n : nat) : outcome mem :=
  match n with
  | O => Ok m
  | S n => match s with None => UB | Some s' => do m <- pop1 m s'; pop_n m s n end
  end.

(* do_transfer, details/cow_vector.ipp:139-156: [n] elements from position
   [skip] on, backwards; moved if the old block is not shared *)
Fixpoint transfer (n skip : nat) (uniq : bool) (old new : storage) : outcome (storage * storage) :=
  match n with
  | O => Ok (old, new)
  | S n =>
      let k := (skip + n)%nat in
      match nth_error (data old) k, nth_error (data new) k with
      | Some (Val a), Some Raw =>
          let new := Storage (nref new) (nelem new) k (set_nth (data new) k (Val a)) in
          let old := if uniq then Storage (nref old) (nelem old) (nskip old) (set_nth (data old) k Moved)
                     else old in
          transfer n skip uniq old new
      | _, _ => UB
      end
  end.
(* dispatch_transfer, details/cow_vector.ipp:174-190, from block s to block t *)
Definition dispatch_transfer (m : mem) (t s : nat) (skip : nat) : outcome mem :=
  do new <- block m t;
  do old <- block m s;
  if (nskip old <=? nelem old)%nat && (nelem old =? nskip new)%nat &&
     (nskip new <=? nelem new)%nat && (nskip old <=? skip)%nat then
    do (old, new) <- transfer (nelem old - skip) skip (nref old =? 1) old new;
    Ok (set_block (set_block m s (Live old)) t (Live new))
  else UB.

(* sizeof(value_type) and sizeof(basic_storage), and max_size() *)
Variables elem_size block_size : Z.
Variable max_size : nat.
(* min_nblk_for_nelem and max_nelem_for_nblk, details/cow_vector.ipp:72-88 *)
Definition rounded (n : nat) : nat :=
  let nblk := ((Z.of_nat n - 1) * elem_size + block_size - 1) / block_size + 1 in
  Z.to_nat ((nblk - 1) * block_size / elem_size + 1).

(* reallocate_prepare on an empty handle, details/cow_vector.ipp:463-497 *)
Definition reallocate_prepare (m : mem) (o : option nat) (skip add : nat) : outcome (mem * nat) :=
  do len <- size m o;
  let cap := (len + add)%nat in
  if (max_size <? cap)%nat then Throw
  else
    let t := length (blocks m) in
    let m := Mem (blocks m ++ [Live (Storage 1 len len (repeat Raw (rounded cap)))]) (objs m) in
    if (skip <? len)%nat then
      match o with
      | None => UB
      | Some s => do m <- dispatch_transfer m t s skip; Ok (m, t)
      end
    else Ok (m, t).
(* reallocate_finish, details/cow_vector.ipp:499-510 *)
Definition reallocate_finish (m : mem) (t : nat) (o : option nat) : outcome mem :=
  do b <- block m t;
  do m <- (if negb (nskip b =? 0)%nat then
             match o with None => UB | Some s => dispatch_transfer m t s 0 end
           else Ok m);
  do b <- block m t;
  if (nskip b =? 0)%nat then Ok m else UB.
(* reallocate_clone on the handle of h, details/cow_vector.ipp:427-461 *)
Definition reallocate_clone (m : mem) (h : nat) : outcome (mem * nat) :=
  do o <- obj m h;
  match o with
  | None => UB
  | Some s =>
      do b <- block m s;
      let t := length (blocks m) in
      let m := Mem (blocks m ++ [Live (Storage 1 (nelem b) (nelem b) (repeat Raw (length (data b))))]) (objs m) in
      do m <- (if negb (nelem b =? 0)%nat then dispatch_transfer m t s 0 else Ok m);
      do m <- release m o;
      Ok (set_obj m h (Some (Some t)), t)
  end.

Definition new_empty (m : mem) : outcome mem := Ok (new_obj m None).
(* copy constructor, cow_vector.hpp:73-78 *)
Definition new_copy (m : mem) (j : nat) : outcome mem :=
  do o <- obj m j; do m <- acquire m o; Ok (new_obj m o).
(* move constructor, cow_vector.hpp:86-90 *)
Definition new_move (m : mem) (j : nat) : outcome mem :=
  do o <- obj m j; Ok (new_obj (set_obj m j (Some None)) o).
(* subvec, cow_vector.hpp:771-784, initializing a new object *)
Definition new_subvec (m : mem) (j tpos tn : nat) : outcome mem :=
  do o <- obj m j;
  do len <- size m o;
  if (len <? tpos)%nat then Throw
  else
    let tlen := Nat.min (len - tpos) tn in
    do (m, t) <- reallocate_prepare m None 0 tlen;
    do m <- match o with
            | None => if (tlen =? 0)%nat then Ok m else UB
            | Some s => emplace_all m t (map (At s) (seq tpos tlen))
            end;
    Ok (new_obj m (Some t)).
Definition drop (m : mem) (h : nat) : outcome mem :=
  do o <- obj m h; do m <- release m o; Ok (set_obj m h None).
(* operator=(const cow_vector&), cow_vector.hpp:126-133 *)
Definition assign (m : mem) (h j : nat) : outcome mem :=
  do o <- obj m h; do p <- obj m j;
  do m <- acquire m p; do m <- release m o;
  Ok (set_obj m h (Some p)).
(* operator=(cow_vector&&) and swap, cow_vector.hpp:135-158: both exchange *)
Definition swap_with (m : mem) (h j : nat) : outcome mem :=
  do o <- obj m h; do p <- obj m j;
  Ok (set_obj (set_obj m j (Some o)) h (Some p)).
(* do_deallocate, cow_vector.hpp:160-168 *)
Definition deallocate (m : mem) (h : nat) : outcome mem :=
  do o <- obj m h; do m <- release m o; Ok (set_obj m h (Some None)).
(* clear, cow_vector.hpp:361-372 *)
Definition clear (m : mem) (h : nat) : outcome mem :=
  do o <- obj m h;
  do u <- unique m o;
  if negb u then deallocate m h else do n <- size m o; pop_n m o n.

(* append of [n = length l] elements, cow_vector.hpp:448-475 and 487-529 *)
Definition append (m : mem) (h : nat) (l : list source) : outcome mem :=
  do o <- obj m h;
  if (length l =? 0)%nat then Ok m
  else
    do w <- writable m o;
    do cap <- capacity m o;
    do len <- size m o;
    match (if w && (length l <=? cap - len)%nat then o else None) with
    | Some s => emplace_all m s l
    | None =>
        do (m, t) <- reallocate_prepare m o len
          (Z.to_nat (Z.lor (Z.of_nat (length l)) (Z.of_nat (cap / 2)%nat)));
        do m <- emplace_all m t l;
        do m <- reallocate_finish m t o;
        do m <- release m o;
        Ok (set_obj m h (Some (Some t)))
    end.
(* emplace_back and push_back, cow_vector.hpp:531-568 *)
Definition push_back (m : mem) (h : nat) (x : source) : outcome mem :=
  do o <- obj m h;
  do w <- writable m o;
  do cap <- capacity m o;
  do len <- size m o;
  match (if w && (len <? cap)%nat then o else None) with
  | Some s => emplace_all m s [x]
  | None =>
      do (m, t) <- reallocate_prepare m o len (Z.to_nat (Z.lor 17 (Z.of_nat (cap / 2)%nat)));
      do m <- emplace_all m t [x];
      do m <- reallocate_finish m t o;
      do m <- release m o;
      Ok (set_obj m h (Some (Some t)))
  end.

(* mut_data, cow_vector.hpp:806-818: the block, if there is one *)
Definition mut_data (m : mem) (h : nat) : outcome (mem * option nat) :=
  do o <- obj m h;
  do w <- writable m o;
  if w then Ok (m, o)
  else do (m, t) <- reallocate_clone m h; Ok (m, Some t).
(* mut(pos) = a, cow_vector.hpp:415-421 *)
Definition put (m : mem) (h pos : nat) (a : A) : outcome mem :=
  do o <- obj m h;
  do len <- size m o;
  if (len <=? pos)%nat then Throw
  else
    do (m, o) <- mut_data m h;
    match o with
    | None => UB
    | Some s =>
        do b <- block m s;
        match nth_error (data b) pos with
        | Some (Val _) | Some Moved =>
            Ok (set_block m s (Live (Storage (nref b) (nelem b) (nskip b) (set_nth (data b) pos (Val a)))))
        | _ => UB
        end
    end.
(* pop_back, cow_vector.hpp:762-769 *)
Definition pop_back (m : mem) (h n : nat) : outcome mem :=
  do (m, o) <- mut_data m h;
  pop_n m o n.
(* noadl::rotate over the elements of a block *)
Definition rotate_block (m : mem) (o : option nat) (begin seek end_ : nat) : outcome mem :=
  match o with
  | None => if (end_ =? 0)%nat then Ok m else UB
  | Some s =>
      do b <- block m s;
      do d <- rotate (data b) begin seek end_;
      Ok (set_block m s (Live (Storage (nref b) (nelem b) (nskip b) d)))
  end.
(* insert of one value or of many, cow_vector.hpp:570-626 with
   do_swizzle_unchecked, 199-206 *)
Definition insert (m : mem) (h tpos : nat) (one : bool) (l : list source) : outcome mem :=
  do o <- obj m h;
  do kpos <- size m o;
  if (kpos <? tpos)%nat then Throw
  else
    do m <- (match one, l with true, x :: _ => push_back m h x | _, _ => append m h l end);
    do (m, o) <- mut_data m h;
    do n <- size m o;
    rotate_block m o tpos kpos n.
(* erase, cow_vector.hpp:734-740 with do_erase_unchecked, 208-216 *)
Definition erase (m : mem) (h tpos tn : nat) : outcome mem :=
  do o <- obj m h;
  do len <- size m o;
  if (len <? tpos)%nat then Throw
  else
    let tlen := Nat.min (len - tpos) tn in
    do (m, o) <- mut_data m h;
    do m <- rotate_block m o tpos (tpos + tlen) len;
    pop_n m o tlen.
(* resize, cow_vector.hpp:309-317 *)
Definition resize (m : mem) (h n : nat) (a : A) : outcome mem :=
  do o <- obj m h;
  do len <- size m o;
  if (len <? n)%nat then append m h (repeat (Lit a) (n - len)) else pop_back m h (len - n).
(* shrink_to_fit, cow_vector.hpp:346-359 *)
Definition shrink_to_fit (m : mem) (h : nat) : outcome mem :=
  do o <- obj m h;
  do len <- size m o;
  if (len =? 0)%nat then deallocate m h
  else if (max_size <? len)%nat then Throw
  else
    do u <- unique m o;
    do cap <- capacity m o;
    if negb u || (cap <=? rounded len)%nat then Ok m
    else
      do (m, t) <- reallocate_prepare m o 0 0;
      do m <- release m o;
      Ok (set_obj m h (Some (Some t))).
(* reserve, cow_vector.hpp:324-343 *)
Definition reserve (m : mem) (h n : nat) : outcome mem :=
  do o <- obj m h;
  if (n =? 0)%nat then shrink_to_fit m h
  else
    do len <- size m o;
    let want := Nat.max len n in
    if (max_size <? want)%nat then Throw
    else
      let rcap := rounded want in
      do u <- unique m o;
      do cap <- capacity m o;
      if u && (rcap <=? cap)%nat then Ok m
      else
        do (m, t) <- reallocate_prepare m o 0 (rcap - len);
        do m <- release m o;
        Ok (set_obj m h (Some (Some t))).

(* where the elements to add come from: values of the caller, an element of a
   vector (maybe of the one added to), all elements of a vector *)
Inductive arg := Vals (l : list A) | Copies (n j i : nat) | All (j : nat).
Definition sources (m : mem) (x : arg) : outcome (list source) :=
  match x with
  | Vals l => Ok (map Lit l)
  | Copies n j i =>
      do o <- obj m j;
      do len <- size m o;
      match o with
      | Some s => if (i <? len)%nat then Ok (repeat (At s i) n) else UB
      | None => UB
      end
  | All j =>
      do o <- obj m j;
      do len <- size m o;
      match o with Some s => Ok (map (At s) (seq 0 len)) | None => Ok [] end
  end.

Inductive stmt :=
  | New | NewCopy (j : nat) | NewMove (j : nat) | NewSub (j tpos tn : nat)
  | Drop (h : nat) | Assign (h j : nat) | Swap (h j : nat) | Clear (h : nat)
  | Append (h : nat) (x : arg) | Push (h : nat) (x : arg)
  | Insert (h tpos : nat) (x : arg) | Insert1 (h tpos : nat) (x : arg) | Erase (h tpos tn : nat)
  | Pop (h n : nat) | Put (h pos : nat) (a : A) | Resize (h n : nat) (a : A)
  | Reserve (h n : nat) | Shrink (h : nat).

Definition run1 (m : mem) (s : stmt) : outcome mem :=
  match s with
  | New => new_empty m
  | NewCopy j => new_copy m j
  | NewMove j => new_move m j
  | NewSub j tpos tn => new_subvec m j tpos tn
  | Drop h => drop m h
  | Assign h j => assign m h j
  | Swap h j => swap_with m h j
  | Clear h => clear m h
  | Append h x => do l <- sources m x; append m h l
  | Push h x => do l <- sources m x; match l with [a] => push_back m h a | _ => UB end
  | Insert h tpos x => do l <- sources m x; insert m h tpos false l
  | Insert1 h tpos x => do l <- sources m x; match l with [a] => insert m h tpos true l | _ => UB end
  | Erase h tpos tn => erase m h tpos tn
  | Pop h n => pop_back m h n
  | Put h pos a => put m h pos a
  | Resize h n a => resize m h n a
  | Reserve h n => reserve m h n
  | Shrink h => shrink_to_fit m h
  end.

End Vec.
Arguments cell A : clear implicits.
Arguments storage A : clear implicits.
Arguments slot A : clear implicits.
Arguments mem A : clear implicits.
Arguments source A : clear implicits.
Arguments arg A : clear implicits.
Arguments stmt A : clear implicits.
Definition init {A} : mem A := Mem [] [].
