(* Copy-on-write strings.
   asteria/rocket/cow_string.hpp and asteria/rocket/details/cow_string.ipp.

   A program is a history of operations over any number of string objects.
   Memory is a list of storage blocks, each with its reference count; a string
   object is the pair (m_ref, m_sth) of the code.

   Simplifications: one thread, so the atomic counters are plain integers;
   counters do not overflow (int, i.e. 2^31 owners); allocation always
   succeeds below max_size(); elements are bytes; the allocator is stateless. *)
From Verif Require Import Base Monad SeqModel.

(* basic_storage, details/cow_string.ipp:12-66.  [cells] are the characters
   data[0] .. data[capacity], the last one being room for the terminator. *)
Record storage := Storage { nref : Z; cells : bytes }.

(* a `const char*`: into a string literal (its characters with the terminator)
   or into a storage block *)
Inductive pointer :=
  | InLit (l : bytes) (off : nat)
  | InStor (s : nat) (off : nat).

(* basic_cow_string, cow_string.hpp:146-148: m_ref.m_ptr, m_ref.m_len, m_sth *)
Record cstr := Cstr { ptr : pointer; len : nat; sth : option nat }.

(* [None] marks a block that was freed and an object that was destroyed *)
Record mem := Mem { blocks : list (option storage); objs : list (option cstr) }.

(* sizeof(basic_storage<char>): int, size_t, char[1], with padding *)
Definition block_size : Z := 24.
(* min_nblk_for_nchar and max_nchar_for_nblk, details/cow_string.ipp:48-66 *)
Definition rounded (n : Z) : Z :=
  let nblk := (n + block_size - 1) / block_size + 1 in (nblk - 1) * block_size.
(* max_size, details/cow_string.ipp:184-191, with max_size() of the allocator *)
Definition max_size : Z := ((2 ^ 63 - 1) / block_size / 2 - 1) * block_size.

Definition obj (m : mem) (h : nat) : outcome cstr :=
  match nth_error (objs m) h with Some (Some o) => Ok o | _ => UB end.
Definition set_obj (m : mem) (h : nat) (o : option cstr) : mem :=
  Mem (blocks m) (set_nth (objs m) h o).
Definition new_obj (m : mem) (o : cstr) : mem := Mem (blocks m) (objs m ++ [Some o]).
Definition block (m : mem) (s : nat) : outcome storage :=
  match nth_error (blocks m) s with Some (Some b) => Ok b | _ => UB end.
Definition set_block (m : mem) (s : nat) (b : option storage) : mem :=
  Mem (set_nth (blocks m) s b) (objs m).

(* ptr + k *)
Definition shifted (p : pointer) (k : nat) : pointer :=
  match p with InLit l off => InLit l (off + k) | InStor s off => InStor s (off + k) end.

(* n characters at an offset of some characters *)
Definition cut (l : bytes) (off n : nat) : outcome bytes :=
  if (off + n <=? length l)%nat then Ok (firstn n (skipn off l)) else UB.
(* characters through a pointer *)
Definition read (m : mem) (p : pointer) (n : nat) : outcome bytes :=
  match p with
  | InLit l off => cut l off n
  | InStor s off => do b <- block m s; cut (cells b) off n
  end.
(* memmove into a block *)
Definition write (m : mem) (s off : nat) (l : bytes) : outcome mem :=
  do b <- block m s;
  if (off + length l <=? length (cells b))%nat then
    Ok (set_block m s (Some (Storage (nref b)
          (firstn off (cells b) ++ l ++ skipn (off + length l) (cells b)))))
  else UB.

(* do_reset(nullptr): details/cow_string.ipp:119-135 *)
Definition release (m : mem) (s : option nat) : outcome mem :=
  match s with
  | None => Ok m
  | Some s =>
      do b <- block m s;
      if nref b - 1 =? 0 then Ok (set_block m s None)
      else Ok (set_block m s (Some (Storage (nref b - 1) (cells b))))
  end.
(* nref.increment() in share_with, details/cow_string.ipp:280-287 *)
Definition acquire (m : mem) (s : option nat) : outcome mem :=
  match s with
  | None => Ok m
  | Some s => do b <- block m s; Ok (set_block m s (Some (Storage (nref b + 1) (cells b))))
  end.
(* capacity, details/cow_string.ipp:173-182 *)
Definition capacity (m : mem) (s : option nat) : outcome Z :=
  match s with
  | None => Ok 0
  | Some s => do b <- block m s; Ok (Z.of_nat (length (cells b)) - 1)
  end.
(* mut_data_opt, details/cow_string.ipp:224-234: the block if it is not shared *)
Definition mut_data_opt (m : mem) (s : option nat) : outcome (option nat) :=
  match s with
  | None => Ok None
  | Some s => do b <- block m s; Ok (if nref b =? 1 then Some s else None)
  end.
(* unique, details/cow_string.ipp:152-161 *)
Definition unique (m : mem) (s : option nat) : outcome bool :=
  match s with None => Ok false | Some s => do b <- block m s; Ok (nref b =? 1) end.

Section Cow.
(* contents of memory that was just allocated: block number and offset *)
Variable fresh : nat -> nat -> Z.

(* reallocate_more on an empty storage_handle, details/cow_string.ipp:236-264;
   the new block is returned.  The previous block of the handle, if any, is
   released by the caller. *)
Definition reallocate_more (m : mem) (src : pointer) (n : nat) (add : Z) : outcome (mem * nat) :=
  let cap := Z.of_nat n + add in
  if max_size <? cap then Throw
  else
    let s := length (blocks m) in
    let raw := map (fresh s) (seq 0 (S (Z.to_nat (rounded cap)))) in
    let data := set_nth raw (Z.to_nat cap) 0 in
    do l <- read m src n;
    let m := Mem (blocks m ++ [Some (Storage 1 data)]) (objs m) in
    do m <- write m s 0 (l ++ [0]);
    Ok (m, s).

(* do_set_data_and_size with a block as `ptr`, cow_string.hpp:330-338 *)
Definition set_data (m : mem) (h s : nat) (n : nat) (owner : option nat) : outcome mem :=
  do m <- write m s n [0];
  Ok (set_obj m h (Some (Cstr (InStor s 0) n owner))).

(* cow_string x = &"..." ; cow_string.hpp:164-185 *)
Definition new_literal (m : mem) (l : bytes) : outcome mem :=
  Ok (new_obj m (Cstr (InLit (l ++ [0]) 0) (length l) None)).
(* copy constructor, cow_string.hpp:187-193 *)
Definition new_copy (m : mem) (j : nat) : outcome mem :=
  do o <- obj m j;
  do m <- acquire m (sth o);
  Ok (new_obj m o).
Definition zstr : pointer := InLit [0] 0.
(* move constructor, cow_string.hpp:201-205 *)
Definition new_move (m : mem) (j : nat) : outcome mem :=
  do o <- obj m j;
  Ok (new_obj (set_obj m j (Some (Cstr zstr 0 None))) o).
(* substr, cow_string.hpp:1077-1098, initializing a new object *)
Definition new_substr (m : mem) (j tpos tn : nat) : outcome mem :=
  do o <- obj m j;
  if (len o <? tpos)%nat then Throw
  else
    let tlen := Nat.min (len o - tpos) tn in
    if (tpos + tlen =? len o)%nat then
      do m <- acquire m (sth o);
      Ok (new_obj m (Cstr (shifted (ptr o) tpos) tlen (sth o)))
    else
      do (m, s) <- reallocate_more m (ptr o) 0 (Z.of_nat tlen);
      do l <- read m (shifted (ptr o) tpos) tlen;
      do m <- write m s 0 l;
      let h := length (objs m) in
      set_data (new_obj m (Cstr zstr 0 (Some s))) h s tlen (Some s).
(* destructor *)
Definition drop (m : mem) (h : nat) : outcome mem :=
  do o <- obj m h;
  do m <- release m (sth o);
  Ok (set_obj m h None).

(* operator=(const cow_string&), cow_string.hpp:255-263 *)
Definition assign (m : mem) (h j : nat) : outcome mem :=
  do o <- obj m h;
  do p <- obj m j;
  do m <- acquire m (sth p);
  do m <- release m (sth o);
  Ok (set_obj m h (Some p)).
(* operator=(cow_string&&), cow_string.hpp:265-273: exchange_with swaps the
   storages of the two objects, then m_ref moves over *)
Definition move_assign (m : mem) (h j : nat) : outcome mem :=
  do o <- obj m h;
  do p <- obj m j;
  if (h =? j)%nat then Ok m
  else
    let m := set_obj m j (Some (Cstr zstr 0 (sth o))) in
    Ok (set_obj m h (Some p)).
(* swap, cow_string.hpp:284-293 *)
Definition swap_with (m : mem) (h j : nat) : outcome mem :=
  do o <- obj m h;
  do p <- obj m j;
  Ok (set_obj (set_obj m j (Some o)) h (Some p)).
(* operator=(shallow_string) and from a literal, cow_string.hpp:236-252 *)
Definition set_literal (m : mem) (h : nat) (l : bytes) : outcome mem :=
  do o <- obj m h;
  Ok (set_obj m h (Some (Cstr (InLit (l ++ [0]) 0) (length l) (sth o)))).
(* clear, cow_string.hpp:542-549 *)
Definition clear (m : mem) (h : nat) : outcome mem :=
  do o <- obj m h;
  Ok (set_obj m h (Some (Cstr zstr 0 (sth o)))).

(* append(const char*, size_t), cow_string.hpp:657-683.  The source is read
   when memmove or memcpy runs; until then nothing it points to is changed:
   the new block is filled, and the old one is released last. *)
Definition append (m : mem) (h : nat) (src : pointer) (n : nat) : outcome mem :=
  do o <- obj m h;
  if (n =? 0)%nat then Ok m
  else
    do p <- mut_data_opt m (sth o);
    do cap <- capacity m (sth o);
    let room := match p with
                | Some s => if Z.of_nat n <=? to_u64 (cap - Z.of_nat (len o)) then Some s else None
                | None => None
                end in
    match room with
    | Some s =>
        do l <- read m src n;
        do m <- write m s (len o) l;
        set_data m h s (len o + n) (sth o)
    | None =>
        do (m, s) <- reallocate_more m (ptr o) (len o) (Z.lor (Z.of_nat n) (cap / 2));
        do l <- read m src n;
        do m <- write m s (len o) l;
        do m <- set_data m h s (len o + n) (Some s);
        release m (sth o)
    end.
(* append(const cow_string&), cow_string.hpp:645-649 *)
Definition append_obj (m : mem) (h j : nat) : outcome mem :=
  do p <- obj m j;
  append m h (ptr p) (len p).

(* pop_back, cow_string.hpp:1054-1075; popping more than there is trips an
   assertion *)
Definition pop_back (m : mem) (h n : nat) : outcome mem :=
  do o <- obj m h;
  if (len o <? n)%nat then UB
  else if (len o =? 0)%nat then Ok m
  else
    do p <- mut_data_opt m (sth o);
    match p with
    | Some s => set_data m h s (len o - n) (sth o)
    | None =>
        do (m, s) <- reallocate_more m (ptr o) (len o - n) 0;
        do m <- release m (sth o);
        set_data m h s (len o - n) (Some s)
    end.

(* mut_data, cow_string.hpp:1181-1194: the block it points to *)
Definition mut_data (m : mem) (h : nat) : outcome (mem * nat) :=
  do o <- obj m h;
  do p <- mut_data_opt m (sth o);
  let same := match p, ptr o with
              | Some s, InStor s' 0 => if (s =? s')%nat then Some s else None
              | _, _ => None
              end in
  match same with
  | Some s => Ok (m, s)
  | None =>
      do (m, s) <- reallocate_more m (ptr o) (len o) 0;
      do m <- release m (sth o);
      Ok (set_obj m h (Some (Cstr (InStor s 0) (len o) (Some s))), s)
  end.
(* x.mut(pos) = c; cow_string.hpp:604-610 *)
Definition put (m : mem) (h pos : nat) (c : Z) : outcome mem :=
  do o <- obj m h;
  if (len o <=? pos)%nat then Throw
  else
    do (m, s) <- mut_data m h;
    write m s pos [c].

(* do_deallocate, cow_string.hpp:296-303 *)
Definition deallocate (m : mem) (h : nat) : outcome mem :=
  do o <- obj m h;
  do m <- release m (sth o);
  Ok (set_obj m h (Some (Cstr zstr 0 None))).
(* shrink_to_fit, cow_string.hpp:520-540 *)
Definition shrink_to_fit (m : mem) (h : nat) : outcome mem :=
  do o <- obj m h;
  if (len o =? 0)%nat then deallocate m h
  else
    if max_size <? Z.of_nat (len o) then Throw
    else
      let rcap := rounded (Z.of_nat (len o)) in
      do u <- unique m (sth o);
      do cap <- capacity m (sth o);
      if negb u || (cap <=? rcap) then Ok m
      else
        do (m, s) <- reallocate_more m (ptr o) (len o) 0;
        do m <- release m (sth o);
        Ok (set_obj m h (Some (Cstr (InStor s 0) (len o) (Some s)))).
(* reserve, cow_string.hpp:500-518 *)
Definition reserve (m : mem) (h n : nat) : outcome mem :=
  do o <- obj m h;
  if (n =? 0)%nat then shrink_to_fit m h
  else
    let want := Z.max (Z.of_nat (len o)) (Z.of_nat n) in
    if max_size <? want then Throw
    else
      let rcap := rounded want in
      do u <- unique m (sth o);
      do cap <- capacity m (sth o);
      if u && (rcap <=? cap) then Ok m
      else
        do (m, s) <- reallocate_more m (ptr o) (len o) (rcap - Z.of_nat (len o));
        do m <- release m (sth o);
        Ok (set_obj m h (Some (Cstr (InStor s 0) (len o) (Some s)))).

(* one statement of a program *)
Inductive stmt :=
  | NewLit (l : bytes) | NewCopy (j : nat) | NewMove (j : nat) | NewSub (j tpos tn : nat)
  | Drop (h : nat)
  | Assign (h j : nat) | MoveAssign (h j : nat) | Swap (h j : nat) | SetLit (h : nat) (l : bytes)
  | Clear (h : nat)
  | Append (h j : nat) | AppendLit (h : nat) (l : bytes) | Pop (h n : nat)
  | Put (h pos : nat) (c : Z)
  | Reserve (h n : nat) | Shrink (h : nat).

Definition run1 (m : mem) (s : stmt) : outcome mem :=
  match s with
  | NewLit l => new_literal m l
  | NewCopy j => new_copy m j
  | NewMove j => new_move m j
  | NewSub j tpos tn => new_substr m j tpos tn
  | Drop h => drop m h
  | Assign h j => assign m h j
  | MoveAssign h j => move_assign m h j
  | Swap h j => swap_with m h j
  | SetLit h l => set_literal m h l
  | Clear h => clear m h
  | Append h j => append_obj m h j
  | AppendLit h l => append m h (InLit (l ++ [0]) 0) (length l)
  | Pop h n => pop_back m h n
  | Put h pos c => put m h pos c
  | Reserve h n => reserve m h n
  | Shrink h => shrink_to_fit m h
  end.
(* a statement that throws leaves the program as it is when the exception was
   thrown; here every throw happens before anything is changed *)
Fixpoint run (m : mem) (p : list stmt) : outcome mem :=
  match p with
  | [] => Ok m
  | s :: p =>
      match run1 m s with
      | Ok m => run m p
      | Throw => run m p
      | UB => UB
      end
  end.

End Cow.

Definition init : mem := Mem [] [].
(* data() and size() of an object, with the terminator *)
Definition contents (m : mem) (o : cstr) : outcome bytes := read m (ptr o) (len o).
