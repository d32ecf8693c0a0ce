(* Linear buffers, with characters of type `char`.
   Source: asteria/rocket/linear_buffer.hpp:151-386 and
   asteria/rocket/details/linear_buffer.ipp:86-152.
   The storage is a list of cells; None is a character that was never written.
   Reading such a character, leaving the storage and failing an assertion are UB.
   `max` is max_size(), `debug` is ASTERIA_DEBUG.
   Simplifications: sizes are natural numbers; that adding them overflows is the
   same as exceeding `max`, as both throw length_error.  There is always enough
   memory.  memcpy of nothing from a null pointer is allowed.  The source of
   putn is outside of the buffer.  Allocators, copying and swapping are left
   out. *)
From Verif Require Import Base.

Record buffer := Buffer { cells : list (option Z); goff : nat; eoff : nat }.
Definition cap (s : buffer) : nat := length (cells s).
Definition empty_buffer := Buffer [] 0 0.

(* memory *)
Definition store (cs : list (option Z)) (off : nat) (l : list (option Z)) : outcome (list (option Z)) :=
  if (off + length l <=? length cs)%nat then Ok (firstn off cs ++ l ++ skipn (off + length l) cs) else UB.
Fixpoint load (cs : list (option Z)) : outcome (list Z) :=
  match cs with
  | [] => Ok []
  | None :: _ => UB
  | Some c :: cs => match load cs with Ok l => Ok (c :: l) | Throw => Throw | UB => UB end
  end.
Definition load_at (cs : list (option Z)) (off n : nat) : outcome (list Z) :=
  if (off + n <=? length cs)%nat then load (firstn n (skipn off cs)) else UB.

Section Buffer.
Variable max : nat.
Variable debug : bool.

(* the memset calls of debug builds *)
Definition debug_fill (s : buffer) (off n : nat) (v : Z) : outcome buffer :=
  if debug then
    match store (cells s) off (repeat (Some v) n) with
    | Ok cs => Ok (Buffer cs (goff s) (eoff s))
    | Throw => Throw
    | UB => UB
    end
  else Ok s.

(* hpp 195-198, 314-317 *)
Definition size (s : buffer) : nat := (eoff s - goff s)%nat.
Definition capacity_after_end (s : buffer) : nat := (cap s - eoff s)%nat.
(* hpp 210-217 *)
Definition clear (s : buffer) : buffer := Buffer (cells s) 0 0.

(* basic_storage::reserve, ipp 86-138; and hpp 324-326 *)
Definition relocate (s : buffer) (nadd : nat) : outcome buffer :=
  if ((goff s <=? eoff s) && (eoff s <=? cap s))%nat then
    let nused := (eoff s - goff s)%nat in
    let used := firstn nused (skipn (goff s) (cells s)) in
    if (nadd <=? cap s - nused)%nat then
      Ok (Buffer (used ++ skipn nused (cells s)) 0 nused)
    else if (max <? nused + nadd)%nat then Throw
    else
      let cap_new := N.to_nat (N.lor (N.of_nat (nused + nadd)) 0x1000) in
      match store (repeat (if debug then Some 0xA5 else None) cap_new) 0 used with
      | Ok cs => if (nused + nadd <=? length cs)%nat then Ok (Buffer cs 0 nused) else UB
      | Throw => Throw
      | UB => UB
      end
  else UB.
(* hpp 319-332 *)
Definition reserve_after_end (s : buffer) (nbump : nat) : outcome buffer :=
  match (if (capacity_after_end s <? nbump)%nat then relocate s nbump else Ok s) with
  | Ok s => debug_fill s (eoff s) nbump 0xD3
  | r => r
  end.
(* hpp 334-353 *)
Definition accept (s : buffer) (nbump : nat) : outcome buffer :=
  if (nbump <=? capacity_after_end s)%nat then Ok (Buffer (cells s) (goff s) (eoff s + nbump)) else UB.
Definition unaccept (s : buffer) (nbump : nat) : outcome buffer :=
  if (nbump <=? size s)%nat then debug_fill (Buffer (cells s) (goff s) (eoff s - nbump)) (eoff s - nbump) nbump 0xB6 else UB.

(* writing to mut_end(), then accepting *)
Definition write_end (s : buffer) (l : list Z) : outcome buffer :=
  match store (cells s) (eoff s) (map Some l) with
  | Ok cs => accept (Buffer cs (goff s) (eoff s)) (length l)
  | Throw => Throw
  | UB => UB
  end.
(* both putn and putc, hpp 355-380; also what callers do that reserve more than
   they write *)
Definition put (s : buffer) (nbump : nat) (l : list Z) : outcome buffer :=
  match reserve_after_end s nbump with Ok s => write_end s l | r => r end.
Definition putc (s : buffer) (c : Z) : outcome buffer := put s 1 [c].
Definition putn_fill (s : buffer) (n : nat) (c : Z) : outcome buffer := put s n (repeat c n).
Definition putn (s : buffer) (l : list Z) : outcome buffer := put s (length l) l.

(* hpp 235-245 *)
Definition discard (s : buffer) (nbump : nat) : outcome buffer :=
  if (nbump <=? size s)%nat then
    match debug_fill s (goff s) nbump 0xC7 with
    | Ok s => Ok (Buffer (cells s) (goff s + nbump) (eoff s))
    | r => r
    end
  else UB.
(* hpp 247-270 *)
Definition peekn (s : buffer) (n : nat) : outcome (list Z) := load_at (cells s) (goff s) (Nat.min n (size s)).
Definition getn (s : buffer) (n : nat) : outcome (list Z * buffer) :=
  match peekn s n with
  | Ok [] => Ok ([], s)
  | Ok l => match discard s (length l) with Ok s => Ok (l, s) | Throw => Throw | UB => UB end
  | Throw => Throw
  | UB => UB
  end.
(* hpp 272-296 *)
Definition as_int (l : list Z) : Z := match l with [] => -1 | c :: _ => c mod 256 end.

(* programs, with what they read *)
Inductive command := Putc (c : Z) | PutnFill (n : nat) (c : Z) | Putn (l : list Z) | Reserve (n : nat) (l : list Z) | Clear | Discard (n : nat) | Unaccept (n : nat)
  | Peekn (n : nat) | Getn (n : nat) | Peekc | Getc | Size.
Inductive output := Chars (l : list Z) | Int (n : Z) | Count (n : nat).
Definition step (s : buffer) (c : command) : outcome (buffer * list output) :=
  let quiet r := match r with Ok s => Ok (s, []) | Throw => Throw | UB => UB end in
  let shows r f := match r with Ok l => Ok (s, [f l]) | Throw => Throw | UB => UB end in
  let takes r f := match r with Ok (l, s) => Ok (s, [f l]) | Throw => Throw | UB => UB end in
  match c with
  | Putc c => quiet (putc s c)
  | PutnFill n c => quiet (putn_fill s n c)
  | Putn l => quiet (putn s l)
  | Reserve n l => quiet (put s n l)
  | Clear => Ok (clear s, [])
  | Discard n => quiet (discard s n)
  | Unaccept n => quiet (unaccept s n)
  | Peekn n => shows (peekn s n) Chars
  | Getn n => takes (getn s n) Chars
  | Peekc => shows (peekn s 1) (fun l => Int (as_int l))
  | Getc => takes (getn s 1) (fun l => Int (as_int l))
  | Size => Ok (s, [Count (size s)])
  end.
Fixpoint run (s : buffer) (cmds : list command) : outcome (list output) :=
  match cmds with
  | [] => Ok []
  | c :: cmds =>
    match step s c with
    | Ok (s, out) => match run s cmds with Ok outs => Ok (out ++ outs) | Throw => Throw | UB => UB end
    | Throw => Throw
    | UB => UB
    end
  end.
End Buffer.
