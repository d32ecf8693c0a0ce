(* The stack of references.
   Source: asteria/llds/reference_stack.hpp:11-136 and
   asteria/src/llds/reference_stack.cpp:10-63.
   The storage is a list of cells, each of which holds an object or is raw.  It
   is UB to construct an object where there is one, to use or destroy one where
   there is none, and to free storage in which there is one; so is a failed
   assertion.  `alloc n` is how many elements xmemalloc gives if n are asked for,
   `limit` is 0x7FFE0000U / sizeof(Reference), `debug` is ASTERIA_DEBUG.
   Simplifications: references are just values; new ones are `blank`; moving
   them bitwise is allowed; there is always memory below the limit.  Sizes are
   natural numbers, except that doubling one wraps around at 2^32. *)
From Verif Require Import Base XmemModel.

(* what these are for elements of `sz` bytes: xmemory.cpp:65,92 and cpp 15 *)
Definition real_alloc (sz : Z) (n : nat) : nat :=
  match pool_for_size (sz * Z.of_nat n) with Ok (_, rsize) => Z.to_nat (rsize / sz) | _ => O end.
Definition real_limit (sz : Z) : nat := Z.to_nat (0x7FFE0000 / sz).

Section Stack.
Variable A : Type.
Variable blank : A.
Variable alloc : nat -> nat.
Variable limit : nat.
Variable debug : bool.

Record stack := Stack { cells : list (option A); size : nat }.
Definition empty := Stack [] 0.
Definition raw (c : option A) : bool := match c with None => true | Some _ => false end.
Definition estor (s : stack) : nat := length (cells s).
Definition cell (s : stack) (k : nat) : outcome A :=
  match nth_error (cells s) k with Some (Some a) => Ok a | _ => UB end.
Fixpoint set_nth {X} (k : nat) (x : X) (l : list X) : list X :=
  match l, k with
  | [], _ => []
  | _ :: l, O => x :: l
  | y :: l, S k => y :: set_nth k x l
  end.

(* cpp 10-38 *)
Definition do_reallocate (s : stack) (n : nat) : outcome stack :=
  if (limit <=? n)%nat then Throw
  else if (n <? size s)%nat then UB
  else if forallb raw (skipn (size s) (cells s))
       then Ok (Stack (firstn (size s) (cells s) ++ repeat None (alloc n - size s)) (size s))
       else UB.

(* hpp 107-122 *)
Definition grow (s : stack) : outcome stack :=
  if debug then do_reallocate s (size s + 1)
  else if (estor s <=? size s)%nat then do_reallocate s (N.to_nat (N.lor ((N.of_nat (size s) * 2) mod 2 ^ 32) 17))
  else Ok s.
Definition push (s : stack) : outcome stack :=
  match grow s with
  | Ok s =>
    match nth_error (cells s) (size s) with
    | Some None => Ok (Stack (set_nth (size s) (Some blank) (cells s)) (size s + 1))
    | _ => UB
    end
  | r => r
  end.

(* the loops of pop, hpp 129-134, and of do_clear, cpp 46-49 *)
Fixpoint destroy_down (n : nat) (s : stack) : outcome stack :=
  match n with
  | O => Ok s
  | S n =>
    let k := (size s - 1)%nat in
    match nth_error (cells s) k with
    | Some (Some _) => destroy_down n (Stack (set_nth k None (cells s)) k)
    | _ => UB
    end
  end.
(* hpp 124-135 *)
Definition pop (s : stack) (count : nat) : outcome stack :=
  if (count <=? size s)%nat then destroy_down count s else UB.
(* hpp 69-75 *)
Definition clear (s : stack) : outcome stack := destroy_down (size s) s.
(* hpp 56-60, cpp 40-63 *)
Definition destructor (s : stack) : outcome unit :=
  match destroy_down (size s) s with
  | Ok s => if forallb raw (cells s) then Ok tt else UB
  | Throw => Throw
  | UB => UB
  end.

(* hpp 77-105 *)
Definition top (s : stack) (index : nat) : outcome A :=
  if (index <? size s)%nat then cell s (size s - 1 - index) else UB.
Definition bottom (s : stack) (index : nat) : outcome A :=
  if (index <? size s)%nat then cell s index else UB.
Definition assign (s : stack) (k : nat) (v : A) : outcome stack :=
  match cell s k with
  | Ok _ => Ok (Stack (set_nth k (Some v) (cells s)) (size s))
  | Throw => Throw
  | UB => UB
  end.
Definition mut_top (s : stack) (index : nat) (v : A) : outcome stack :=
  if (index <? size s)%nat then assign s (size s - 1 - index) v else UB.
Definition mut_bottom (s : stack) (index : nat) (v : A) : outcome stack :=
  if (index <? size s)%nat then assign s index v else UB.

(* programs; the results of reading are collected, and the stack is destroyed
   at the end *)
Inductive command := Push | Pop (n : nat) | Clear | SetTop (i : nat) (v : A) | SetBottom (i : nat) (v : A) | GetTop (i : nat) | GetBottom (i : nat) | GetSize.
Inductive output := Value (v : A) | Size (n : nat).
Fixpoint run (s : stack) (cmds : list command) (out : list output) : outcome (list output) :=
  match cmds with
  | [] => match destructor s with Ok _ => Ok out | Throw => Throw | UB => UB end
  | Push :: cmds => match push s with Ok s => run s cmds out | Throw => Throw | UB => UB end
  | Pop n :: cmds => match pop s n with Ok s => run s cmds out | Throw => Throw | UB => UB end
  | Clear :: cmds => match clear s with Ok s => run s cmds out | Throw => Throw | UB => UB end
  | SetTop i v :: cmds => match mut_top s i v with Ok s => run s cmds out | Throw => Throw | UB => UB end
  | SetBottom i v :: cmds => match mut_bottom s i v with Ok s => run s cmds out | Throw => Throw | UB => UB end
  | GetTop i :: cmds => match top s i with Ok v => run s cmds (out ++ [Value v]) | Throw => Throw | UB => UB end
  | GetBottom i :: cmds => match bottom s i with Ok v => run s cmds (out ++ [Value v]) | Throw => Throw | UB => UB end
  | GetSize :: cmds => run s cmds (out ++ [Size (size s)])
  end.
End Stack.

(* in a program, with the real functions *)
Definition real_run (A : Type) (blank : A) (sz : Z) (debug : bool) (cmds : list (command A)) : outcome (list (output A)) :=
  run A blank (real_alloc sz) (real_limit sz) debug (empty A) cmds [].
