(* Importing scripts.
   Source: asteria/src/runtime/module_loader.cpp:24-65 (do_lock_stream,
   do_unlock_stream), asteria/runtime/module_loader.hpp:41-139 (Unique_Stream)
   and asteria/src/runtime/air_node.cpp:4478-4531 (import expressions).
   A script is what it does that matters here: it says something, throws, or
   imports a file, with or without catching exceptions.  `id_of` gives the device
   and inode of the file at a path, if there is one; `flock k` says whether the
   k-th call of flock succeeds.
   Simplifications: one thread; scripts are finite lists of actions, so they
   have no loops or functions, and they compile; what they pass and return is
   left out; files are not changed or moved meanwhile; `fstat` does not fail. *)
From Verif Require Import Base.

Definition path := bytes.
Inductive action := Say (n : Z) | Raise | Import (p : path) (caught : bool).
Definition script := list action.
Inductive event := Said (n : Z) | Refused (p : path) | Began (i : Z) | Ended (i : Z).

Section Loader.
Variable id_of : path -> option Z.
Variable contents : Z -> script.
Variable flock : nat -> bool.

(* the keys of m_strms, and how often flock has been called *)
Record loader := Loader { locked : list Z; calls : nat }.
Definition mem (i : Z) (l : list Z) : bool := existsb (Z.eqb i) l.

(* module_loader.cpp:24-56; None if it throws *)
Definition do_lock_stream (st : loader) (p : path) : loader * option Z :=
  match id_of p with
  | None => (st, None)
  | Some i =>
    if mem i (locked st) then (st, None)
    else
      let st' := Loader (i :: locked st) (S (calls st)) in
      if flock (calls st) then (st', Some i) else (st', None)
  end.
(* 58-65 *)
Definition do_unlock_stream (st : loader) (i : Z) : loader :=
  Loader (filter (fun j => negb (j =? i)) (locked st)) (calls st).

Definition result := (loader * list event * outcome unit)%type.
Fixpoint run (import : loader -> path -> result) (st : loader) (s : script) : result :=
  match s with
  | [] => (st, [], Ok tt)
  | Say n :: s => let '(st, tr, r) := run import st s in (st, Said n :: tr, r)
  | Raise :: s => (st, [], Throw)
  | Import p caught :: s =>
    let '(st, tr, r) := import st p in
    match r, caught with
    | Ok _, _ | Throw, true => let '(st, tr', r) := run import st s in (st, tr ++ tr', r)
    | _, _ => (st, tr, r)
    end
  end.
(* air_node.cpp:4512-4530; the destructor of Unique_Stream unlocks the file
   whether there is an exception or not *)
Fixpoint import (fuel : nat) (st : loader) (p : path) : result :=
  match do_lock_stream st p with
  | (st, None) => (st, [Refused p], Throw)
  | (st, Some i) =>
    match fuel with
    | O => (st, [], UB)
    | S fuel =>
      let '(st, tr, r) := run (import fuel) st (contents i) in
      (do_unlock_stream st i, Began i :: tr ++ [Ended i], r)
    end
  end.
End Loader.
