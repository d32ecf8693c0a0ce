(* The guard against stack overflow.
   Source: asteria/recursion_sentry.hpp:10-82 and
   asteria/src/recursion_sentry.cpp:9-17.
   A sentry is the base address it remembers and the address it lives at, which
   tells how deep the stack is.  Simplification: pointers are 64-bit numbers; the
   difference of any two is taken as the machine does it. *)
From Verif Require Import Base.

Record sentry := Sentry { base : Z; addr : Z }.
(* recursion_sentry.hpp:53: the difference of two pointers as ptrdiff_t *)
Definition ptrdiff (a b : Z) : Z := (a - b + 2 ^ 63) mod 2 ^ 64 - 2 ^ 63.
(* 49-59 *)
Definition validate (s : sentry) : outcome sentry :=
  let usage := ptrdiff (base s) (addr s) in
  if Z.shiftr usage 20 =? Z.shiftr usage 63 then Ok s else Throw.
(* 16-21, 30-33; the new sentry lives at address `a` *)
Definition new (a : Z) : sentry := Sentry a a.
Definition copy (s : sentry) (a : Z) : outcome sentry := validate (Sentry (base s) a).
(* functions that call one another, each of which copies the sentry of its
   caller into its own frame *)
Fixpoint nested (s : sentry) (frames : list Z) : outcome sentry :=
  match frames with
  | [] => Ok s
  | a :: frames => match copy s a with Ok s => nested s frames | r => r end
  end.
