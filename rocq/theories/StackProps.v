(* C80: the stack of references behaves as a list. *)
From Verif Require Import Base StackModel StackSpec StackProofs.

(* A program on a new stack, which is destroyed at the end, gives what it gives
   on a list, and constructs and destroys every element exactly once; it is an
   error only if it asks for an element that is not there.  It can fail only if
   it is long enough to reach the limit. *)
Theorem C80_stack : forall (A : Type) (blank : A) (alloc : nat -> nat) (limit : nat) (debug : bool),
  (forall n, (n < limit)%nat -> (n <= alloc n)%nat /\ (N.of_nat (alloc n) < 2 ^ 31)%N) ->
  forall cmds,
  let r := run A blank alloc limit debug (empty A) cmds [] in
  match plays A blank [] cmds [] with
  | Some out => r = Ok out \/ (r = Throw /\ (limit <= 2 * length cmds + 17)%nat)
  | None => r = UB \/ (r = Throw /\ (limit <= 2 * length cmds + 17)%nat)
  end.
Proof. exact (fun A blank alloc limit debug H cmds => run_ok A blank alloc limit debug H cmds (empty A) [] [] (empty_rep A)). Qed.
Print Assumptions C80_stack.

(* With the allocator of XmemModel, whatever the size of an element is (a
   Reference has more than one byte), nothing is assumed. *)
Theorem C80_real : forall (A : Type) (blank : A) (sz : Z) (debug : bool) (cmds : list (command A)), 2 <= sz ->
  let r := real_run A blank sz debug cmds in
  let full := (real_limit sz <= 2 * length cmds + 17)%nat in
  match plays A blank [] cmds [] with
  | Some out => r = Ok out \/ (r = Throw /\ full)
  | None => r = UB \/ (r = Throw /\ full)
  end.
Proof. exact real_ok. Qed.
Print Assumptions C80_real.

(* Twenty elements are pushed, so the storage is replaced (in debug mode, each
   time); the ends are then changed and looked at from both sides. *)
Definition C80_alloc (n : nat) : nat := (n + n mod 3)%nat.
Definition C80_cmds : list (command nat) :=
  (repeat (Push nat) 20 ++ [SetTop nat 0 7; SetBottom nat 1 8; SetTop nat 17 9; GetTop nat 0; GetTop nat 18; GetBottom nat 2; GetBottom nat 3; Pop nat 18; GetSize nat;
    GetTop nat 0; Push nat; GetTop nat 0; Clear nat; GetSize nat; Push nat; GetBottom nat 0])%nat.
Definition C80_out : list (output nat) :=
  ([Value nat 7; Value nat 8; Value nat 9; Value nat 5; Size nat 2; Value nat 8; Value nat 5; Size nat 0; Value nat 5])%nat.
Example C80_ex : run nat 5%nat C80_alloc 100 false (empty nat) C80_cmds [] = Ok C80_out
  /\ run nat 5%nat C80_alloc 100 true (empty nat) C80_cmds [] = Ok C80_out.
Proof. vm_compute. split; reflexivity. Qed.
(* With a limit of 50 the second reallocation (18 * 2 | 17 = 53) fails. *)
Example C80_ex_limit : run nat 5%nat C80_alloc 50 false (empty nat) C80_cmds [] = Throw
  /\ run nat 5%nat C80_alloc 50 false (empty nat) [Push nat; Pop nat 2%nat] [] = UB.
Proof. vm_compute. split; reflexivity. Qed.
(* Elements of 48 bytes: 17 of them take a block of 1024 bytes, which has room
   for 21. *)
Example C80_ex_real : real_alloc 48 17 = 21%nat /\ real_alloc 48 53 = 85%nat.
Proof. vm_compute. split; reflexivity. Qed.
