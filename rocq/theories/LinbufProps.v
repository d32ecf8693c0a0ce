(* C81: linear buffers are queues. *)
From Verif Require Import Base LinbufModel LinbufSpec LinbufProofs.

(* A proper program reads from a new buffer what it reads from a queue, and does
   nothing undefined; it can fail only if it asks for more than max_size()
   characters in all. *)
Theorem C81_queue : forall (max : nat) (debug : bool) (cmds : list command) (outs : list output),
  plays [] cmds outs ->
  run max debug empty_buffer cmds = Ok outs \/
  (run max debug empty_buffer cmds = Throw /\ (max < all_asked cmds)%nat).
Proof. exact (fun max debug cmds outs P => run_ok max debug [] cmds outs P empty_buffer empty_ok). Qed.
Print Assumptions C81_queue.

(* Every proper command has an effect on a queue of characters, so there are
   such programs whatever is asked for. *)
Theorem C81_total : forall q c, Forall char_ok q -> proper q c -> exists q' out, does q c q' out /\ Forall char_ok q'.
Proof. exact does_total. Qed.
Print Assumptions C81_total.

(* Whatever a program does, the storage has no more than 0x1000 characters more
   than max_size(). *)
Theorem C81_bounded : forall max debug s, after max debug empty_buffer s -> (N.of_nat (cap s) <= N.of_nat max + 0x1000)%N.
Proof. exact after_empty. Qed.
Print Assumptions C81_bounded.

(* 4097 characters are allocated at first.  The contents are moved to the
   beginning for [3; 4; -1], and to a larger buffer for the 4100 eights.  The
   character -1 is read as 255. *)
Definition C81_many (n : N) (c : Z) : command := PutnFill (N.to_nat n) c.
Definition C81_cmds : list command :=
  [Getc; Putc 1; C81_many 4090 7; Putn [1; 2]; Discard (N.to_nat 4085); Reserve 5 [3; 4; -1]; Size; Unaccept 1; Getn 5; Peekn 2; C81_many 4100 8; Getn 6; Putc (-1);
   Discard (N.to_nat 4099); Peekc; Getc; Getc; Putc 9; Clear; Size; Getn 3].
Definition C81_outs : list output :=
  [Int (-1); Count 11; Chars (repeat 7 5); Chars [7; 1]; Chars [7; 1; 2; 3; 4; 8]; Int 255; Int 255; Int (-1); Count 0; Chars []].
Example C81_ex : run (N.to_nat 5000) false empty_buffer C81_cmds = Ok C81_outs /\ run (N.to_nat 5000) true empty_buffer C81_cmds = Ok C81_outs
  /\ run (N.to_nat 4099) true empty_buffer C81_cmds = Throw /\ run 9 false empty_buffer [Putc 1; Discard 2] = UB.
Proof. vm_compute. repeat split; reflexivity. Qed.
Example C81_ex_bounded : exists s, after 5 false empty_buffer s /\ cap s = N.to_nat 4099.
Proof.
  exists (Buffer ([Some 1; Some 2; Some 3] ++ repeat None (N.to_nat 4096)) 0 3). split; [|vm_compute; reflexivity].
  apply (A_cons 5 false _ (Putn [1; 2; 3]) (Buffer ([Some 1; Some 2; Some 3] ++ repeat None (N.to_nat 4096)) 0 3) []); [vm_compute; reflexivity|apply A_nil].
Qed.
