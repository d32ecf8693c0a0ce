(* C83: the guard against stack overflow. *)
From Verif Require Import Base SentryModel SentrySpec SentryProofs.

(* A copy succeeds if it is less than 1 MiB away from the base, on either side,
   and fails if it is more. *)
Theorem C83_limit : forall s a, address (base s) -> address a ->
  (Z.abs (base s - a) < 2 ^ 20 -> copy s a = Ok (Sentry (base s) a)) /\ (2 ^ 20 < Z.abs (base s - a) -> copy s a = Throw) /\ copy s a <> UB.
Proof. exact copy_limit. Qed.
Print Assumptions C83_limit.

(* At exactly 1 MiB it depends on the direction. *)
Theorem C83_boundary : forall s a, address (base s) -> address a -> copy s a = Ok (Sentry (base s) a) <-> - 2 ^ 20 <= base s - a < 2 ^ 20.
Proof. exact copy_boundary. Qed.
Print Assumptions C83_boundary.

(* So the depth of recursion is bounded if every call takes `f` bytes at least,
   and recursion that takes less than 1 MiB is never refused. *)
Theorem C83_depth : forall f a frames s', 0 < f -> address a -> descends f a frames -> nested (new a) frames = Ok s' -> f * Z.of_nat (length frames) < 2 ^ 20.
Proof. exact depth_ok. Qed.
Print Assumptions C83_depth.
Theorem C83_no_false_alarm : forall f a frames, 0 < f -> address a -> descends f a frames -> (forall b, In b frames -> a - b < 2 ^ 20) -> exists s', nested (new a) frames = Ok s'.
Proof. exact no_false_alarm. Qed.
Print Assumptions C83_no_false_alarm.

Example C83_ex : nested (new 0x7fff12345678) [0x7fff12345600; 0x7fff12300000; 0x7fff12245679] = Ok (Sentry 0x7fff12345678 0x7fff12245679)
  /\ nested (new 0x7fff12345678) [0x7fff12345600; 0x7fff12300000; 0x7fff12245678] = Throw
  /\ copy (new 0x1000) 0x100fff = Ok (Sentry 0x1000 0x100fff) /\ copy (new 0x1000) 0x101001 = Throw.
Proof. vm_compute. repeat split; reflexivity. Qed.
Example C83_ex_descends : descends 100 0x7fff12345678 [0x7fff12345600; 0x7fff12300000; 0x7fff12245679].
Proof. repeat (constructor; [lia|]). constructor. Qed.
