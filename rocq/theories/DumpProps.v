(* C70: how values are dumped. *)
From Verif Require Import Base Text ValueModel FmtModel PrintModel PrintSpec PrintProofs1 PrintProofs2 PrintProofs3.

Local Open Scope Z_scope.

(* the machine with a stack dumps every value, and exactly the text that the recursive
   description gives, as long as the indentation fits in 64 bits *)
Theorem C70_total (rt : real -> bytes) (ot ft : Z -> bytes) (indent hanging : Z) :
  0 <= indent -> 0 <= hanging -> forall v, value_ok v -> hanging + indent * Z.of_nat (depth v) < 2 ^ 64 ->
  exists t, dump rt ot ft indent hanging v = Ok t /\ dumps rt ot ft indent hanging 0 v t.
Proof. exact (dump_dumps rt ot ft indent hanging). Qed.
Print Assumptions C70_total.

Theorem C70_exact (rt : real -> bytes) (ot ft : Z -> bytes) (indent hanging : Z) (v : value) (t : bytes) :
  0 <= indent -> 0 <= hanging -> value_ok v -> hanging + indent * Z.of_nat (depth v) < 2 ^ 64 ->
  dump rt ot ft indent hanging v = Ok t <-> dumps rt ot ft indent hanging 0 v t.
Proof. exact (dump_exact rt ot ft indent hanging v t). Qed.
Print Assumptions C70_exact.

(* it has a line for each element, and one for the end of each array and object that is not
   empty; without indentation it is one line *)
Theorem C70_lines (rt : real -> bytes) (ot ft : Z -> bytes) (indent hanging : Z) :
  (forall r, visible (rt r)) -> (forall i, visible (ot i)) -> (forall i, visible (ft i)) ->
  forall v t, 0 <= indent -> 0 <= hanging -> value_ok v -> hanging + indent * Z.of_nat (depth v) < 2 ^ 64 ->
  dump rt ot ft indent hanging v = Ok t ->
  count_occ Z.eq_dec t 10 = if indent =? 0 then O else breaks v.
Proof. exact (dump_to_lines rt ot ft indent hanging). Qed.
Print Assumptions C70_lines.

(* different plain values are never dumped alike *)
Theorem C70_injective (rt : real -> bytes) (ot ft : Z -> bytes) (indent hanging : Z) (v w : value) (t : bytes) :
  0 <= indent -> 0 <= hanging ->
  hanging + indent * Z.of_nat (depth v) < 2 ^ 64 -> hanging + indent * Z.of_nat (depth w) < 2 ^ 64 ->
  plain v -> plain w -> value_ok v -> value_ok w ->
  dump rt ot ft indent hanging v = Ok t -> dump rt ot ft indent hanging w = Ok t -> v = w.
Proof. exact (dump_injective rt ot ft indent hanging v w t). Qed.
Print Assumptions C70_injective.

(* examples *)
Definition C70_value : value :=
  VArr [VNull; VBool true; VStr (str "a"""); VArr []; VObj [(str "k", VArr [VInt (-5)]); (str "f", VFunc 8)]].
Definition C70_dump := dump (fun _ => str "0.5") (fun _ => str "box") (fun _ => str "std.array.sort").
Definition C70_nl : bytes := [10].
Example C70_ex_ok : value_ok C70_value /\ depth C70_value = 3%nat /\ breaks C70_value = 11%nat.
Proof.
  split; [|split; reflexivity]. cbn. repeat split; try lia; unfold all_bytes, is_byte; repeat (constructor; [lia|]); constructor.
Qed.
Example C70_ex : C70_dump 2 1 C70_value = Ok (
  str "array(5) [" ++ C70_nl ++
  str "   0 = null;" ++ C70_nl ++
  str "   1 = boolean true;" ++ C70_nl ++
  str "   2 = string(2) ""a\"""";" ++ C70_nl ++
  str "   3 = array(0) [ ];" ++ C70_nl ++
  str "   4 = object(2) {" ++ C70_nl ++
  str "     ""k"" = array(1) [" ++ C70_nl ++
  str "       0 = integer -5;" ++ C70_nl ++
  str "     ];" ++ C70_nl ++
  str "     ""f"" = function [[std.array.sort]];" ++ C70_nl ++
  str "   };" ++ C70_nl ++
  str " ];").
Proof. vm_compute. reflexivity. Qed.
Example C70_ex_flat : C70_dump 0 0 (VArr [VInt 1; VObj [(str "x", VOpaque 1)]]) =
  Ok (str "array(2) [ 0 = integer 1; 1 = object(1) { ""x"" = opaque [[box]]; }; ];").
Proof. vm_compute. reflexivity. Qed.
(* more spaces than are written at a time *)
Example C70_ex_wide : C70_dump 40 30 (VArr [VNull]) =
  Ok (str "array(1) [" ++ C70_nl ++ repeat 32 70 ++ str "0 = null;" ++ C70_nl ++ repeat 32 30 ++ str "];").
Proof. vm_compute. reflexivity. Qed.
