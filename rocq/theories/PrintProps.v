(* C69: how values are printed. *)
From Verif Require Import Base Text NumPutModel ValueModel FmtModel PrintModel PrintSpec PrintProofs1 PrintProofs2.

Local Open Scope Z_scope.

(* the machine with a stack prints every value, and exactly the text that the recursive
   description gives *)
Theorem C69_total (rt : real -> bytes) (ot ft : Z -> bytes) (v : value) : value_ok v ->
  exists t, print_to rt ot ft v = Ok t /\ prints rt ot ft v t.
Proof. exact (print_to_prints rt ot ft v). Qed.
Print Assumptions C69_total.

Theorem C69_exact (rt : real -> bytes) (ot ft : Z -> bytes) (v : value) (t : bytes) : value_ok v ->
  print_to rt ot ft v = Ok t <-> prints rt ot ft v t.
Proof. exact (print_to_exact rt ot ft v t). Qed.
Print Assumptions C69_exact.

(* it is one line of ASCII, provided that reals, opaque objects and functions are *)
Theorem C69_visible (rt : real -> bytes) (ot ft : Z -> bytes) :
  (forall r, visible (rt r)) -> (forall i, visible (ot i)) -> (forall i, visible (ft i)) ->
  forall v, value_ok v -> forall t, prints rt ot ft v t -> visible t.
Proof. exact (prints_visible rt ot ft). Qed.
Print Assumptions C69_visible.

(* different plain values never print alike, and where a plain value ends can be told from the
   text, provided that what follows is not a digit *)
Theorem C69_injective (rt : real -> bytes) (ot ft : Z -> bytes) (v w : value) (t : bytes) :
  plain v -> plain w -> value_ok v -> value_ok w ->
  print_to rt ot ft v = Ok t -> print_to rt ot ft w = Ok t -> v = w.
Proof. exact (print_to_injective rt ot ft v w t). Qed.
Print Assumptions C69_injective.

Theorem C69_delimited (rt : real -> bytes) (ot ft : Z -> bytes) (v : value) : plain v -> value_ok v ->
  forall w t u a b, plain w -> value_ok w -> prints rt ot ft v t -> prints rt ot ft w u ->
  (forall c r, a = c :: r -> ~ 48 <= c <= 57) -> (forall c r, b = c :: r -> ~ 48 <= c <= 57) ->
  t ++ a = u ++ b -> v = w /\ a = b.
Proof. exact (read_back' rt ot ft v). Qed.
Print Assumptions C69_delimited.

(* the real one, which is 4607182418800017408 in binary64, prints like the integer one *)
Theorem C69_real_refuted : exists v w, v <> w /\ value_ok v /\ value_ok w /\
  forall rt ot ft, put_Dec true 4607182418800017408 = Ok (rt (RFin false 1 0)) ->
  print_to rt ot ft v = print_to rt ot ft w.
Proof. exact one_and_one. Qed.
Print Assumptions C69_real_refuted.

(* examples *)
Definition C69_value : value :=
  VArr [VNull; VBool true; VInt (-20); VStr (str "a""" ++ [10; 200]); VArr [];
        VObj [(str "k", VArr [VInt 0]); ([], VObj [])]; VOpaque 7; VFunc 8].
Definition C69_print := print_to (fun _ => str "0.5") (fun _ => str "box") (fun _ => str "std.array.sort").
Example C69_ex_ok : value_ok C69_value.
Proof. cbn; unfold all_bytes, is_byte; repeat split; repeat constructor; cbn; lia. Qed.
Example C69_ex : C69_print C69_value =
  Ok (str "[ null, true, -20, ""a\""\n\xC8"", [ ], { ""k"": [ 0 ], """": { } }, (opaque) [[box]], (function) [[std.array.sort]] ]").
Proof. vm_compute. reflexivity. Qed.
Example C69_ex_nested : C69_print (VArr [VArr [VArr [VInt 1; VInt 2]; VInt 3]]) = Ok (str "[ [ [ 1, 2 ], 3 ] ]").
Proof. vm_compute. reflexivity. Qed.
Example C69_ex_spec : prints (fun _ => []) (fun _ => []) (fun _ => []) (VArr [VBool false; VStr (str "x")]) (str "[ false, ""x"" ]").
Proof.
  apply (P_arr _ _ _ _ [str "false"; str """x"""]); [discriminate|].
  constructor; [constructor|]. constructor; [apply (P_str _ _ _ (str "x"))|constructor].
Qed.
