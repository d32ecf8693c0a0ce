(* C59: decimal literals. *)
From Verif Require Import Base Text NumGetModel NumSpec DecSpec DecProofs DecReadProofs.

Local Open Scope Z_scope.

(* A decimal literal is read as an integer of its value, or as one of the two doubles
   around it; as the nearer one unless it is almost in the middle. *)
Theorem C59_close_partial : forall a l b, wf_literal l -> Forall is_white a -> Forall is_white b -> l_notation l = Decimal ->
  match std_numeric_parse (a ++ text_of l ++ b) with
  | Ok (Integer i) => l_frac l = None /\ is_int64 i /\ denotes_integer l i
  | Ok (Real r) => exists m, r = sign_pattern (negative l) + m /\ close_decimal (significand l) (scale l) m
  | _ => False
  end.
Proof. exact parse_decimal_close. Qed.
Print Assumptions C59_close_partial.

(* The same for the reader of reals, which is used for literals in scripts. *)
Theorem C59_reader_partial : forall l, wf_literal l -> l_notation l = Decimal ->
  exists x m, parse_D (text_of l) = Ok (Some (x, [])) /\ cast_D x = sign_pattern (negative l) + m /\
    close_decimal (significand l) (scale l) m.
Proof. exact parse_D_close. Qed.
Print Assumptions C59_reader_partial.

(* So a literal whose value is a double is read exactly. *)
Theorem C59_exact : forall l t, wf_literal l -> l_notation l = Decimal ->
  0 <= t <= infinity -> is_double (significand l) (scale l) t ->
  exists x, parse_D (text_of l) = Ok (Some (x, [])) /\ cast_D x = sign_pattern (negative l) + t.
Proof. exact parse_D_exact. Qed.
Print Assumptions C59_exact.

(* But the nearest double is not always found. *)
Definition digits_of (l : list Z) : list digit := map (fun d => (d, false)) l.
Definition wrong_literal : literal := Lit None Decimal false (digits_of [0]) (Some (digits_of [7;1;3;8;1])) None.
Theorem C59_nearest_refuted : exists l r,
  wf_literal l /\ l_notation l = Decimal /\ std_numeric_parse (text_of l) = Ok (Real r) /\
  ~ exists m, r = sign_pattern (negative l) + m /\ nearest_decimal (significand l) (scale l) m.
Proof.
  exists wrong_literal, 0x3fe6d78811b1d92c. split.
  { split; [|split; [discriminate|split; [vm_compute; reflexivity|exact I]]].
    repeat (constructor; [vm_compute; split; congruence|]). constructor. }
  split; [reflexivity|]. split; [vm_compute; reflexivity|].
  intros (m & Hm & [_ HN]). change (sign_pattern (negative wrong_literal)) with 0 in Hm.
  assert (m = 0x3fe6d78811b1d92c) by lia. subst m.
  specialize (HN 0x3fe6d78811b1d92b ltac:(vm_compute; split; congruence) ltac:(lia)). cbv zeta beta in HN.
  revert HN. vm_compute. intros [H|[H _]]; discriminate H.
Qed.
Print Assumptions C59_nearest_refuted.

Example C59_ex :
  text_of wrong_literal = str "0.71381" /\
  std_numeric_parse (str "0.1") = Ok (Real 0x3fb999999999999a) /\
  std_numeric_parse (str "-1.5e3") = Ok (Real 0xc097700000000000) /\
  std_numeric_parse (str "4.9e-324") = Ok (Real 1) /\
  std_numeric_parse (str "1.7976931348623157e308") = Ok (Real 0x7fefffffffffffff) /\
  std_numeric_parse (str "1.8e308") = Ok (Real 0x7ff0000000000000) /\
  std_numeric_parse (str "123456789012345678901234567890.5") = Ok (Real 0x45f8ee90ff6c373e) /\
  is_double 15 2 (0x4097700000000000).
Proof. repeat split; vm_compute; reflexivity. Qed.
