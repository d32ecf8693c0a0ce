(* C60: writing reals in decimal. *)
From Verif Require Import Base Text NumGetModel NumPutModel NumSpec DecSpec DecProofs DecPutProofs DecTripProofs.

Local Open Scope Z_scope.

(* Every finite real is written as a decimal literal with its sign, which differs from it by
   less than half the distance to the next double. *)
Theorem C60_written : forall bits base ebase, 0 <= bits < 2 ^ 64 -> 0 < magnitude bits < infinity ->
  base_notation base Decimal -> ebase_fits Decimal ebase ->
  exists l, format_real bits base ebase = Ok (text_of l) /\ wf_literal l /\ l_notation l = Decimal /\
    l_sign l = (if minus_bit bits then Some true else None) /\
    within_half (significand l) (scale l) (magnitude bits) /\
    (ebase <> None -> l_exp l <> None /\ length (l_int l) = 1%nat /\
       match l_int l with [] => False | d :: _ => fst d <> 0 end).
Proof.
  intros bits base ebase H1 H2 H3 H4.
  destruct (format_dec_ok bits base ebase H1 H2 H3 H4) as (l & A & B & C & D & E & F & _). eauto 10.
Qed.
Print Assumptions C60_written.

(* So it is the real nearest to what is written, unless it is a power of two. *)
Theorem C60_nearest_partial : forall bits base ebase, 0 <= bits < 2 ^ 64 -> 0 < magnitude bits < infinity ->
  base_notation base Decimal -> ebase_fits Decimal ebase -> even_spacing (magnitude bits) ->
  exists l, format_real bits base ebase = Ok (text_of l) /\ wf_literal l /\ l_notation l = Decimal /\
    l_sign l = (if minus_bit bits then Some true else None) /\
    nearest_decimal (significand l) (scale l) (magnitude bits).
Proof. exact format_dec_nearest. Qed.
Print Assumptions C60_nearest_partial.

(* What is written is read as the same real or as one next to it. *)
Theorem C60_trip_partial : forall bits base ebase, 0 <= bits < 2 ^ 64 -> 0 < magnitude bits < infinity ->
  base_notation base Decimal -> ebase_fits Decimal ebase ->
  exists t, format_real bits base ebase = Ok t /\
    (exists x m, parse_D t = Ok (Some (x, [])) /\ cast_D x = sign_pattern (minus_bit bits) + m /\
       magnitude bits - 1 <= m <= magnitude bits + 1) /\
    match std_numeric_parse t with
    | Ok (Integer i) => 2 * Z.abs (i * 2 ^ 1074 - real_units bits) < dbl (magnitude bits + 1) - dbl (magnitude bits)
    | Ok (Real b) => exists m, b = sign_pattern (minus_bit bits) + m /\ magnitude bits - 1 <= m <= magnitude bits + 1
    | _ => False
    end.
Proof. exact format_dec_trip. Qed.
Print Assumptions C60_trip_partial.

(* A literal of at most fifteen digits is read and written as the same number, unless it is
   almost in the middle of two doubles. *)
Theorem C60_again_partial : forall l t base ebase,
  wf_literal l -> l_notation l = Decimal -> 0 < significand l < 10 ^ 15 ->
  2 ^ 52 <= t < infinity -> near_double (significand l) (scale l) t ->
  base_notation base Decimal -> ebase_fits Decimal ebase ->
  exists x l', parse_D (text_of l) = Ok (Some (x, [])) /\ cast_D x = sign_pattern (negative l) + t /\
    format_real (cast_D x) base ebase = Ok (text_of l') /\ wf_literal l' /\ l_notation l' = Decimal /\
    negative l' = negative l /\ same_value 10 (significand l') (scale l') (significand l) (scale l).
Proof. exact dec_again. Qed.
Print Assumptions C60_again_partial.

(* A real which has at most fifteen digits is written exactly and read back. *)
Theorem C60_exact : forall bits D E base ebase, 0 <= bits < 2 ^ 64 -> 2 ^ 52 <= magnitude bits < infinity ->
  0 < D < 10 ^ 15 -> is_double D E (magnitude bits) -> base_notation base Decimal -> ebase_fits Decimal ebase ->
  exists l, format_real bits base ebase = Ok (text_of l) /\ same_value 10 (significand l) (scale l) D E /\
    (exists x, parse_D (text_of l) = Ok (Some (x, [])) /\ cast_D x = bits) /\
    match std_numeric_parse (text_of l) with
    | Ok (Integer i) => i * 2 ^ 1074 = real_units bits
    | Ok (Real b) => b = bits
    | _ => False
    end.
Proof. exact dec_exact. Qed.
Print Assumptions C60_exact.

(* Zeroes and infinities are read back. *)
Theorem C60_special : forall bits base ebase, 0 <= bits < 2 ^ 64 -> magnitude bits = 0 \/ magnitude bits = infinity ->
  base_notation base Decimal -> ebase_fits Decimal ebase ->
  exists t, format_real bits base ebase = Ok t /\
    exists x, parse_D t = Ok (Some (x, [])) /\ cast_D x = bits.
Proof. exact dec_special. Qed.
Print Assumptions C60_special.

(* Reading does not always give the same real. *)
Theorem C60_trip_refuted : exists bits t b, 0 < magnitude bits < infinity /\ even_spacing (magnitude bits) /\
  format_real bits None None = Ok t /\ std_numeric_parse t = Ok (Real b) /\ b <> bits.
Proof.
  exists 0x675ebc190638c253. eexists. eexists. split; [vm_compute; split; reflexivity|]. split; [left; vm_compute; discriminate|].
  split; [vm_compute; reflexivity|]. split; [vm_compute; reflexivity|]. discriminate.
Qed.
Print Assumptions C60_trip_refuted.

(* A power of two may be written as a number which is nearer to another real. *)
Theorem C60_power_refuted : exists bits l, 0 < magnitude bits < infinity /\ wf_literal l /\ l_notation l = Decimal /\
  format_real bits None None = Ok (text_of l) /\
  ~ nearest_decimal (significand l) (scale l) (magnitude bits).
Proof.
  exists 0x0040000000000000.
  exists (Lit None Decimal false [(1, true)] (Some (map (fun d => (d, true)) [7;8;0;0;5;9;0;8;6;8;0;5;7;6;1])) 
            (Some (Expo false (Some true) [(3, true); (0, true); (7, true)]))).
  split; [vm_compute; split; reflexivity|]. split.
  { split; [|split; [discriminate|split; [vm_compute; reflexivity|]]].
    - repeat (constructor; [vm_compute; split; congruence|]). constructor.
    - split; [|split; [discriminate|vm_compute; reflexivity]]. repeat (constructor; [vm_compute; split; congruence|]). constructor. }
  split; [reflexivity|]. split; [vm_compute; reflexivity|].
  intros [_ H]. specialize (H 0x003fffffffffffff ltac:(vm_compute; split; congruence) ltac:(vm_compute; discriminate)).
  cbv zeta in H. revert H. vm_compute. intros [H|[H _]]; discriminate H.
Qed.
Print Assumptions C60_power_refuted.

(* A literal of five digits may be written with sixteen. *)
Theorem C60_again_refuted : exists b,
  std_numeric_parse (str "0.71381") = Ok (Real b) /\ format_real b None None = Ok (str "0.7138100000000001").
Proof. exists 0x3fe6d78811b1d92c. split; vm_compute; reflexivity. Qed.
Print Assumptions C60_again_refuted.

Example C60_ex :
  format_real 0x3fb999999999999a None None = Ok (str "0.1") /\
  format_real 0xc08f400000000000 None None = Ok (str "-1000") /\
  format_real 0x3ff8000000000000 (Some 10) (Some 10) = Ok (str "1.5e+00") /\
  format_real 1 None None = Ok (str "4.940656458412465e-324") /\
  format_real 0x7fefffffffffffff None None = Ok (str "1.7976931348623157e+308") /\
  even_spacing 0x3fb999999999999a /\ ~ even_spacing 0x0040000000000000 /\
  near_double 1 (-1) 0x3fb999999999999a /\ is_double 15 (-1) 0x3ff8000000000000.
Proof.
  repeat split; try (vm_compute; reflexivity); try (left; vm_compute; discriminate).
  intros [H|H]; [apply H; reflexivity|exact (H eq_refl)].
Qed.
