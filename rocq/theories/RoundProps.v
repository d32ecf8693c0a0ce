(* C73: rounding and absolute values. *)
From Verif Require Import Base Monad SortModel ValueModel ValueSpec RoundModel RoundSpec RoundProofs.
Open Scope Z_scope.

(* A finite real is rounded to the real that is the right integer; its sign bit
   is kept, even if the result is zero.  NaN and infinities stay as they are. *)
Theorem C73_round : forall d r, is_double r ->
  numeric_round d (VReal r) = Ok (VReal (f_of d r)) /\ is_double (f_of d r) /\
  negative (f_of d r) = negative r /\
  (forall q, finite r q -> exists n q', finite (f_of d r) q' /\ (q' == inject_Z n)%Q /\ rounds d q n) /\
  ((forall q, ~ finite r q) -> f_of d r = r).
Proof. exact round_ok. Qed.
Print Assumptions C73_round.

(* there is exactly one such integer *)
Theorem C73_exists : forall d r q, is_double r -> finite r q -> exists n, rounds d q n.
Proof. exact rounds_exists. Qed.
Print Assumptions C73_exists.
Theorem C73_unique : forall d r q n n', finite r q -> rounds d q n -> rounds d q n' -> n = n'.
Proof. exact rounds_unique. Qed.
Print Assumptions C73_unique.

(* The functions that give integers give that integer if 64 bits can hold it,
   and throw otherwise. *)
Theorem C73_integer : forall d r, is_double r ->
  (forall q n, finite r q -> rounds d q n -> numeric_iround d (VReal r) = if is_int64b n then Ok (VInt n) else Throw) /\
  ((forall q, ~ finite r q) -> numeric_iround d (VReal r) = Throw).
Proof. exact iround_ok. Qed.
Print Assumptions C73_integer.

(* What is integral stays as it is. *)
Theorem C73_integral : forall d r n, f_of d (f_of d r) = f_of d r /\
  numeric_round d (VInt n) = Ok (VInt n) /\ numeric_iround d (VInt n) = Ok (VInt n).
Proof. intros d r n. exact (conj (f_of_twice d r) (conj eq_refl eq_refl)). Qed.
Print Assumptions C73_integral.

(* The absolute value of an integer is refused if it overflows. *)
Theorem C73_abs_integer : forall n, is_int64 n ->
  numeric_abs (VInt n) = if is_int64b (- n) then Ok (VInt (Z.abs n)) else Throw.
Proof. exact abs_int. Qed.
Print Assumptions C73_abs_integer.
Theorem C73_abs_real : forall r, exists r', numeric_abs (VReal r) = Ok (VReal r') /\
  (is_double r -> is_double r') /\ negative r' <> Some true /\
  (forall q, is_double r -> finite r q -> exists q', finite r' q' /\ (q' == (if Qlt_le_dec q 0 then - q else q))%Q) /\
  (r = RNan <-> r' = RNan) /\ ((exists s, r = RInf s) <-> exists s, r' = RInf s).
Proof. exact abs_real_ok. Qed.
Print Assumptions C73_abs_real.

(* -2.5, and a number that is too large *)
Example C73_ex_modes : map (fun d => numeric_iround d (VReal (RFin true 5 (-1)))) [Nearest; Down; Up; Toward_zero] =
  [Ok (VInt (-3)); Ok (VInt (-3)); Ok (VInt (-2)); Ok (VInt (-2))].
Proof. reflexivity. Qed.
Example C73_ex_zero : numeric_round Up (VReal (RFin true 1 (-1))) = Ok (VReal (RFin true 0 0)).
Proof. reflexivity. Qed.
Example C73_ex_rounds : rounds Nearest (5 # 2)%Q 3 /\ ~ rounds Nearest (5 # 2)%Q 2.
Proof.
  split; [split; intros H; [split; reflexivity || discriminate|exfalso; apply H; reflexivity]|].
  intros [H _]. destruct H as [_ H]; [discriminate|discriminate H].
Qed.
Example C73_ex_limits : numeric_iround Down (VReal (RFin false 1 63)) = Throw /\
  numeric_iround Down (VReal (RFin true 1 63)) = Ok (VInt (- 2 ^ 63)) /\ numeric_iround Down (VReal (RInf true)) = Throw.
Proof. repeat split. Qed.
Example C73_ex_abs : numeric_abs (VInt (- 2 ^ 63)) = Throw /\ numeric_abs (VInt (-7)) = Ok (VInt 7).
Proof. split; reflexivity. Qed.
