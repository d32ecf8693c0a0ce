(* Decimal literals as std.numeric.parse reads them. *)
From Verif Require Import Base Text Monad NumGetModel NumSpec DecSpec NumGetProofs NumPutProofs NumTripProofs DecProofs.

Local Open Scope Z_scope.

Lemma parse_decimal_close a l b : wf_literal l -> Forall is_white a -> Forall is_white b -> l_notation l = Decimal ->
  match std_numeric_parse (a ++ text_of l ++ b) with
  | Ok (Integer i) => l_frac l = None /\ is_int64 i /\ denotes_integer l i
  | Ok (Real r) => exists m, r = sign_pattern (negative l) + m /\ close_decimal (significand l) (scale l) m
  | _ => False
  end.
Proof.
  intros W Ha Hb Hn. pose proof (parse_sound a l b) as HSound.
  destruct (std_parse_ok a l b W Ha Hb) as (x & Hs & HS & E). rewrite E in *.
  destruct (_ && _); [apply HSound; auto|]. rewrite Hn in HS.
  destruct (stored_close _ _ x (significand_nonneg l W) HS) as (m & -> & HN).
  exists m. split; [rewrite Hs; reflexivity|exact HN].
Qed.
Lemma parse_D_close l : wf_literal l -> l_notation l = Decimal ->
  exists x m, parse_D (text_of l) = Ok (Some (x, [])) /\ cast_D x = sign_pattern (negative l) + m /\
    close_decimal (significand l) (scale l) m.
Proof.
  intros W Hn. destruct (parse_D_ok l W) as (x & Hx & Hs & HS). rewrite Hn in HS.
  destruct (stored_close _ _ x (significand_nonneg l W) HS) as (m & Hm & HN).
  exists x, m. split; [exact Hx|]. split; [rewrite Hm, Hs; reflexivity|exact HN].
Qed.

Lemma parse_D_exact l t : wf_literal l -> l_notation l = Decimal ->
  0 <= t <= infinity -> is_double (significand l) (scale l) t ->
  exists x, parse_D (text_of l) = Ok (Some (x, [])) /\ cast_D x = sign_pattern (negative l) + t.
Proof.
  intros Hl HN Ht HD. destruct (parse_D_close l Hl HN) as (x & m & HP & HC & HM).
  exists x. split; [exact HP|]. rewrite HC. f_equal. exact (close_exact _ _ _ _ Ht HD HM).
Qed.
