(* Properties of configuration files. *)
From Verif Require Import Base Text Monad UtfSpec NumGetModel NumSpec ConfModel ConfSpec.
From Verif Require Import ConfProofs4 ConfProofs6 ConfProofs7.

Local Open Scope Z_scope.

(* What is accepted, and what it reads: exactly the configurations, where numbers have the
   values that the two theorems below tell. *)
Theorem C66_exact : forall file o, all_bytes file ->
  load_conf file = Ok o <-> configuration (fun w v => number_value w = Ok v) file o.
Proof. exact load_exact. Qed.
Print Assumptions C66_exact.

(* A number without a point is the integer part of its value, and refused if this is not a
   64-bit integer. *)
Theorem C66_integer : forall l a, wf_literal l -> l_frac l = None ->
  l_notation l <> Hexadecimal \/ significand l < 2 ^ 64 ->
  integer_part (power (l_notation l)) (significand l) (scale l) a ->
  let i := if negative l then - a else a in
  (is_int64 i -> number_value (text_of l) = Ok (VInt i)) /\
  (~ is_int64 i -> number_value (text_of l) = Throw).
Proof. exact number_integer. Qed.
Print Assumptions C66_integer.

(* A number with a point is the real that std.numeric.parse makes of it, and refused if
   this is infinite. *)
Theorem C66_real : forall l, wf_literal l -> l_frac l <> None ->
  exists b, std_numeric_parse (text_of l) = Ok (Real b) /\
    number_value (text_of l) = if magnitude b <? infinity then Ok (VReal b) else Throw.
Proof. exact number_real. Qed.
Print Assumptions C66_real.

(* The recursion of the model never runs out of fuel. *)
Theorem C66_fuel : forall file, all_bytes file ->
  let s := skip_bom (decode file) in no_fuel (tokens (S (stream_length s)) s).
Proof. exact load_fuel. Qed.
Print Assumptions C66_fuel.

(* Behaviour is defined for texts in Latin letters that end with a line feed, unless they
   contain a number without digits or of an enormous exponent. *)
Theorem C66_safe_partial : forall file cs,
  all_bytes file -> text_of_file file (cs ++ [10]) -> Forall (fun c => c < 256) cs ->
  load_conf file = UB ->
  exists a u w b, cs ++ [10] = a ++ u ++ b /\ number_piece u w (hd_error b) /\
    ~ exists l, wf_literal l /\ w = text_of l.
Proof. exact load_safe. Qed.
Print Assumptions C66_safe_partial.

(* A number at the end of the file: the table of digits is read at index 2^32 - 1. *)
Theorem C66_end_refuted : exists file, text_of_file file (str "a=1") /\ load_conf file = UB.
Proof.
  exists (str "a=1"). split; [|vm_compute; reflexivity]. exists (str "a=1"). split; [|split; [reflexivity|]].
  - repeat (constructor; [vm_compute; intuition congruence|]). constructor.
  - right. split; [reflexivity|discriminate].
Qed.
Print Assumptions C66_end_refuted.

(* A number followed by a character from outside the table. *)
Theorem C66_table_refuted : exists file cs, text_of_file file (str "a=1" ++ cs ++ [10]) /\ load_conf file = UB.
Proof.
  exists (str "a=1" ++ rfc3629 0x3000 ++ [10]), [0x3000]. split; [|vm_compute; reflexivity].
  exists (str "a=1" ++ [0x3000] ++ [10]). split; [|split; [vm_compute; reflexivity|]].
  - repeat (constructor; [vm_compute; intuition congruence|]). constructor.
  - right. split; [reflexivity|discriminate].
Qed.
Print Assumptions C66_table_refuted.

(* A prefix without digits: an assertion fails. *)
Theorem C66_prefix_refuted : load_conf (str "a=0x;") = UB /\ load_conf (str "a=0b;") = UB.
Proof. split; vm_compute; reflexivity. Qed.
Print Assumptions C66_prefix_refuted.

(* Bytes that are not UTF-8: five bytes are read into an array of four. *)
Theorem C66_overflow_refuted : exists file, all_bytes file /\ length file = 6%nat /\ load_conf file = UB.
Proof.
  exists [252; 128; 128; 128; 128; 128]. split; [|split; [reflexivity|vm_compute; reflexivity]].
  repeat (constructor; [unfold is_byte; lia|]). constructor.
Qed.
Print Assumptions C66_overflow_refuted.

(* Characters in single quotation marks are not kept: only the lowest eight bits are. *)
Theorem C66_single_refuted : exists u, Forall (fun c => ~ control c /\ c <> 39) u /\ Forall scalar u /\
  load_conf (str "a='" ++ concat (map rfc3629 u) ++ str "'") = Ok [(str "a", VStr [65])] /\
  load_conf (str "a=""" ++ concat (map rfc3629 u) ++ str """") = Ok [(str "a", VStr (concat (map rfc3629 u)))] /\
  u = [0x0141].
Proof.
  exists [0x0141]. split; [constructor; [unfold control; lia|constructor]|].
  split; [constructor; [unfold scalar; lia|constructor]|]. repeat split; vm_compute; reflexivity.
Qed.
Print Assumptions C66_single_refuted.

(* A comment as everybody else understands it may not be closed. *)
Theorem C66_comment_refuted : exists u, usual_comment u /\ load_conf (u ++ [10]) = Throw.
Proof.
  exists (str "/* x **/"). split; [|vm_compute; reflexivity].
  exists (str " x *"). split; [reflexivity|]. intros a b H.
  destruct a as [|a0 [|a1 [|a2 [|a3 [|a4 a]]]]]; vm_compute in H; try discriminate H.
  injection H. intros. repeat (destruct a; try discriminate).
Qed.
Print Assumptions C66_comment_refuted.

(* The last character of Unicode may not be written as an escape sequence. *)
Theorem C66_last_refuted : scalar 0x10FFFF /\ load_conf (str "a=""\U10FFFF""") = Throw /\
  load_conf (str "a=""\U10FFFE""") = Ok [(str "a", VStr (rfc3629 0x10FFFE))].
Proof. split; [unfold scalar; lia|split; vm_compute; reflexivity]. Qed.
Print Assumptions C66_last_refuted.

Definition sample : bytes :=
  str "// settings" ++ [10] ++ str "server : {port = 8`080, ""naé"" ['x'; -0x1F null] debug true}" ++ [10] ++
  str "ratio = 2.5 /* half */" ++ [10].
Example C66_ex : load_conf sample =
  Ok [(str "server", VObj [(str "port", VInt 8080);
                           (str "na" ++ [195; 169], VArr [VStr (str "x"); VInt (-31); VNull]);
                           (str "debug", VBool true)]);
      (str "ratio", VReal 0x4004000000000000)].
Proof. vm_compute. reflexivity. Qed.

(* What is refused: a key twice, a container not closed, no value. *)
Example C66_ex_refused :
  load_conf (str "a=1,a=2" ++ [10]) = Throw /\ load_conf (str "a=[1,2" ++ [10]) = Throw /\
  load_conf (str "a=,") = Throw /\ load_conf (str "a=1,,b=2" ++ [10]) = Throw /\ load_conf (str "}") = Throw /\
  load_conf (str "a=[1}" ++ [10]) = Throw.
Proof. repeat split; vm_compute; reflexivity. Qed.

(* Thirty-two brackets may be open around a value, and one more around nothing. *)
Definition nested (k : nat) (inner : bytes) : bytes :=
  str "a=" ++ repeat 91 k ++ inner ++ repeat 93 k ++ [10].
Example C66_ex_depth :
  (exists o, load_conf (nested 32 (str "1")) = Ok o) /\ load_conf (nested 33 (str "1")) = Throw /\
  (exists o, load_conf (nested 33 []) = Ok o).
Proof. split; [|split]; [eexists; vm_compute; reflexivity|vm_compute; reflexivity|eexists; vm_compute; reflexivity]. Qed.

(* An exponent does not make a real. *)
Example C66_ex_integer :
  load_conf (str "a=15e-1" ++ [10]) = Ok [(str "a", VInt 1)] /\
  load_conf (str "a=-9223372036854775808" ++ [10]) = Ok [(str "a", VInt (- 2 ^ 63))] /\
  load_conf (str "a=9223372036854775808" ++ [10]) = Throw.
Proof. repeat split; vm_compute; reflexivity. Qed.
Example C66_ex_real :
  number_value (text_of (Lit None Hexadecimal false [(1, true)] (Some [(8, true)]) None)) = Ok (VReal 0x3ff8000000000000) /\
  number_value (str "1.0e999") = Throw.
Proof. split; vm_compute; reflexivity. Qed.
(* The exception of C66_safe_partial occurs. *)
Example C66_ex_safe : load_conf (str "a=0x" ++ [10]) = UB /\
  text_of_file (str "a=0x" ++ [10]) (str "a=0x" ++ [10]) /\
  number_piece (str "0x") (str "0x") (Some 10).
Proof.
  split; [vm_compute; reflexivity|]. split.
  - exists (str "a=0x" ++ [10]). split; [|split; [reflexivity|right; split; [reflexivity|discriminate]]].
    repeat (constructor; [vm_compute; intuition congruence|]). constructor.
  - change (str "0x") with ([] ++ (48 :: [] ++ [120]) ++ [] ++ []) at 1.
    change (str "0x") with ([] ++ (48 :: 120 :: []) ++ [] ++ []).
    apply (number_intro Hexadecimal); [left; reflexivity| | |].
    + apply (int_based Hexadecimal [] 120 [] []); [cbn; auto|auto|constructor| |exists 10; cbn; split; [reflexivity|lia]].
      intros c H. injection H as <-. split; [cbn; unfold decimal; lia|discriminate].
    + constructor. discriminate.
    + constructor. intros c H. injection H as <-. cbn. lia.
Qed.
