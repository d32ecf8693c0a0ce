(* C68: whatever is logged is one line, without control characters that act on a terminal. *)
From Verif Require Import Base Text Monad ValueModel FmtModel FmtSpec FmtProofs5 FmtProofs6.

Local Open Scope Z_scope.

(* the record, byte by byte *)
Theorem C68_exact : forall s file line func msg,
  log_ok s line -> Forall (fun c => 0 <= c) msg ->
  exists number texts tail, decimal line number /\ Forall2 shown msg texts /\
    stripped (9 :: concat texts) tail /\
    log_record s file line func msg =
      Ok (date_text (local_tm s) (tv_nsec s) ++ str " (" ++ func ++ str ") @ " ++ file ++ str ":" ++
          number ++ next_line ++ tail ++ next_line ++ [10]).
Proof. exact record_exact. Qed.
Print Assumptions C68_exact.

(* every byte of a message is shown in one way *)
Theorem C68_shown : forall c t u, shown c t -> shown c u -> t = u.
Proof. exact shown_fun. Qed.
Print Assumptions C68_shown.

(* the only line feed of a record is its last byte, and its only control characters are tabs
   and ESC E, whatever the message *)
Theorem C68_one_line : forall s file line func msg,
  log_ok s line -> Forall (fun c => 0 <= c) msg -> printable file -> printable func ->
  exists body, log_record s file line func msg = Ok (body ++ [10]) /\
    printable body /\ ~ In 10 body.
Proof. exact one_line. Qed.
Print Assumptions C68_one_line.

(* the same of std.debug.logf, which refuses what std.string.format refuses *)
Theorem C68_logf : forall print s file line templ values,
  log_ok s line -> printable file -> Z.of_nat (length values) <= max_args ->
  (forall ps, ~ template templ ps) /\ debug_logf print s file line templ values = Throw \/
  exists ps msg, template templ ps /\ composed s templ (map (arg_text print) values) ps msg /\
    (Forall (fun c => 0 <= c) msg ->
     exists body, debug_logf print s file line templ values = Ok (body ++ [10]) /\
       printable body /\ ~ In 10 body).
Proof. exact logf_ok. Qed.
Print Assumptions C68_logf.

(* the text that is logged need not occur in the record *)
Theorem C68_verbatim_refuted : exists s file line func msg r,
  log_ok s line /\ log_record s file line func msg = Ok r /\ forall a b, r <> a ++ msg ++ b.
Proof. exact verbatim_refuted. Qed.
Print Assumptions C68_verbatim_refuted.

(* different messages can have the same record *)
Theorem C68_injective_refuted : exists m n, m <> n /\
  forall s file line func, log_record s file line func m = log_record s file line func n.
Proof. exact injective_refuted. Qed.
Print Assumptions C68_injective_refuted.

(* the control characters from 0x80 to 0x9F are written as they are, among them the one that
   introduces terminal sequences *)
Theorem C68_c1_refuted : exists s file line func msg r,
  log_ok s line /\ log_record s file line func msg = Ok r /\ In 155 r.
Proof. exact c1_refuted. Qed.
Print Assumptions C68_c1_refuted.

Example C68_ex :
  log_record shanghai (str "debug.cpp") 31 (str "std_debug_logf")
    (str "two" ++ [10] ++ str "lines" ++ [27; 91; 72; 13; 10; 32]) =
  Ok (str "2014-09-26 08:58:26.123456789 (std_debug_logf) @ debug.cpp:31" ++ [27; 69; 9] ++
      str "two" ++ [27; 69; 9] ++ str "lines[ESC][H" ++ [27; 69] ++ [27; 69; 10]).
Proof. reflexivity. Qed.

Example C68_ex_logf :
  debug_logf (fun _ => str "null") shanghai (str "debug.cpp") 31 (str "$1;$2") [VStr [10]; VNull] =
  Ok (str "2014-09-26 08:58:26.123456789 (std_debug_logf) @ debug.cpp:31" ++ [27; 69; 9] ++
      [27; 69; 9] ++ str ";null" ++ [27; 69; 10]).
Proof. reflexivity. Qed.
