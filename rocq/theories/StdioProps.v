(* C77: std.io.getc, getln, putc, putln and read *)
From Verif Require Import Base Text UtfSpec StdioModel StdioSpec StdioProofs.

(* Lines that are written are read back, and then the end of input is found. *)
Theorem C77_lines : forall bad lines, (forall k, bad k = false) -> Forall (fun l => Forall scalar l /\ ~ In LF l) lines ->
  exists out, puts bad [] (map text_of lines) = (out, Ok tt) /\
    gets (S (length lines)) (map Some out) = Ok (map Some (map text_of lines) ++ [None]).
Proof. exact lines_back. Qed.
Print Assumptions C77_lines.

(* A line ends before the first LF, or at the end of input if that is not where
   it starts; the LF is taken away. *)
Theorem C77_getln : forall inp line rest, Forall scalar inp -> inp <> [] -> line_of inp line rest ->
  io_getln (map Some inp) = (map Some rest, Ok (Some (text_of line))).
Proof. exact getln_ok. Qed.
Print Assumptions C77_getln.
Theorem C77_line_exists : forall inp, exists line rest, line_of inp line rest.
Proof. exact line_exists. Qed.
Print Assumptions C77_line_exists.

(* read errors and characters that are not in Unicode, before the end of the line *)
Theorem C77_getln_error : forall line x rest, Forall scalar line -> ~ In LF line ->
  match x with None => True | Some w => 0 <= w < 2 ^ 32 /\ ~ scalar w end ->
  io_getln (map Some line ++ x :: rest) = (rest, Throw).
Proof. exact getln_error. Qed.
Print Assumptions C77_getln_error.

(* The characters of a string are written, and counted.  If it is malformed or
   there is an error, those before that have been written. *)
Theorem C77_putc_string : forall bad out text, all_bytes text ->
  exists cps pre rest r, io_putc_string bad out text = (out ++ cps, r) /\ text = pre ++ rest /\ spells pre cps /\
    ((r = Ok (Z.of_nat (length cps)) /\ rest = []) \/
     (r = Throw /\ (malformed rest \/ rest <> [] /\ bad (length (out ++ cps)) = true))).
Proof. exact putc_string_ok. Qed.
Print Assumptions C77_putc_string.
Theorem C77_putln : forall bad out text, all_bytes text ->
  exists cps pre rest r, io_putln bad out text = (out ++ cps, r) /\ text = pre ++ rest /\
    ((r = Ok (Z.of_nat (length cps)) /\ rest = [] /\ exists line, cps = line ++ [LF] /\ spells pre line) \/
     (r = Throw /\ spells pre cps /\ (malformed rest \/ bad (length (out ++ cps)) = true))).
Proof. exact putln_ok. Qed.
Print Assumptions C77_putln.

(* exactly the Unicode characters can be written *)
Theorem C77_putc_integer : forall bad out v,
  (scalar v /\ bad (length out) = false /\ io_putc_integer bad out v = (out ++ [v], Ok 1)) \/
  ((~ scalar v \/ bad (length out) = true) /\ io_putc_integer bad out v = (out, Throw)).
Proof. exact putc_integer_ok. Qed.
Print Assumptions C77_putc_integer.

(* Reading gives the bytes there are, no more than the limit, and takes no more
   away; null is given only if nothing could be read. *)
Theorem C77_read : forall fails limit inp eof,
  let n := at_most limit in
  (n <= Z.of_nat (length inp) /\ io_read fails limit inp eof =
     (skipn (Z.to_nat n) inp, eof, Ok (if (n =? 0) && eof then None else Some (firstn (Z.to_nat n) inp)))) \/
  (Z.of_nat (length inp) < n /\ fails = true /\ io_read fails limit inp eof = ([], eof, Throw)) \/
  (Z.of_nat (length inp) < n /\ fails = false /\ inp <> [] /\ io_read fails limit inp eof = ([], true, Ok (Some inp))) \/
  (Z.of_nat (length inp) < n /\ fails = false /\ inp = [] /\ io_read fails limit inp eof = ([], true, Ok None)).
Proof. exact read_ok. Qed.
Print Assumptions C77_read.

(* examples *)
Example C77_ex_lines : puts (fun _ => false) [] [str "ab"; []; [0xE2; 0x82; 0xAC]] = ([97; 98; 10; 10; 0x20AC; 10], Ok tt) /\
  gets 4 (map Some [97; 98; 10; 10; 0x20AC; 10]) = Ok [Some (str "ab"); Some []; Some [0xE2; 0x82; 0xAC]; None].
Proof. vm_compute. split; reflexivity. Qed.
Example C77_ex_getln : io_getln (map Some [97; 98]) = ([], Ok (Some (str "ab"))) /\
  io_getln (map Some [97; 0xD800; 98]) = ([Some 98], Throw) /\ io_getc [Some 97; None] = ([None], Ok (Some 97)).
Proof. vm_compute. repeat split. Qed.
(* the text before the malformed part has been written; only three fit *)
Example C77_ex_put : io_putc_string (fun _ => false) [] (str "ab" ++ [0xFF; 99]) = ([97; 98], Throw) /\
  io_putln (Nat.eqb 3) [] (str "abcd") = ([97; 98; 99], Throw) /\ io_putln (Nat.eqb 3) [] (str "abc") = ([97; 98; 99], Throw) /\
  io_putln (fun _ => false) [] [0xC3; 0xA8] = ([0xE8; 10], Ok 2) /\
  io_putc_integer (fun _ => false) [] 0x110000 = ([], Throw) /\ io_putc_integer (fun _ => false) [] 0x1F600 = ([0x1F600], Ok 1).
Proof. vm_compute. repeat split. Qed.
Example C77_ex_read : io_read false (Some 3) (str "abcde") false = (str "de", false, Ok (Some (str "abc"))) /\
  io_read false None (repeat 7 1000) false = ([], true, Ok (Some (repeat 7 1000))) /\
  io_read false None [] false = ([], true, Ok None) /\ io_read false (Some 0) [] false = ([], false, Ok (Some [])) /\
  io_read true (Some 9) (str "abcde") false = ([], false, Throw).
Proof. vm_compute. repeat split. Qed.
