From Verif Require Import Base Monad Text IniModel IniSpec IniProofs IniProofs2 IniProofs3.

(* ------------------------------------------------------------------ *)
(* C28: of the objects that the formatter accepts, exactly those come back
   whose keys and values have no line feed and whose first key has no byte
   order mark *)
Theorem C28_round_trip_partial : forall o text, strings_only o -> ini_format o = Ok text ->
  ((exists m, ini_parse text = Ok m /\ same m o) <-> lines_ok o /\ mark_ok o).
Proof. exact round_trip. Qed.
Print Assumptions C28_round_trip_partial.

(* the parser is undefined exactly for texts with a section named like a
   string at the root *)
Theorem C28_undefined_partial : forall text, ini_parse text = UB <-> collision (lines [] text).
Proof. exact undefined_iff. Qed.
Print Assumptions C28_undefined_partial.

Theorem C28_collision_refuted : exists text, ini_parse text = UB /\ text = str "a=1" ++ [10] ++ str "[a]".
Proof. eexists. split; [|reflexivity]. vm_compute. reflexivity. Qed.
Print Assumptions C28_collision_refuted.

(* a value with a line feed is accepted and comes back as several entries *)
Theorem C28_newline_refuted : exists o text m, strings_only o /\ ini_format o = Ok text /\ ini_parse text = Ok m
  /\ m = [(str "a", PStr (str "1")); (str "b", PStr [])] /\ o = [(str "a", Scalar (IStr (str "1" ++ [10] ++ str "b")))].
Proof.
  eexists _, _, _. split; [|split; [|split; [|split; [|reflexivity]]]].
  - split; [repeat constructor; intros []|]. intros k e [H|[]]. injection H as <- <-. eexists. reflexivity.
  - vm_compute. reflexivity.
  - vm_compute. reflexivity.
  - reflexivity.
Qed.
Print Assumptions C28_newline_refuted.

(* ------------------------------------------------------------------ *)
Definition conf : object :=
  [(str "net", Section_ [(str "host name", IStr (str "::1")); (str "path", IStr []); (str "q", IStr [34; 13])]);
   (str "title", Scalar (IStr (str "a b")));
   (str "none", Section_ []);
   (str "count", Scalar (IStr (str "1")))].
Example C28_ex_text : ini_format conf
  = Ok (str "title=a b" ++ [13; 10] ++ str "count=1" ++ [13; 10; 13; 10] ++ str "[net]" ++ [13; 10]
        ++ str "host name=::1" ++ [13; 10] ++ str "path=" ++ [13; 10] ++ str "q=" ++ [34; 13; 13; 10; 13; 10]
        ++ str "[none]" ++ [13; 10]).
Proof. vm_compute. reflexivity. Qed.
Example C28_ex_round : (do t <- ini_format conf ; ini_parse t)
  = Ok [(str "title", PStr (str "a b")); (str "count", PStr (str "1"));
        (str "net", PSec [(str "host name", str "::1"); (str "path", []); (str "q", [34; 13])]);
        (str "none", PSec [])].
Proof. vm_compute. reflexivity. Qed.
Example C28_ex_mark : (do t <- ini_format [([239; 187; 191; 65], Scalar (IStr [66]))] ; ini_parse t) = Ok [([65], PStr [66])].
Proof. vm_compute. reflexivity. Qed.
Example C28_ex_parse : ini_parse (str " k = v ; x" ++ [10] ++ str "[ s ]" ++ [13; 10] ++ str "flag" ++ [10] ++ str "a=b=c#")
  = Ok [(str "k", PStr (str "v")); (str " s ", PSec [(str "flag", []); (str "a", str "b=c")])].
Proof. vm_compute. reflexivity. Qed.
Example C28_ex_errors : ini_parse (str "[ ]") = Throw /\ ini_parse (str " = 1") = Throw
  /\ ini_format [(str " a", Scalar (IStr []))] = Throw /\ ini_format [(str "a", Scalar (IStr (str "#")))] = Throw.
Proof. vm_compute. repeat split. Qed.
