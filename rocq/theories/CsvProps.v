From Verif Require Import Base Text CsvModel CsvSpec CsvProofs CsvProofs4.

(* ------------------------------------------------------------------ *)
(* C27: exactly these tables of strings come back *)
Theorem C27_round_trip_partial : forall rows,
  csv_parse (csv_format rows) = Table rows <-> survives rows.
Proof. exact round_trip. Qed.
Print Assumptions C27_round_trip_partial.

(* the parser never writes through a null or dangling pointer *)
Theorem C27_defined : forall text, csv_parse text <> Wrong /\ csv_parse text <> No_fuel.
Proof. exact parse_defined. Qed.
Print Assumptions C27_defined.

(* two rows, each with one cell that has a comma in it *)
Theorem C27_rows_refuted : exists rows,
  csv_parse (csv_format rows) = Table [[str "a,b"]; [quote :: str "c"; str "d" ++ [quote]]]
  /\ rows = [[str "a,b"]; [str "c,d"]].
Proof. exists [[str "a,b"]; [str "c,d"]]. split; [vm_compute; reflexivity|reflexivity]. Qed.
Print Assumptions C27_rows_refuted.

(* an empty line within a cell is lost, and so is the line feed after CR *)
Theorem C27_lines_refuted : exists rows,
  csv_parse (csv_format rows) = Table [[[97; 10; 98]; [97; 10; 98]; [98]]]
  /\ rows = [[[97; 10; 10; 98]; [97; 13; 10; 98]; [10; 98]]].
Proof. eexists. split; [|reflexivity]. vm_compute. reflexivity. Qed.
Print Assumptions C27_lines_refuted.

(* a row with one empty cell comes back without cells *)
Theorem C27_empty_refuted : exists rows, csv_parse (csv_format rows) = Table [[]] /\ rows = [[[]]].
Proof. exists [[[]]]. split; [vm_compute; reflexivity|reflexivity]. Qed.
Print Assumptions C27_empty_refuted.

(* ------------------------------------------------------------------ *)
Definition quoted : bytes := str "say " ++ [quote] ++ str "hi" ++ [quote] ++ str ", twice".
Definition table : list (list bytes) :=
  [[str "name"; quoted; str "two" ++ [lf] ++ str "lines"; []];
   [str ""; str ""];
   [];
   [str "x,y"; str "z" ++ [cr]]].
Example C27_ex_text : csv_format table
  = str "name," ++ [quote] ++ str "say " ++ [quote; quote] ++ str "hi" ++ [quote; quote] ++ str ", twice" ++ [quote]
    ++ [comma; quote] ++ str "two" ++ [lf] ++ str "lines" ++ [quote; comma; cr; lf; comma; cr; lf; cr; lf; quote]
    ++ str "x,y" ++ [quote; comma] ++ str "z" ++ [cr; cr; lf].
Proof. vm_compute. reflexivity. Qed.
Example C27_ex_round : csv_parse (csv_format table) = Table table.
Proof. vm_compute. reflexivity. Qed.
Example C27_ex_unmatched : csv_parse (str "a," ++ [quote] ++ str "b") = Unmatched.
Proof. vm_compute. reflexivity. Qed.
Example C27_ex_mark : csv_parse (csv_format [[[239; 187; 191; 65]; [66]]]) = Table [[[65]; [66]]].
Proof. vm_compute. reflexivity. Qed.
Example C27_ex_scalars : print_to [[Str (str "k"); Scalar (str "null"); Skipped; Scalar (str "42")]]
  = csv_format [[str "k"; str "null"; []; str "42"]].
Proof. vm_compute. reflexivity. Qed.
