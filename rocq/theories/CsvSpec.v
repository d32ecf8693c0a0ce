(* Which tables of strings survive std.csv.format followed by std.csv.parse. *)
From Verif Require Import Base.

(* contains a comma, a line feed or a quotation mark *)
Definition special (s : bytes) : Prop := In 44 s \/ In 10 s \/ In 34 s.

(* every line feed follows a character other than line feed, carriage return
   and quotation mark *)
Definition breaks_ok (s : bytes) : Prop :=
  forall p q, s = p ++ 10 :: q -> exists p' c, p = p' ++ [c] /\ c <> 10 /\ c <> 13 /\ c <> 34.

Definition starts_special (row : list bytes) : Prop := exists s row', row = s :: row' /\ special s.
Definition ends_special (row : list bytes) : Prop := exists s row', row = row' ++ [s] /\ special s.

(* no row that ends in a special cell is followed by one that starts with a
   special cell, with only rows without cells in between *)
Definition apart (rows : list (list bytes)) : Prop :=
  forall p r1 mid r2 q, rows = p ++ r1 :: mid ++ r2 :: q ->
    ends_special r1 -> Forall (fun r => r = []) mid -> ~ starts_special r2.

Definition survives (rows : list (list bytes)) : Prop :=
  Forall (fun row => row <> [[]] /\ Forall breaks_ok row) rows
  /\ apart rows
  /\ forall s row q, rows = (([239; 187; 191] ++ s) :: row) :: q -> special s.
