(* std.csv.format and std.csv.parse: asteria/src/library/csv.cpp.

   A table is a list of rows; the parser appends to the last cell through the
   pointer `cell`, which is modelled as a position (row, column), or null.
   Writing through null or to a cell that is not there is undefined.

   Simplifications: what is printed for null, booleans and numbers is given
   with the cell; opaque values, functions, arrays and objects, which are
   skipped, are `Skipped`; rows that are not arrays (an exception) are left
   out; reading from a file gives the same bytes. *)
From Verif Require Import Base.

Definition comma : Z := 44.
Definition quote : Z := 34.
Definition lf : Z := 10.
Definition cr : Z := 13.

Inductive cell : Type := Str (s : bytes) | Scalar (text : bytes) | Skipped.

(* csv.cpp:25-45; find_of comma, line feed, quotation mark *)
Definition needs_quotes (s : bytes) : bool :=
  existsb (fun c => (c =? comma) || (c =? lf) || (c =? quote)) s.
Fixpoint doubled (s : bytes) : bytes :=
  match s with [] => [] | c :: s => (if c =? quote then [quote; quote] else [c]) ++ doubled s end.
Definition print_cell (x : cell) : bytes :=
  match x with
  | Skipped => []
  | Str s => if needs_quotes s then quote :: doubled s ++ [quote] else s
  | Scalar t => t
  end.
(* csv.cpp:20-24 *)
Fixpoint print_cells (first : bool) (row : list cell) : bytes :=
  match row with
  | [] => []
  | x :: row => (if first then [] else [comma]) ++ print_cell x ++ print_cells false row
  end.
(* do_print_to, csv.cpp:13-50 *)
Fixpoint print_to (rows : list (list cell)) : bytes :=
  match rows with
  | [] => []
  | row :: rows => print_cells true row ++ [cr; lf] ++ print_to rows
  end.

(* repeated getline, rocket/cow_string.hpp:2505-2520: an empty line at the end
   of the stream is not returned *)
Fixpoint lines (line s : bytes) : list bytes :=
  match s with
  | [] => match line with [] => [] | _ => [line] end
  | c :: s => if c =? lf then line :: lines [] s else lines (line ++ [c]) s
  end.

(* cow_string::find(char): an offset *)
Fixpoint find_char (c : Z) (s : bytes) : option nat :=
  match s with
  | [] => None
  | x :: s => if x =? c then Some O else option_map S (find_char c s)
  end.

Record st : Type := mk_st {
  root : list (list bytes);
  cellp : option (nat * nat);
  quote_allowed : bool;
  quote_at_line : Z
}.

Inductive res : Type :=
  | Run (s : st)
  | Undefined
  | Fuel.

Fixpoint at_nth {B} (k : nat) (f : B -> option B) (l : list B) : option (list B) :=
  match k, l with
  | O, x :: l => option_map (fun y => y :: l) (f x)
  | S k, x :: l => option_map (cons x) (at_nth k f l)
  | _, [] => None
  end.

(* cell->append(s) *)
Definition append_cell (a : st) (s : bytes) : option st :=
  match cellp a with
  | None => None
  | Some (r, k) =>
      option_map (fun root' => mk_st root' (cellp a) (quote_allowed a) (quote_at_line a))
        (at_nth r (at_nth k (fun x => Some (x ++ s))) (root a))
  end.
Definition last_row (a : st) : option (list bytes) :=
  match rev (root a) with [] => None | r :: _ => Some r end.
(* row.emplace_back(V_string()); cell = &row.mut_back().open_string() *)
Definition new_cell (a : st) : option st :=
  match rev (root a) with
  | [] => None
  | r :: rest =>
      Some (mk_st (rev rest ++ [r ++ [[]]]) (Some (length rest, length r)) (quote_allowed a) (quote_at_line a))
  end.
Definition allow (a : st) (b : bool) : st := mk_st (root a) (cellp a) b (quote_at_line a).
Definition at_line (a : st) (n : Z) : st := mk_st (root a) (cellp a) (quote_allowed a) n.

Definition bind_st (o : option st) (f : st -> res) : res :=
  match o with Some a => f a | None => Undefined end.

(* the loop over a line, csv.cpp:78-133; [rest] is the line from `offset` on *)
Fixpoint scan (fuel : nat) (nlines : Z) (a : st) (rest : bytes) : res :=
  match fuel with
  | O => Fuel
  | S fuel =>
      match rest with
      | [] => Run a
      | c :: tl =>
          if quote_at_line a =? 0 then
            match last_row a with
            | None => Undefined
            | Some row =>
                bind_st (match row with [] => new_cell a | _ => Some a end) (fun a =>
                if quote_allowed a && (c =? quote) then scan fuel nlines (at_line a nlines) tl
                else match find_char comma rest with
                     | None => bind_st (append_cell a rest) (fun a => Run (allow a true))
                     | Some e =>
                         bind_st (append_cell a (firstn e rest)) (fun a =>
                         bind_st (new_cell (allow a true)) (fun a =>
                         scan fuel nlines a (skipn (e + 1) rest)))
                     end)
            end
          else match find_char quote rest with
               | None =>
                   bind_st (append_cell a rest) (fun a =>
                   bind_st (append_cell a [lf]) Run)
               | Some e =>
                   (* the character at size() is the terminator *)
                   if nth (e + 1) rest 0 =? quote then
                     bind_st (append_cell a (firstn (e + 1) rest)) (fun a =>
                     scan fuel nlines a (skipn (e + 2) rest))
                   else
                     bind_st (append_cell a (firstn e rest)) (fun a =>
                     scan fuel nlines (at_line (allow a false) 0) (skipn (e + 1) rest))
               end
      end
  end.

Definition strip_bom (s : bytes) : bytes :=
  match s with
  | a :: b :: c :: t => if (a =? 239) && (b =? 187) && (c =? 191) then t else s
  | _ => s
  end.
Fixpoint strip_cr (s : bytes) : bytes :=
  match s with
  | [] => []
  | [c] => if c =? cr then [] else [c]
  | c :: s => c :: strip_cr s
  end.

(* the loop over lines, csv.cpp:60-134 *)
Fixpoint over_lines (nlines : Z) (a : st) (ls : list bytes) : res :=
  match ls with
  | [] => Run a
  | line :: ls =>
      let nlines := nlines + 1 in
      let line := if nlines =? 1 then strip_bom line else line in
      let line := strip_cr line in
      let a := if quote_at_line a =? 0
               then mk_st (root a ++ [[]]) (cellp a) (quote_allowed a) (quote_at_line a) else a in
      match scan (S (length line)) nlines a line with
      | Run a => over_lines nlines a ls
      | r => r
      end
  end.

Inductive parsed : Type :=
  | Table (rows : list (list bytes))
  | Unmatched                        (* an exception *)
  | Wrong                            (* undefined behaviour *)
  | No_fuel.

(* do_parse_from, csv.cpp:52-138 *)
Definition parse_from (text : bytes) : parsed :=
  match over_lines 0 (mk_st [] None true 0) (lines [] text) with
  | Run a => if quote_at_line a =? 0 then Table (root a) else Unmatched
  | Undefined => Wrong
  | Fuel => No_fuel
  end.

(* std_csv_format and std_csv_parse, for tables of strings *)
Definition csv_format (rows : list (list bytes)) : bytes := print_to (map (map Str) rows).
Definition csv_parse (text : bytes) : parsed := parse_from text.
