(* std.ini.format and std.ini.parse: asteria/src/library/ini.cpp.

   An object is an association list in the order in which it is iterated over.
   The parser's result is one too; `try_emplace` and `insert_or_assign` append
   new keys at the end.  `sink` is the name of a section, or none for the root.
   `ASTERIA_ASSERT(sub.is_object())`, which is not checked in release builds,
   is undefined when it does not hold.

   Simplifications: what is printed for null, booleans and numbers is given
   with the value; opaque values, functions and arrays, and objects within
   sections, which are skipped, are `Skip`; line numbers of errors are left
   out; reading from a file gives the same bytes.  Lines, the byte order mark
   and CR are treated by the same code as in csv.cpp (see CsvModel). *)
From Verif Require Import Base Monad.
From Verif Require CsvModel.

Definition lines := CsvModel.lines.
Definition strip_bom := CsvModel.strip_bom.
Definition strip_cr := CsvModel.strip_cr.
Definition lf : Z := 10.
Definition cr : Z := 13.
Definition eq_sign : Z := 61.
Definition open_b : Z := 91.
Definition close_b : Z := 93.

(* ini.cpp:13-15 *)
Definition is_reject (c : Z) : bool := existsb (Z.eqb c) [91; 93; 61; 59; 35].
Definition is_comment (c : Z) : bool := existsb (Z.eqb c) [59; 35].
Definition is_space (c : Z) : bool := existsb (Z.eqb c) [32; 9].

Inductive item : Type := IStr (s : bytes) | IText (t : bytes) | Skip.
Inductive entry : Type := Scalar (i : item) | Section_ (l : list (bytes * item)).
Definition object := list (bytes * entry).

Definition first_is (f : Z -> bool) (s : bytes) : bool := match s with c :: _ => f c | [] => false end.
Definition last_is (f : Z -> bool) (s : bytes) : bool := first_is f (rev s).

(* do_format_key, 17-33 *)
Definition format_key (key : bytes) : outcome bytes :=
  match key with
  | [] => Throw
  | _ =>
      if existsb is_reject key then Throw
      else if first_is is_space key then Throw
      else if last_is is_space key then Throw
      else Ok key
  end.
(* do_format_check_scalar, 35-74 *)
Definition check_scalar (v : item) : outcome bool :=
  match v with
  | IText _ => Ok true
  | IStr [] => Ok true
  | IStr s =>
      if existsb is_reject s then Throw
      else if first_is is_space s then Throw
      else if last_is is_space s then Throw
      else Ok true
  | Skip => Ok false
  end.
Definition print_item (v : item) : bytes :=
  match v with IStr s => s | IText t => t | Skip => [] end.

(* the lines that are written for a property, 82-94 and 110-121 *)
Definition format_property (k : bytes) (v : item) : outcome (list bytes) :=
  do ok <- check_scalar v ;
  if ok then do k <- format_key k ; Ok [k ++ [eq_sign] ++ print_item v] else Ok [].
Fixpoint format_items (l : list (bytes * item)) : outcome (list bytes) :=
  match l with
  | [] => Ok []
  | (k, v) :: l =>
      do a <- format_property k v ;
      do b <- format_items l ;
      Ok (a ++ b)
  end.
Fixpoint format_root (o : object) : outcome (list bytes) :=
  match o with
  | [] => Ok []
  | (k, Scalar v) :: o =>
      do a <- format_property k v ;
      do b <- format_root o ;
      Ok (a ++ b)
  | (_, Section_ _) :: o => format_root o
  end.
(* 97-122; [any]: nlines != 0 *)
Fixpoint format_sections (any : bool) (o : object) : outcome (list bytes) :=
  match o with
  | [] => Ok []
  | (_, Scalar _) :: o => format_sections any o
  | (k, Section_ l) :: o =>
      do k <- format_key k ;
      do a <- format_items l ;
      do b <- format_sections true o ;
      Ok ((if any then [[]] else []) ++ [[open_b] ++ k ++ [close_b]] ++ a ++ b)
  end.
(* do_format_to, 76-123: every line ends with CR LF *)
Definition ini_format (o : object) : outcome bytes :=
  do a <- format_root o ;
  do b <- format_sections (match a with [] => false | _ => true end) o ;
  Ok (concat (map (fun l => l ++ [cr; lf]) (a ++ b))).

(* ---- parsing ---- *)
Inductive pval : Type := PStr (s : bytes) | PSec (l : list (bytes * bytes)).
Definition beqb (a b : bytes) : bool := if list_eq_dec Z.eq_dec a b then true else false.

Fixpoint lookup {B} (k : bytes) (l : list (bytes * B)) : option B :=
  match l with
  | [] => None
  | (k', v) :: l => if beqb k' k then Some v else lookup k l
  end.
(* insert_or_assign *)
Fixpoint assign {B} (k : bytes) (v : B) (l : list (bytes * B)) : list (bytes * B) :=
  match l with
  | [] => [(k, v)]
  | (k', v') :: l => if beqb k' k then (k', v) :: l else (k', v') :: assign k v l
  end.

Fixpoint ltrim (s : bytes) : bytes :=
  match s with [] => [] | c :: t => if is_space c then ltrim t else s end.
Definition rtrim (s : bytes) : bytes := rev (ltrim (rev s)).
(* line.erase(line.find_of(s_comment)) *)
Fixpoint strip_comment (s : bytes) : bytes :=
  match s with [] => [] | c :: t => if is_comment c then [] else c :: strip_comment t end.
(* the parts before and after the first `=` *)
Fixpoint split_eq (s : bytes) : option (bytes * bytes) :=
  match s with
  | [] => None
  | c :: t => if c =? eq_sign then Some ([], t)
              else option_map (fun '(a, b) => (c :: a, b)) (split_eq t)
  end.

Inductive what : Type :=
  | Blank
  | Header (k : bytes)
  | Property (k v : bytes).

(* one line, 138-204 *)
Definition read_line (first : bool) (line : bytes) : outcome what :=
  let line := if first then strip_bom line else line in
  let line := strip_cr line in
  let line := strip_comment line in
  let line := ltrim line in
  match line with
  | [] => Ok Blank
  | _ =>
      let line := rtrim line in
      if first_is (Z.eqb open_b) line then
        if negb (last_is (Z.eqb close_b) line) then Throw
        else let inner := removelast (tl line) in
             (* find_not_of(1, s_space) == size() - 1 *)
             match ltrim inner with
             | [] => Throw
             | _ => Ok (Header inner)
             end
      else match split_eq line with
           | None => Ok (Property line [])
           | Some (a, b) =>
               match rtrim a with
               | [] => Throw
               | k => Ok (Property k (ltrim b))
               end
           end
  end.

(* the loop, 133-205; [first]: this is line 1 *)
Fixpoint read_lines (first : bool) (sink : option bytes) (root : list (bytes * pval)) (ls : list bytes)
  : outcome (list (bytes * pval)) :=
  match ls with
  | [] => Ok root
  | line :: ls =>
      do w <- read_line first line ;
      match w with
      | Blank => read_lines false sink root ls
      | Header k =>
          (* root.try_emplace(key, V_object()) *)
          match lookup k root with
          | None => read_lines false (Some k) (assign k (PSec []) root) ls
          | Some (PSec _) => read_lines false (Some k) root ls
          | Some (PStr _) => UB
          end
      | Property k v =>
          match sink with
          | None => read_lines false sink (assign k (PStr v) root) ls
          | Some sec =>
              match lookup sec root with
              | Some (PSec l) => read_lines false sink (assign sec (PSec (assign k v l)) root) ls
              | _ => UB
              end
          end
      end
  end.
(* do_parse_from *)
Definition ini_parse (text : bytes) : outcome (list (bytes * pval)) :=
  read_lines true None [] (lines [] text).
