(* What a template means, and what a log record looks like. *)
From Verif Require Import Base Text ValueModel FmtModel.

Local Open Scope Z_scope.

(* [k] decimal digits of [n] *)
Fixpoint dec (k : nat) (n : Z) : bytes :=
  match k with
  | O => []
  | S k => dec k (n / 10) ++ [48 + n mod 10]
  end.

(* the shortest decimal text of a number that is not negative *)
Definition decimal (n : Z) (text : bytes) : Prop :=
  exists k, text = dec (S k) n /\ n < 10 ^ Z.of_nat (S k) /\ (k <> O -> 10 ^ Z.of_nat k <= n).

(* a broken-down time as the C library gives it, in a year of at most four digits *)
Definition tm_ok (t : tm) : Prop :=
  -1900 <= tm_year t <= 8099 /\ 0 <= tm_mon t <= 11 /\ 1 <= tm_mday t <= 31 /\
  0 <= tm_hour t <= 23 /\ 0 <= tm_min t <= 59 /\ 0 <= tm_sec t <= 60 /\
  -86400 <= tm_gmtoff t <= 86400.
Definition sys_ok (s : system) : Prop :=
  - 2 ^ 31 <= errno s < 2 ^ 31 /\ 0 <= tv_nsec s < 10 ^ 9 /\
  tm_ok (local_tm s) /\ tm_ok (utc_tm s) /\ tm_gmtoff (utc_tm s) = 0.

(* 2014-09-26 00:58:26.123456789 *)
Definition date_text (t : tm) (nsec : Z) : bytes :=
  dec 4 (tm_year t + 1900) ++ str "-" ++ dec 2 (tm_mon t + 1) ++ str "-" ++ dec 2 (tm_mday t)
  ++ str " " ++ dec 2 (tm_hour t) ++ str ":" ++ dec 2 (tm_min t) ++ str ":" ++ dec 2 (tm_sec t)
  ++ str "." ++ dec 9 nsec.

(* +0800 and -0330; the offset zero is written as UTC, followed by a null byte and a zero *)
Definition zone_text (off : Z) : bytes :=
  if off =? 0 then str "UTC" ++ [0; 48]
  else (if off <=? -60 then str "-" else str "+")
       ++ dec 2 (Z.abs off / 3600) ++ dec 2 (Z.abs off / 60 mod 60).

Definition time_text (t : tm) (nsec : Z) : bytes :=
  date_text t nsec ++ str " " ++ zone_text (tm_gmtoff t).

(* the pieces of a template *)
Inductive piece :=
  | Lit (c : Z)            (* a character that stands for itself *)
  | Num (n : Z)            (* an argument, or the template itself if zero *)
  | Unknown                (* a name without a meaning *)
  | Empty | Errno | Errno_str | Errno_full | Time | Time_utc.

(* the number that a string of decimal digits denotes *)
Inductive numeral : bytes -> Z -> Prop :=
  | N_nil : numeral [] 0
  | N_snoc ds n d : numeral ds n -> 0 <= d <= 9 -> numeral (ds ++ [48 + d]) (10 * n + d).

Definition builtin (name : bytes) (p : piece) : Prop :=
  (name = [] /\ p = Empty) \/ (name = str "errno" /\ p = Errno) \/
  (name = str "errno:str" /\ p = Errno_str) \/ (name = str "errno:full" /\ p = Errno_full) \/
  (name = str "time" /\ p = Time) \/ (name = str "time:utc" /\ p = Time_utc).

Inductive named (name : bytes) : piece -> Prop :=
  | Nm_builtin p : builtin name p -> named name p
  | Nm_num n : name <> [] -> numeral name n -> named name (Num n)
  | Nm_unknown : (forall p, ~ builtin name p) -> (forall n, ~ numeral name n) ->
    named name Unknown.

(* the grammar of templates *)
Inductive template : bytes -> list piece -> Prop :=
  | T_nil : template [] []
  | T_lit c t ps : c <> 36 -> c <> 0 -> template t ps -> template (c :: t) (Lit c :: ps)
  | T_dollar t ps : template t ps -> template (36 :: 36 :: t) (Lit 36 :: ps)
  | T_digit d t ps : 0 <= d <= 9 -> template t ps ->
    template (36 :: 48 + d :: t) (Num d :: ps)
  | T_brace name p t ps : ~ In 125 name -> ~ In 0 name -> named name p -> template t ps ->
    template (36 :: 123 :: name ++ 125 :: t) (p :: ps).

(* what a piece puts *)
Inductive puts (s : system) (templ : bytes) (args : list bytes) : piece -> bytes -> Prop :=
  | P_lit c : puts s templ args (Lit c) [c]
  | P_self : puts s templ args (Num 0) templ
  | P_arg n text : 1 <= n -> nth_error args (Z.to_nat (n - 1)) = Some text ->
    puts s templ args (Num n) text
  | P_none n : Z.of_nat (length args) < n -> puts s templ args (Num n) (str "(no arg)")
  | P_unknown : puts s templ args Unknown (str "(no arg)")
  | P_empty : puts s templ args Empty []
  | P_errno text : 0 <= errno s -> decimal (errno s) text -> puts s templ args Errno text
  | P_errno_neg text : errno s < 0 -> decimal (- errno s) text ->
    puts s templ args Errno (str "-" ++ text)
  | P_errno_str : puts s templ args Errno_str (strerror s)
  | P_errno_full text : puts s templ args Errno text ->
    puts s templ args Errno_full (strerror s ++ str " (errno " ++ text ++ str ")")
  | P_time : puts s templ args Time (time_text (local_tm s) (tv_nsec s))
  | P_time_utc : puts s templ args Time_utc (time_text (utc_tm s) (tv_nsec s)).

Definition composed (s : system) (templ : bytes) (args : list bytes) (ps : list piece)
  (out : bytes) : Prop :=
  exists texts, Forall2 (puts s templ args) ps texts /\ out = concat texts.

(* the template that stands for [text] *)
Definition quote (text : bytes) : bytes :=
  concat (map (fun c => if c =? 36 then [36; 36] else [c]) text).

(* the greatest number of arguments that can all be referred to *)
Definition max_args : Z := 655349.

(* control characters, and text in which the only ones are tabs and ESC E (next line) *)
Definition control (c : Z) : Prop := 0 <= c < 32 \/ c = 127.
Inductive printable : bytes -> Prop :=
  | Pr_nil : printable []
  | Pr_char c t : ~ control c -> printable t -> printable (c :: t)
  | Pr_tab t : printable t -> printable (9 :: t)
  | Pr_line t : printable t -> printable (27 :: 69 :: t).

(* what an argument of std.string.format is replaced with: strings are not quoted *)
Definition arg_text (print_to : value -> bytes) (v : value) : bytes :=
  match v with VStr s => s | _ => print_to v end.

(* the usual abbreviations of the control characters *)
Definition abbreviations : list bytes :=
  [ str "NUL"; str "SOH"; str "STX"; str "ETX"; str "EOT"; str "ENQ"; str "ACK"; str "BEL";
    str "BS"; str "HT"; str "LF"; str "VT"; str "FF"; str "CR"; str "SO"; str "SI";
    str "DLE"; str "DC1"; str "DC2"; str "DC3"; str "DC4"; str "NAK"; str "SYN"; str "ETB";
    str "CAN"; str "EM"; str "SUB"; str "ESC"; str "FS"; str "GS"; str "RS"; str "US" ].

Definition next_line : bytes := [27; 69].

(* how a byte of a message is shown in the log *)
Inductive shown : Z -> bytes -> Prop :=
  | Sh_char c : 32 <= c -> c <> 127 -> shown c [c]
  | Sh_tab : shown 9 [9]
  | Sh_line : shown 10 (next_line ++ [9])
  | Sh_return : shown 13 []
  | Sh_control c name : 0 <= c -> c <> 9 -> c <> 10 -> c <> 13 ->
    nth_error abbreviations (Z.to_nat c) = Some name -> shown c (str "[" ++ name ++ str "]")
  | Sh_del : shown 127 (str "[DEL]").

Definition blank (c : Z) : Prop := c = 32 \/ 9 <= c <= 13.

(* [r] is [l] without the blank characters at its end *)
Definition stripped (l r : bytes) : Prop :=
  exists w, l = r ++ w /\ Forall blank w /\ (r = [] \/ exists q c, r = q ++ [c] /\ ~ blank c).

(* when a record is written: in a year of four digits, for a line of a source file *)
Definition log_ok (s : system) (line : Z) : Prop :=
  sys_ok s /\ -900 <= tm_year (local_tm s) /\ 0 <= line < 2 ^ 63.

(* a system to try things on: Shanghai, 2014-09-26 08:58:26, errno is ENOENT *)
Definition shanghai : system :=
  Sys 2 (str "No such file or directory") 123456789
      (Tm 114 8 26 8 58 26 28800) (Tm 114 8 26 0 58 26 0).
