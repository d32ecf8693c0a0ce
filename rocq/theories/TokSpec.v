(* What the tokenizer should do. *)
From Verif Require Import Base Text UtfSpec TokModel.

(* compiler/enums.hpp:12-73: the numbers of the punctuators, and their spelling
   as the comments there give it *)
Definition documented_punctuators : list (Z * bytes) :=
  [
   (0, str "+"); (1, str "+="); (2, str "-"); (3, str "-="); (4, str "*");
   (5, str "*="); (6, str "/"); (7, str "/="); (8, str "%"); (9, str "%=");
   (10, str "++"); (11, str "--"); (12, str "<<<"); (13, str "<<<="); (14, str ">>>");
   (15, str ">>>="); (16, str "<<"); (17, str "<<="); (18, str ">>"); (19, str ">>=");
   (20, str "&"); (21, str "&="); (22, str "&&"); (23, str "&&="); (24, str "|");
   (25, str "|="); (26, str "||"); (27, str "||="); (28, str "^"); (29, str "^=");
   (30, str "~"); (31, str "!"); (32, str "=="); (33, str "!="); (34, str "<");
   (35, str ">"); (36, str "<="); (37, str ">="); (38, str "."); (39, str "?");
   (40, str "?="); (41, str "="); (42, str "("); (43, str ")"); (44, str "[");
   (45, str "]"); (46, str "{"); (47, str "}"); (48, str ","); (49, str ":");
   (50, str ";"); (51, str "<=>"); (52, str "??"); (53, str "??="); (54, str "...");
   (55, str "[^]"); (56, str "[$]"); (57, str "->"); (58, str "::"); (59, str "[?]");
   (60, str "</>"); (61, str "#")
  ].

(* compiler/enums.hpp:76-136: the numbers of the keywords and their spelling:
   the comment, or the name of the enumerator where there is none *)
Definition documented_keywords : list (Z * bytes) :=
  [
   (0, str "var"); (1, str "const"); (2, str "func"); (3, str "if");
   (4, str "else"); (5, str "switch"); (6, str "case"); (7, str "default");
   (8, str "do"); (9, str "while"); (10, str "for"); (11, str "each");
   (12, str "try"); (13, str "catch"); (14, str "defer"); (15, str "break");
   (16, str "continue"); (17, str "throw"); (18, str "return"); (19, str "null");
   (20, str "true"); (21, str "false"); (22, str "import"); (23, str "ref");
   (24, str "this"); (25, str "unset"); (26, str "countof"); (27, str "typeof");
   (28, str "and"); (29, str "or"); (30, str "not"); (31, str "assert");
   (32, str "__sqrt"); (33, str "__isnan"); (34, str "__isinf"); (35, str "__abs");
   (36, str "__sign"); (37, str "__round"); (38, str "__floor"); (39, str "__ceil");
   (40, str "__trunc"); (41, str "__iround"); (42, str "__ifloor"); (43, str "__iceil");
   (44, str "__itrunc"); (45, str "__fma"); (46, str "extern"); (47, str "__vcall");
   (48, str "__lzcnt"); (49, str "__tzcnt"); (50, str "__popcnt"); (51, str "__addm");
   (52, str "__subm"); (53, str "__mulm"); (54, str "__adds"); (55, str "__subs");
   (56, str "__muls"); (57, str "__isvoid"); (58, str "__ifcomplete")
  ].

(* ---------- classes of characters, as the comments in utils.hpp:100-107 and
   the C standard give them ---------- *)
Definition digit (c : Z) : Prop := 48 <= c <= 57.
Definition letter (c : Z) : Prop := 65 <= c <= 90 \/ 97 <= c <= 122.
Definition xdigit (c : Z) : Prop := digit c \/ 65 <= c <= 70 \/ 97 <= c <= 102.
Definition name_start (c : Z) : Prop := letter c \/ c = 95.
Definition name_char (c : Z) : Prop := name_start c \/ digit c.
Definition blank (c : Z) : Prop := c = 32 \/ c = 9.
Definition space (c : Z) : Prop := c = 32 \/ 9 <= c <= 13.
Definition control (c : Z) : Prop := 0 <= c <= 31 \/ c = 127.

Definition is_prefix (w s : bytes) : Prop := exists r, s = w ++ r.

(* A name: not empty, starts with a letter or underscore *)
Definition name (w : bytes) : Prop :=
  exists c w', w = c :: w' /\ name_start c /\ Forall name_char w'.

(* r does not continue a name *)
Definition no_name_follows (r : bytes) : Prop := forall c r', r = c :: r' -> ~ name_char c.

(* ---------- how tokens are written ---------- *)
Definition optional_sign (w : bytes) : Prop := w = [] \/ w = [43] \/ w = [45].
Definition sign_of (neg : bool) (w : bytes) : Prop :=
  if neg then w = [45] else w = [] \/ w = [43].

(* digits with separators *)
Definition run (P : Z -> Prop) (w : bytes) : Prop := Forall (fun c => c = 96 \/ P c) w.
Definition without_separators (w : bytes) : bytes := filter (fun c => negb (c =? 96)) w.

Definition fraction (P : Z -> Prop) (has_point : bool) (w : bytes) : Prop :=
  (w = [] /\ has_point = false) \/ (exists d, w = 46 :: d /\ run P d /\ has_point = true).
Definition exponent (lower upper : Z) (w : bytes) : Prop :=
  w = [] \/ exists c sg d, w = c :: sg ++ d /\ (c = lower \/ c = upper) /\ optional_sign sg /\ run digit d.

(* The grammar in token_stream.cpp:203-210, without the sign *)
Inductive numeral : bool -> bytes -> Prop :=
| decimal_numeral c i hp f e :
    digit c -> run digit i -> fraction digit hp f -> exponent 101 69 e ->
    numeral hp (c :: i ++ f ++ e)
| radix_numeral m i hp f e :
    (m = 98 \/ m = 66 \/ m = 120 \/ m = 88) ->
    run xdigit i -> fraction xdigit hp f -> exponent 112 80 e ->
    numeral hp (48 :: m :: i ++ f ++ e).

(* A number may carry a sign only where an operator cannot follow: at the
   beginning, after an operator, and after a keyword that is not a value. *)
Definition value_keywords : list bytes := [str "null"; str "true"; str "false"; str "this"].
Definition closing_punctuators : list bytes :=
  [str "++"; str "--"; str "[^]"; str "[$]"; str ")"; str "]"; str "}"].
Definition ends_a_value (last : option token) : Prop :=
  match last with
  | None => False
  | Some (T_keyword k) => exists w, In (k, w) documented_keywords /\ In w value_keywords
  | Some (T_punctuator p) => exists w, In (p, w) documented_punctuators /\ In w closing_punctuators
  | Some _ => True
  end.

(* The text between the quotation marks of a literal, and the bytes it stands
   for *)
Definition hex_digits : list (Z * Z) :=
  [(48, 0); (49, 1); (50, 2); (51, 3); (52, 4); (53, 5); (54, 6); (55, 7); (56, 8); (57, 9);
   (65, 10); (66, 11); (67, 12); (68, 13); (69, 14); (70, 15);
   (97, 10); (98, 11); (99, 12); (100, 13); (101, 14); (102, 15)].
Inductive hexadecimal : bytes -> Z -> Prop :=
| hex_none : hexadecimal [] 0
| hex_more ds v c d : hexadecimal ds v -> In (c, d) hex_digits -> hexadecimal (ds ++ [c]) (16 * v + d).
(* escape sequences of one character, token_stream.cpp:545-591 *)
Definition escapes : list (Z * Z) :=
  [(39, 39); (34, 34); (92, 92); (63, 63); (47, 47); (97, 7); (98, 8); (102, 12); (110, 10);
   (114, 13); (116, 9); (118, 11); (48, 0); (90, 26); (101, 27)].
Inductive denotes : bytes -> bytes -> Prop :=
| denotes_nothing : denotes [] []
| denotes_itself c w v : c <> 0 -> c <> 34 -> c <> 92 -> denotes w v -> denotes (c :: w) (c :: v)
| denotes_escape e c w v : In (e, c) escapes -> denotes w v -> denotes (92 :: e :: w) (c :: v)
| denotes_byte ds b w v : length ds = 2%nat -> hexadecimal ds b -> denotes w v ->
    denotes (92 :: 120 :: ds ++ w) (b :: v)
| denotes_short ds cp w v : length ds = 4%nat -> hexadecimal ds cp -> scalar cp -> denotes w v ->
    denotes (92 :: 117 :: ds ++ w) (rfc3629 cp ++ v)
| denotes_long ds cp w v : length ds = 6%nat -> hexadecimal ds cp -> scalar cp -> denotes w v ->
    denotes (92 :: 85 :: ds ++ w) (rfc3629 cp ++ v).
(* between single quotation marks everything stands for itself *)
Definition raw_text (w : bytes) : Prop := Forall (fun c => c <> 0 /\ c <> 39) w.

Definition comment_text (w : bytes) : Prop := Forall (fun c => 0 < c < 128 /\ c <> 10) w.

Definition special_names : list bytes := [str "nan"; str "NaN"; str "infinity"; str "Infinity"].

(* The text w may stand for the token t after the token `last` *)
Inductive spelled (conv : bool -> bytes -> option token) (last : option token) : token -> bytes -> Prop :=
| spelled_keyword k w : In (k, w) documented_keywords -> spelled conv last (T_keyword k) w
| spelled_punctuator p w : In (p, w) documented_punctuators -> spelled conv last (T_punctuator p) w
| spelled_identifier w :
    name w -> (forall k, ~ In (k, w) documented_keywords) -> ~ In w special_names ->
    spelled conv last (T_identifier w) w
| spelled_literal w v : comment_text w -> denotes w v -> spelled conv last (T_string v) (34 :: w ++ [34])
| spelled_raw w : comment_text w -> raw_text w -> spelled conv last (T_string w) (39 :: w ++ [39])
| spelled_number sg hp w t :
    optional_sign sg -> (sg = [] \/ ~ ends_a_value last) -> numeral hp w ->
    conv hp (without_separators (sg ++ w)) = Some t ->
    spelled conv last t (sg ++ w)
| spelled_nan neg sg w :
    sign_of neg sg -> (sg = [] \/ ~ ends_a_value last) -> w = str "nan" \/ w = str "NaN" ->
    spelled conv last (T_real (if neg then 0xFFF8000000000000 else 0x7FF8000000000000)) (sg ++ w)
| spelled_infinity neg sg w :
    sign_of neg sg -> (sg = [] \/ ~ ends_a_value last) -> w = str "infinity" \/ w = str "Infinity" ->
    spelled conv last (T_real (if neg then 0xFFF0000000000000 else 0x7FF0000000000000)) (sg ++ w).

Definition spacing (c : Z) : Prop := c = 32 \/ c = 9 \/ c = 11 \/ c = 12 \/ c = 13.
(* One line of source with the tokens on it: tokens with space in between, and
   comments *)
Inductive line_of (conv : bool -> bytes -> option token) : option token -> list token -> bytes -> Prop :=
| line_end last : line_of conv last [] []
| line_space last ts c s : spacing c -> line_of conv last ts s -> line_of conv last ts (c :: s)
| line_comment last w : comment_text w -> line_of conv last [] (str "//" ++ w)
| line_block_comment last ts w s :
    comment_text w -> ~ In 42 w -> line_of conv last ts s ->
    line_of conv last ts (str "/*" ++ w ++ str "*/" ++ s)
| line_last_token last t w : spelled conv last t w -> line_of conv last [t] w
| line_token last t w c ts s :
    spelled conv last t w -> spacing c -> line_of conv (Some t) ts s ->
    line_of conv last (t :: ts) (w ++ c :: s).

Definition last_of (last : option token) (ts : list token) : option token :=
  match rev ts with [] => last | t :: _ => Some t end.

(* A text of such lines *)
Inductive text_of (conv : bool -> bytes -> option token) : option token -> list token -> bytes -> Prop :=
| text_end last ts s : line_of conv last ts s -> text_of conv last ts s
| text_line last ts s ts' s' :
    line_of conv last ts s -> text_of conv (last_of last ts) ts' s' ->
    text_of conv last (ts ++ ts') (s ++ 10 :: s').
