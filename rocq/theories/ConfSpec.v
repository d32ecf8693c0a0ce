(* What a configuration file is: a grammar of characters and one of tokens.  Of the model,
   only the type of values is used. *)
From Verif Require Import Base Text UtfSpec NumSpec.
From Verif Require ConfModel.
Import ConfModel (cval, VNull, VBool, VInt, VReal, VStr, VArr, VObj).

Local Open Scope Z_scope.

(* The characters of the file: it is well-formed UTF-8, and a byte order mark may precede
   the text. *)
Definition text_of_file (file : bytes) (cs : list Z) : Prop :=
  exists cps, Forall scalar cps /\ file = concat (map rfc3629 cps) /\
    (cps = 0xFEFF :: cs \/ cps = cs /\ forall r, cps <> 0xFEFF :: r).

(* White space and comments.  The characters in a block comment after the opening are
   taken one by one, except that an asterisk is taken along with the next one. *)
Definition white (c : Z) : Prop := In c [9; 10; 11; 12; 13; 32].
Inductive block : list Z -> Prop :=
  | block_end : block [42; 47]
  | block_char c t : c <> 42 -> block t -> block (c :: t)
  | block_pair c t : c <> 47 -> block t -> block (42 :: c :: t).
Inductive blank : list Z -> Prop :=
  | blank_nil : blank []
  | blank_white c t : white c -> blank t -> blank (c :: t)
  | blank_line u t : ~ In 10 u -> blank t -> blank (47 :: 47 :: u ++ 10 :: t)
  | blank_block u t : block u -> blank t -> blank (47 :: 42 :: u ++ t).
(* At the end of the file, a line comment need not be ended. *)
Inductive trail : list Z -> Prop :=
  | trail_blank t : blank t -> trail t
  | trail_line t u : blank t -> ~ In 10 u -> trail (t ++ 47 :: 47 :: u).

(* A block comment as everybody else understands it. *)
Definition usual_comment (u : list Z) : Prop :=
  exists t, u = [47; 42] ++ t ++ [42; 47] /\ forall a b, t ++ [42] <> a ++ [42; 47] ++ b.

Definition letter (c : Z) : Prop := 65 <= c <= 90 \/ 97 <= c <= 122 \/ c = 95 \/ c = 36.
Definition decimal (c : Z) : Prop := 48 <= c <= 57.
Definition word_char (c : Z) : Prop := letter c \/ decimal c.
Definition control (c : Z) : Prop := c < 32 \/ c = 127.

(* Numbers. *)
Definition digit_of (n : notation) (c : Z) : Prop :=
  match n with
  | Binary => 48 <= c <= 49
  | Decimal => decimal c
  | Hexadecimal => decimal c \/ 65 <= c <= 70 \/ 97 <= c <= 102
  end.
(* Digits, each of which may be followed by a backquote, as they are written and without
   the backquotes. *)
Inductive run (n : notation) : list Z -> list Z -> Prop :=
  | run_nil : run n [] []
  | run_digit c u ds : digit_of n c -> run n u ds -> run n (c :: u) (c :: ds)
  | run_tick c u ds : digit_of n c -> run n u ds -> run n (c :: 96 :: u) (c :: ds).
(* The character after a run [u], if any, does not belong to it. *)
Definition stops (n : notation) (u : list Z) (nxt : option Z) : Prop :=
  forall c, nxt = Some c -> ~ digit_of n c /\ (c = 96 -> u = [] \/ exists v, u = v ++ [96]).
(* There is such a character, and it is among the first 256. *)
Definition tabled (nxt : option Z) : Prop := exists c, nxt = Some c /\ c < 256.
Definition after (u : list Z) (nxt : option Z) : option Z :=
  match u with [] => nxt | c :: _ => Some c end.

Definition plus_minus (u : list Z) : Prop := u = [] \/ u = [43] \/ u = [45].
Definition base_letters (n : notation) : list Z :=
  match n with Binary => [66; 98] | Decimal => [] | Hexadecimal => [88; 120] end.
Definition marks (n : notation) : list Z :=
  match n with Decimal => [69; 101] | _ => [80; 112] end.
(* [w], followed by [nxt], is the part before the point, and reads [t]. *)
Inductive int_part : notation -> list Z -> list Z -> option Z -> Prop :=
  | int_decimal u ds nxt :
      run Decimal u ds -> u <> [] -> stops Decimal u nxt -> tabled nxt ->
      (u = [48] \/ u = [48; 96] -> forall c, nxt = Some c -> ~ In c [66; 98; 88; 120]) ->
      int_part Decimal u ds nxt
  | int_based n tk c u ds nxt :
      In c (base_letters n) -> tk = [] \/ tk = [96] ->
      run n u ds -> stops n u nxt -> tabled nxt ->
      int_part n (48 :: tk ++ c :: u) (48 :: (match n with Binary => 98 | _ => 120 end) :: ds) nxt.
Inductive frac_part (n : notation) : list Z -> list Z -> option Z -> Prop :=
  | no_frac nxt : nxt <> Some 46 -> frac_part n [] [] nxt
  | with_frac u ds nxt :
      run n u ds -> u <> [] -> stops n u nxt -> tabled nxt ->
      frac_part n (46 :: u) (46 :: ds) nxt.
Inductive exp_part (n : notation) : list Z -> list Z -> option Z -> Prop :=
  | no_exp nxt : (forall c, nxt = Some c -> ~ In c (marks n)) -> exp_part n [] [] nxt
  | with_exp m sg u ds nxt :
      In m (marks n) -> plus_minus sg -> run Decimal u ds -> u <> [] -> stops Decimal u nxt ->
      exp_part n (m :: sg ++ u) (m :: sg ++ ds) nxt.
Inductive number_piece : list Z -> list Z -> option Z -> Prop :=
  | number_intro n sg i it f ft e et nxt :
      plus_minus sg ->
      int_part n i it (after (f ++ e) nxt) -> frac_part n f ft (after e nxt) -> exp_part n e et nxt ->
      number_piece (sg ++ i ++ f ++ e) (sg ++ it ++ ft ++ et) nxt.

(* Strings: the characters between the quotation marks and what they stand for. *)
Definition hex_digit (c v : Z) : Prop :=
  48 <= c <= 57 /\ v = c - 48 \/ 65 <= c <= 70 /\ v = c - 55 \/ 97 <= c <= 102 /\ v = c - 87.
Inductive hex_digits : list Z -> Z -> Prop :=
  | hex_nil : hex_digits [] 0
  | hex_snoc u v c d : hex_digits u v -> hex_digit c d -> hex_digits (u ++ [c]) (16 * v + d).
Definition escapes : list (Z * Z) :=
  [(92, 92); (34, 34); (47, 47); (98, 8); (102, 12); (110, 10); (114, 13); (116, 9)].
Inductive quoted : list Z -> list Z -> Prop :=
  | quoted_nil : quoted [] []
  | quoted_char c u p : ~ control c -> c <> 34 -> c <> 92 -> quoted u p -> quoted (c :: u) (c :: p)
  | quoted_escape c d u p : In (c, d) escapes -> quoted u p -> quoted (92 :: c :: u) (d :: p)
  | quoted_short h v u p :
      length h = 4%nat -> hex_digits h v -> ~ 0xD800 <= v <= 0xDFFF ->
      quoted u p -> quoted (92 :: 117 :: h ++ u) (v :: p)
  | quoted_pair h v h' v' u p :
      length h = 4%nat -> hex_digits h v -> 0xD800 <= v <= 0xDBFF ->
      length h' = 4%nat -> hex_digits h' v' -> 0xDC00 <= v' <= 0xDFFF ->
      quoted u p ->
      quoted (92 :: 117 :: h ++ 92 :: 117 :: h' ++ u) (0x10000 + (v - 0xD800) * 0x400 + (v' - 0xDC00) :: p)
  | quoted_long h v u p :
      length h = 6%nat -> hex_digits h v -> v < 0x10FFFF -> ~ 0xD800 <= v <= 0xDFFF ->
      quoted u p -> quoted (92 :: 85 :: h ++ u) (v :: p).

(* Tokens, and the characters they are made of when [nxt] follows.  Of a character in
   single quotation marks the last byte is kept. *)
Inductive tok := TPunct (c : Z) | TWord (w : bytes) | TNum (w : bytes) | TStr (s : bytes).
Inductive piece : list Z -> tok -> option Z -> Prop :=
  | piece_punct c nxt : In c (str "[]{}:=,;") -> piece [c] (TPunct c) nxt
  | piece_word c w nxt : letter c -> Forall word_char w ->
      (forall d, nxt = Some d -> ~ word_char d) -> piece (c :: w) (TWord (c :: w)) nxt
  | piece_number u w nxt : number_piece u w nxt -> piece u (TNum w) nxt
  | piece_single u nxt : Forall (fun c => ~ control c /\ c <> 39) u ->
      piece (39 :: u ++ [39]) (TStr (map (fun c => c mod 256) u)) nxt
  | piece_double u p nxt : quoted u p ->
      piece (34 :: u ++ [34]) (TStr (concat (map rfc3629 p))) nxt.
Inductive lexed : list Z -> list tok -> Prop :=
  | lexed_end b : trail b -> lexed b []
  | lexed_token b u t cs ts : blank b -> piece u t (hd_error cs) -> lexed cs ts ->
      lexed (b ++ u ++ cs) (t :: ts).

(* The grammar of tokens.  [num] tells which values numbers have, and [d] is how many
   brackets are open. *)
Section GRAMMAR.
Context (num : bytes -> cval -> Prop).

Definition one_of (l : bytes) (ts : list tok) : Prop := ts = [] \/ exists c, In c l /\ ts = [TPunct c].
Definition key (t : tok) (k : bytes) : Prop := t = TWord k \/ t = TStr k.

Inductive val (d : nat) : list tok -> cval -> Prop :=
  | val_null : val d [TWord (str "null")] VNull
  | val_true : val d [TWord (str "true")] (VBool true)
  | val_false : val d [TWord (str "false")] (VBool false)
  | val_num w v : num w v -> val d [TNum w] v
  | val_str s : val d [TStr s] (VStr s)
  | val_arr ts l : elems (S d) ts l -> val d ([TPunct 91] ++ ts ++ [TPunct 93]) (VArr l)
  | val_obj ts l : members (S d) ts l -> NoDup (map fst l) ->
      val d ([TPunct 123] ++ ts ++ [TPunct 125]) (VObj l)
with elems (d : nat) : list tok -> list cval -> Prop :=
  | elems_nil : elems d [] []
  | elems_cons ts v sep us l : (d <= 32)%nat -> val d ts v -> one_of (str ",;") sep ->
      elems d us l -> elems d (ts ++ sep ++ us) (v :: l)
with members (d : nat) : list tok -> list (bytes * cval) -> Prop :=
  | members_nil : members d [] []
  | members_cons t k eq ts v sep us l : (d <= 32)%nat -> key t k -> one_of (str ":=") eq ->
      val d ts v -> one_of (str ",;") sep ->
      members d us l -> members d (t :: eq ++ ts ++ sep ++ us) ((k, v) :: l).

(* The file is a configuration with these entries. *)
Definition configuration (file : bytes) (o : list (bytes * cval)) : Prop :=
  exists cs ts, text_of_file file cs /\ lexed cs ts /\ members 0 ts o /\ NoDup (map fst o).
End GRAMMAR.

(* The integer part of D * p ^ E. *)
Definition integer_part (p D E a : Z) : Prop :=
  a * p ^ Z.max (- E) 0 <= D * p ^ Z.max E 0 < (a + 1) * p ^ Z.max (- E) 0.
