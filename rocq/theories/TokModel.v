(* The tokenizer and the quoting of strings.  Sources: src/compiler/token_stream.cpp,
   src/utils.cpp:12-50 and 418-461 (c_quote), utils.hpp:98-144 (character
   classes), compiler/enums.hpp:10-137 (numbers of punctuators and keywords).

   Simplifications.
   - What is left of the current line (m_str from m_off on) is the list of the
     remaining bytes; reading at or past the end gives the terminator 0.
   - Positions (line, column, token length as stored) and interned strings are
     left out; every Compiler_Error is Throw.
   - The conversion of the text of a numeric literal (ascii_numget::parse_D,
     cast_I, cast_D) is an argument `conv`: has_point and the collected text
     give the token, or nothing when a Compiler_Error is thrown.  A real number
     is its 64-bit pattern.
   - The two assertions in consume() become undefined behaviour when they fail
     (ASTERIA_ASSERT is __builtin_unreachable in release builds).
   - equal_range over a sorted table is the elements with the given first
     character, in the order of the table. *)
From Verif Require Import Base Monad Text UtfModel CsvModel.

(* ---------- utils.hpp:111-144 character classes ---------- *)
Definition cmask_space := 0x01.
Definition cmask_alpha := 0x02.
Definition cmask_digit := 0x04.
Definition cmask_xdigit := 0x08.
Definition cmask_namei := 0x10.
Definition cmask_name := 0x14.
Definition cmask_blank := 0x20.
Definition cmask_cntrl := 0x40.

Definition cmask_table : list Z :=
  [
   0x40; 0x40; 0x40; 0x40; 0x40; 0x40; 0x40; 0x40; 0x40; 0x21; 0x61; 0x41; 0x41; 0x41; 0x40; 0x40;
   0x40; 0x40; 0x40; 0x40; 0x40; 0x40; 0x40; 0x40; 0x40; 0x40; 0x40; 0x40; 0x40; 0x40; 0x40; 0x40;
   0x21; 0x00; 0x00; 0x00; 0x00; 0x00; 0x00; 0x00; 0x00; 0x00; 0x00; 0x00; 0x00; 0x00; 0x00; 0x00;
   0x0C; 0x0C; 0x0C; 0x0C; 0x0C; 0x0C; 0x0C; 0x0C; 0x0C; 0x0C; 0x00; 0x00; 0x00; 0x00; 0x00; 0x00;
   0x00; 0x1A; 0x1A; 0x1A; 0x1A; 0x1A; 0x1A; 0x12; 0x12; 0x12; 0x12; 0x12; 0x12; 0x12; 0x12; 0x12;
   0x12; 0x12; 0x12; 0x12; 0x12; 0x12; 0x12; 0x12; 0x12; 0x12; 0x12; 0x00; 0x00; 0x00; 0x00; 0x10;
   0x00; 0x1A; 0x1A; 0x1A; 0x1A; 0x1A; 0x1A; 0x12; 0x12; 0x12; 0x12; 0x12; 0x12; 0x12; 0x12; 0x12;
   0x12; 0x12; 0x12; 0x12; 0x12; 0x12; 0x12; 0x12; 0x12; 0x12; 0x12; 0x00; 0x00; 0x00; 0x00; 0x40
  ].

Definition get_cmask (ch : Z) : Z := if ch <? 128 then nth (Z.to_nat ch) cmask_table 0 else 0.
Definition is_cmask (ch mask : Z) : bool := negb (Z.land (get_cmask ch) mask =? 0).

(* ---------- utils.cpp:12-46 and 418-461: c_quote ---------- *)
Definition char_escapes : list bytes :=
  [
   str "\0"; str "\x01"; str "\x02"; str "\x03"; str "\x04"; str "\x05"; str "\x06"; str "\a";
   str "\b"; str "\t"; str "\n"; str "\v"; str "\f"; str "\r"; str "\x0E"; str "\x0F";
   str "\x10"; str "\x11"; str "\x12"; str "\x13"; str "\x14"; str "\x15"; str "\x16"; str "\x17";
   str "\x18"; str "\x19"; str "\Z"; str "\e"; str "\x1C"; str "\x1D"; str "\x1E"; str "\x1F";
   str " "; str "!"; str "\"""; str "#"; str "$"; str "%"; str "&"; str "\'";
   str "("; str ")"; str "*"; str "+"; str ","; str "-"; str "."; str "/";
   str "0"; str "1"; str "2"; str "3"; str "4"; str "5"; str "6"; str "7";
   str "8"; str "9"; str ":"; str ";"; str "<"; str "="; str ">"; str "?";
   str "@"; str "A"; str "B"; str "C"; str "D"; str "E"; str "F"; str "G";
   str "H"; str "I"; str "J"; str "K"; str "L"; str "M"; str "N"; str "O";
   str "P"; str "Q"; str "R"; str "S"; str "T"; str "U"; str "V"; str "W";
   str "X"; str "Y"; str "Z"; str "["; str "\\"; str "]"; str "^"; str "_";
   str "`"; str "a"; str "b"; str "c"; str "d"; str "e"; str "f"; str "g";
   str "h"; str "i"; str "j"; str "k"; str "l"; str "m"; str "n"; str "o";
   str "p"; str "q"; str "r"; str "s"; str "t"; str "u"; str "v"; str "w";
   str "x"; str "y"; str "z"; str "{"; str "|"; str "}"; str "~"; str "\x7F";
   str "\x80"; str "\x81"; str "\x82"; str "\x83"; str "\x84"; str "\x85"; str "\x86"; str "\x87";
   str "\x88"; str "\x89"; str "\x8A"; str "\x8B"; str "\x8C"; str "\x8D"; str "\x8E"; str "\x8F";
   str "\x90"; str "\x91"; str "\x92"; str "\x93"; str "\x94"; str "\x95"; str "\x96"; str "\x97";
   str "\x98"; str "\x99"; str "\x9A"; str "\x9B"; str "\x9C"; str "\x9D"; str "\x9E"; str "\x9F";
   str "\xA0"; str "\xA1"; str "\xA2"; str "\xA3"; str "\xA4"; str "\xA5"; str "\xA6"; str "\xA7";
   str "\xA8"; str "\xA9"; str "\xAA"; str "\xAB"; str "\xAC"; str "\xAD"; str "\xAE"; str "\xAF";
   str "\xB0"; str "\xB1"; str "\xB2"; str "\xB3"; str "\xB4"; str "\xB5"; str "\xB6"; str "\xB7";
   str "\xB8"; str "\xB9"; str "\xBA"; str "\xBB"; str "\xBC"; str "\xBD"; str "\xBE"; str "\xBF";
   str "\xC0"; str "\xC1"; str "\xC2"; str "\xC3"; str "\xC4"; str "\xC5"; str "\xC6"; str "\xC7";
   str "\xC8"; str "\xC9"; str "\xCA"; str "\xCB"; str "\xCC"; str "\xCD"; str "\xCE"; str "\xCF";
   str "\xD0"; str "\xD1"; str "\xD2"; str "\xD3"; str "\xD4"; str "\xD5"; str "\xD6"; str "\xD7";
   str "\xD8"; str "\xD9"; str "\xDA"; str "\xDB"; str "\xDC"; str "\xDD"; str "\xDE"; str "\xDF";
   str "\xE0"; str "\xE1"; str "\xE2"; str "\xE3"; str "\xE4"; str "\xE5"; str "\xE6"; str "\xE7";
   str "\xE8"; str "\xE9"; str "\xEA"; str "\xEB"; str "\xEC"; str "\xED"; str "\xEE"; str "\xEF";
   str "\xF0"; str "\xF1"; str "\xF2"; str "\xF3"; str "\xF4"; str "\xF5"; str "\xF6"; str "\xF7";
   str "\xF8"; str "\xF9"; str "\xFA"; str "\xFB"; str "\xFC"; str "\xFD"; str "\xFE"; str "\xFF"
  ].

Definition c_quote (s : bytes) : bytes :=
  flat_map (fun c => nth (Z.to_nat c) char_escapes []) s.

(* value.cpp:448-452: a string value is written between double quotes *)
Definition print_string (s : bytes) : bytes := str """" ++ c_quote s ++ str """".

(* ---------- tokens (compiler/token.hpp) ---------- *)
Inductive token :=
| T_keyword (k : Z)
| T_punctuator (p : Z)
| T_identifier (name : bytes)
| T_integer (v : Z)
| T_real (bits : Z)
| T_string (val : bytes).

(* token_stream.cpp:415-479 *)
Definition punctuators : list (bytes * Z) :=
  [
   (str "!", 31); (str "!=", 33); (str "#", 61); (str "%", 8); (str "%=", 9);
   (str "&", 20); (str "&&", 22); (str "&&=", 23); (str "&=", 21); (str "(", 42);
   (str ")", 43); (str "*", 4); (str "*=", 5); (str "+", 0); (str "++", 10);
   (str "+=", 1); (str ",", 48); (str "-", 2); (str "--", 11); (str "-=", 3);
   (str "->", 57); (str ".", 38); (str "...", 54); (str "/", 6); (str "/=", 7);
   (str ":", 49); (str "::", 58); (str ";", 50); (str "<", 34); (str "</>", 60);
   (str "<<", 16); (str "<<<", 12); (str "<<<=", 13); (str "<<=", 17); (str "<=", 36);
   (str "<=>", 51); (str "=", 41); (str "==", 32); (str ">", 35); (str ">=", 37);
   (str ">>", 18); (str ">>=", 19); (str ">>>", 14); (str ">>>=", 15); (str "?", 39);
   (str "?=", 40); (str "??", 52); (str "??=", 53); (str "[", 44); (str "[$]", 56);
   (str "[?]", 59); (str "[^]", 55); (str "]", 45); (str "^", 28); (str "^=", 29);
   (str "{", 46); (str "|", 24); (str "|=", 25); (str "||", 26); (str "||=", 27);
   (str "}", 47); (str "~", 30)
  ].

(* token_stream.cpp:660-721 *)
Definition keywords : list (bytes * Z) :=
  [
   (str "__abs", 35); (str "__addm", 51); (str "__adds", 54); (str "__ceil", 39);
   (str "__floor", 38); (str "__fma", 45); (str "__iceil", 43); (str "__ifcomplete", 58);
   (str "__ifloor", 42); (str "__iround", 41); (str "__isinf", 34); (str "__isnan", 33);
   (str "__isvoid", 57); (str "__itrunc", 44); (str "__lzcnt", 48); (str "__mulm", 53);
   (str "__muls", 56); (str "__popcnt", 50); (str "__round", 37); (str "__sign", 36);
   (str "__sqrt", 32); (str "__subm", 52); (str "__subs", 55); (str "__trunc", 40);
   (str "__tzcnt", 49); (str "__vcall", 47); (str "and", 28); (str "assert", 31);
   (str "break", 15); (str "case", 6); (str "catch", 13); (str "const", 1);
   (str "continue", 16); (str "countof", 26); (str "default", 7); (str "defer", 14);
   (str "do", 8); (str "each", 11); (str "else", 4); (str "extern", 46);
   (str "false", 21); (str "for", 10); (str "func", 2); (str "if", 3);
   (str "import", 22); (str "not", 30); (str "null", 19); (str "or", 29);
   (str "ref", 23); (str "return", 18); (str "switch", 5); (str "this", 24);
   (str "throw", 17); (str "true", 20); (str "try", 12); (str "typeof", 27);
   (str "unset", 25); (str "var", 0); (str "while", 9)
  ].

(* ---------- token_stream.cpp:82-131: the reader ---------- *)
Definition peek (s : bytes) (n : nat) : Z := nth n s 0.

Fixpoint starts_with (p s : bytes) : bool :=
  match p, s with
  | [], _ => true
  | a :: p', b :: s' => (a =? b) && starts_with p' s'
  | _, [] => false
  end.

(* token_stream.cpp:105-119 consume: n bytes, one character at a time *)
Fixpoint consume_loop (fuel n : nat) (s : bytes) : outcome bytes :=
  match n with
  | O => Ok s
  | _ =>
    match fuel with
    | O => UB
    | S fuel' =>
      match utf8_decode s with
      | None => UB
      | Some (_, s') =>
        let k := (length s - length s')%nat in
        if (k <=? n)%nat then consume_loop fuel' (n - k) s' else UB
      end
    end
  end.
Definition consume (n : nat) (s : bytes) : outcome bytes := consume_loop n n s.

(* token_stream.cpp:144-165; `last` is the last token, if any *)
Definition may_infix_operators_follow (last : option token) : bool :=
  match last with
  | None => false
  | Some (T_keyword k) => existsb (Z.eqb k) [19; 20; 21; 24]
  | Some (T_punctuator p) => existsb (Z.eqb p) [10; 11; 55; 56; 43; 45; 47]
  | Some _ => true
  end.

(* token_stream.cpp:167-176 *)
Fixpoint cmask_length (mask : Z) (s : bytes) : nat :=
  match s with
  | [] => O
  | c :: s' => if is_cmask c mask then S (cmask_length mask s') else O
  end.

(* token_stream.cpp:178-198: the digits collected and what follows them *)
Fixpoint collect_digits (mask : Z) (s : bytes) : bytes * bytes :=
  match s with
  | [] => ([], [])
  | c :: s' =>
    if c =? 96 then collect_digits mask s'
    else if is_cmask c mask then let (d, r) := collect_digits mask s' in (c :: d, r)
    else ([], s)
  end.

Definition quiet_nan (neg : bool) : Z := if neg then 0xFFF8000000000000 else 0x7FF8000000000000.
Definition infinity (neg : bool) : Z := if neg then 0xFFF0000000000000 else 0x7FF0000000000000.

(* A token and the remaining input, or nothing when the function returns false *)
Definition accepted := outcome (option (token * bytes)).

Section Lexer.
Variable conv : bool -> bytes -> option token.

(* token_stream.cpp:303-311: the radix point and the fractional part *)
Definition point_part (mmask : Z) (s : bytes) : bool * bytes * bytes :=
  if peek s 0 =? 46 then let (d, r) := collect_digits mmask (tl s) in (true, 46 :: d, r)
  else (false, [], s).

(* token_stream.cpp:317-320: an optional sign *)
Definition sign_part (s : bytes) : bytes * bytes :=
  if (peek s 0 =? 43) || (peek s 0 =? 45) then ([peek s 0], tl s) else ([], s).

(* token_stream.cpp:313-324: the exponent *)
Definition exponent_part (expch : Z) (s : bytes) : bytes * bytes :=
  if Z.lor (peek s 0) 0x20 =? expch then
    let (sg, r) := sign_part (tl s) in
    let (d, r') := collect_digits cmask_digit r in (peek s 0 :: sg ++ d, r')
  else ([], s).

(* token_stream.cpp:299-372: everything after the leading sign and radix *)
Definition accept_number_tail (tstr : bytes) (s : bytes) (mmask expch : Z) : accepted :=
  let (d1, s1) := collect_digits mmask s in
  let '(has_point, d2, s2) := point_part mmask s1 in
  let (d3, s3) := exponent_part expch s2 in
  let (d4, s4) := collect_digits (Z.lor cmask_alpha cmask_digit) s3 in
  match conv has_point (tstr ++ d1 ++ d2 ++ d3 ++ d4) with
  | None => Throw
  | Some t => Ok (Some (t, s4))
  end.

(* token_stream.cpp:200-372 do_accept_numeric_literal *)
Definition accept_number (last : option token) (s : bytes) : accepted :=
  let c := peek s 0 in
  let signed := (c =? 43) || (c =? 45) in
  let tstr := if signed then [c] else [] in
  let r := if signed then tl s else s in
  if signed && may_infix_operators_follow last then Ok None
  else
    let d := peek r 0 in
    if (d =? 110) || (d =? 78) then
      if negb (Nat.eqb (cmask_length cmask_name r) 3) then Ok None
      else if negb (peek r 1 =? 97) || negb (peek r 2 =? peek r 0) then Ok None
      else Ok (Some (T_real (quiet_nan (c =? 45)), skipn 3 r))
    else if (d =? 105) || (d =? 73) then
      if negb (Nat.eqb (cmask_length cmask_name r) 8) then Ok None
      else if negb (starts_with (str "nfinity") (tl r)) then Ok None
      else Ok (Some (T_real (infinity (c =? 45)), skipn 8 r))
    else if d =? 48 then
      let x := peek (tl r) 0 in
      if (Z.lor x 0x20 =? 98) || (Z.lor x 0x20 =? 120)
      then accept_number_tail (tstr ++ [48; x]) (tl (tl r)) cmask_xdigit 112
      else accept_number_tail (tstr ++ [48]) (tl r) cmask_digit 101
    else if (49 <=? d) && (d <=? 57) then accept_number_tail tstr r cmask_digit 101
    else Ok None.

(* token_stream.cpp:399-408 *)
Definition prefix_range (table : list (bytes * Z)) (ch : Z) : list (bytes * Z) :=
  filter (fun e => hd 0 (fst e) =? ch) table.

(* token_stream.cpp:481-504 do_accept_punctuator *)
Definition accept_punctuator (s : bytes) : accepted :=
  match find (fun e => starts_with (fst e) s) (rev (prefix_range punctuators (peek s 0))) with
  | Some e => Ok (Some (T_punctuator (snd e), skipn (length (fst e)) s))
  | None => Ok None
  end.

(* token_stream.cpp:597-626: the digits of one escape sequence *)
Definition hex_value (c : Z) : option Z :=
  if is_cmask c cmask_xdigit then
    let dval := Z.lor c 0x20 in Some (if dval <=? 57 then dval - 48 else dval - 97 + 10)
  else None.
Fixpoint hex_number (cp : Z) (s : bytes) : option Z :=
  match s with
  | [] => Some cp
  | c :: s' => match hex_value c with None => None | Some v => hex_number (cp * 16 + v) s' end
  end.

(* token_stream.cpp:545-591: escape sequences of one character *)
Definition simple_escape (c : Z) : option Z :=
  if existsb (Z.eqb c) [39; 34; 92; 63; 47] then Some c
  else if c =? 97 then Some 7 else if c =? 98 then Some 8
  else if c =? 102 then Some 12 else if c =? 110 then Some 10
  else if c =? 114 then Some 13 else if c =? 116 then Some 9
  else if c =? 118 then Some 11 else if c =? 48 then Some 0
  else if c =? 90 then Some 26 else if c =? 101 then Some 27
  else None.

(* token_stream.cpp:630-640: \u and \U *)
Definition unicode_escape (digits : bytes) : option bytes :=
  match hex_number 0 digits with None => None | Some cp => utf8_encode cp end.

(* token_stream.cpp:522-650: the string so far, and the input after the closing
   quote *)
Fixpoint string_body (head : Z) (val s : bytes) : outcome (bytes * bytes) :=
  match s with
  | [] => Throw
  | next :: s1 =>
    if next =? 0 then Throw
    else if next =? head then Ok (val, s1)
    else if negb (head =? 34) || negb (next =? 92) then string_body head (val ++ [next]) s1
    else
      match s1 with
      | [] => Throw
      | e :: s2 =>
        match simple_escape e with
        | Some c => string_body head (val ++ [c]) s2
        | None =>
          if e =? 120 then
            match s2 with
            | a :: b :: s3 =>
              match hex_number 0 [a; b] with
              | Some cp => string_body head (val ++ [cp mod 256]) s3
              | None => Throw
              end
            | _ => Throw
            end
          else if e =? 117 then
            match s2 with
            | a :: b :: c :: d :: s3 =>
              match unicode_escape [a; b; c; d] with
              | Some u => string_body head (val ++ u) s3
              | None => Throw
              end
            | _ => Throw
            end
          else if e =? 85 then
            match s2 with
            | a :: b :: c :: d :: f :: g :: s3 =>
              match unicode_escape [a; b; c; d; f; g] with
              | Some u => string_body head (val ++ u) s3
              | None => Throw
              end
            | _ => Throw
            end
          else Throw
        end
      end
  end.

(* token_stream.cpp:506-653 do_accept_string_literal *)
Definition accept_string (head : Z) (s : bytes) : accepted :=
  if peek s 0 =? head then
    do p <- string_body head [] (tl s) ; Ok (Some (T_string (fst p), snd p))
  else Ok None.

(* token_stream.cpp:723-755 do_accept_identifier_or_keyword *)
Definition accept_name (s : bytes) : accepted :=
  if negb (is_cmask (peek s 0) cmask_namei) then Ok None
  else
    let tlen := cmask_length cmask_name s in
    match find (fun e => Nat.eqb (length (fst e)) tlen && starts_with (fst e) s)
               (prefix_range keywords (peek s 0)) with
    | Some e => Ok (Some (T_keyword (snd e), skipn tlen s))
    | None => Ok (Some (T_identifier (firstn tlen s), skipn tlen s))
    end.

(* token_stream.cpp:839-843: the first function that accepts, else a
   Compiler_Error *)
Definition or_else (a : accepted) (f : accepted) : accepted :=
  match a with Ok None => f | _ => a end.
Definition accept_any (last : option token) (s : bytes) : accepted :=
  or_else (accept_number last s)
    (or_else (accept_punctuator s)
       (or_else (accept_string 34 s)
          (or_else (accept_string 39 s) (accept_name s)))).

(* The tokens so far, the last one first, and whether a block comment is open *)
Record lexer := mk_lexer { toks : list token; bcomm : bool }.

Inductive lexed (A : Type) :=
| Lexed (a : A)
| Lex_error
| Lex_undefined
| Lex_no_fuel.
Arguments Lexed {A}. Arguments Lex_error {A}. Arguments Lex_undefined {A}. Arguments Lex_no_fuel {A}.

Definition lift {A B} (o : outcome A) (f : A -> lexed B) : lexed B :=
  match o with Ok a => f a | Throw => Lex_error | UB => Lex_undefined end.

(* token_stream.cpp:805-848: the loop over one line *)
Fixpoint lex_line (fuel : nat) (x : lexer) (s : bytes) : lexed lexer :=
  match s with
  | [] => Lexed x
  | c :: _ =>
    match fuel with
    | O => Lex_no_fuel
    | S fuel' =>
      if bcomm x then
        match find_char 42 s with
        | None => Lexed x
        | Some k =>
          if peek s (k + 1) =? 47
          then lift (consume (k + 2) s) (lex_line fuel' (mk_lexer (toks x) false))
          else Lexed x
        end
      else if is_cmask c cmask_space then lift (consume 1 s) (lex_line fuel' x)
      else if (c =? 47) && (peek s 1 =? 47) then Lexed x
      else if (c =? 47) && (peek s 1 =? 42)
      then lift (consume 2 s) (lex_line fuel' (mk_lexer (toks x) true))
      else
        lift (accept_any (hd_error (toks x)) s) (fun a =>
          match a with
          | None => Lex_error
          | Some (t, r) =>
            lift (consume (length s - length r) s) (lex_line fuel' (mk_lexer (t :: toks x) false))
          end)
    end
  end.

Definition markers : list bytes := [str "<<<<<<<"; str "|||||||"; str "======="; str ">>>>>>>"].

(* token_stream.cpp:782-804: what precedes the loop.  None = the line is
   skipped (a shebang). *)
Definition start_line (first : bool) (s : bytes) : option bytes :=
  let s1 := if first && starts_with [0xEF; 0xBB; 0xBF] s then skipn 3 s else s in
  if first && starts_with (str "#!") s1 then None else Some s1.

(* The test strlen(data()) != navail() *)
Definition has_nul (s : bytes) : bool := existsb (Z.eqb 0) s.

Definition check_line (s : bytes) : bool :=
  match utf8_validate s with Some true => true | _ => false end
  && negb (has_nul s) && negb (existsb (fun m => starts_with m s) markers).

Fixpoint lex_lines (first : bool) (x : lexer) (ls : list bytes) : lexed lexer :=
  match ls with
  | [] => Lexed x
  | l :: ls' =>
    match start_line first l with
    | None => lex_lines false x ls'
    | Some s =>
      if check_line s then
        match lex_line (length s) x s with
        | Lexed y => lex_lines false y ls'
        | other => other
        end
      else Lex_error
    end
  end.

(* token_stream.cpp:765-862 Token_Stream::reload: the tokens in order.  Lines
   are taken apart by getline (CsvModel.lines). *)
Definition tokenize (text : bytes) : lexed (list token) :=
  match lex_lines true (mk_lexer [] false) (lines [] text) with
  | Lexed x => if bcomm x then Lex_error else Lexed (rev (toks x))
  | Lex_error => Lex_error
  | Lex_undefined => Lex_undefined
  | Lex_no_fuel => Lex_no_fuel
  end.

End Lexer.
Arguments Lexed {A}. Arguments Lex_error {A}. Arguments Lex_undefined {A}. Arguments Lex_no_fuel {A}.
