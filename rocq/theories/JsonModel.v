(* std.json.format and std.json.parse: asteria/src/library/json.cpp.

   Reals are the bits of doubles.  How numbers are converted to and from text
   (ascii_numput::put_DD, ascii_numget::parse_DD and cast_D) is given by a record
   of functions.  A position in the text is the list of bytes from there on.

   Simplifications: text in memory, not files and streams; pointers into the
   value that is being built are a stack of incomplete containers with a hole;
   an object is an association list in the order of iteration (in the parser:
   of insertion); offsets in messages of errors are left out.
   `try_emplace` of a key into a new object always inserts. *)
From Verif Require Import Base UtfModel.

Inductive value : Type :=
  | VNull
  | VBool (b : bool)
  | VInt (z : Z)
  | VReal (bits : Z)
  | VStr (s : bytes)
  | VOther                                (* opaque values and functions *)
  | VArr (l : list value)
  | VObj (l : list (bytes * value)).

Record numerics : Type := mk_numerics {
  of_int : Z -> Z;                        (* static_cast<V_real>(integer) *)
  finite : Z -> bool;                     (* std::isfinite *)
  show : Z -> bytes;                      (* put_DD *)
  read : bytes -> option Z                (* parse_DD, cast_D; None: overflowed *)
}.

Inductive res (A : Type) : Type :=
  | Val (a : A)
  | Err                                   (* do_err throws an exception *)
  | Undef                                 (* undefined behaviour *)
  | No_fuel.
Arguments Val {A}. Arguments Err {A}. Arguments Undef {A}. Arguments No_fuel {A}.
Definition rbind {A B} (r : res A) (f : A -> res B) : res B :=
  match r with Val a => f a | Err => Err | Undef => Undef | No_fuel => No_fuel end.
Notation "'let*' p := m 'in' f" := (rbind m (fun p => f)) (at level 200, p pattern, right associativity).

Definition within (c lo hi : Z) : bool := (lo <=? c) && (c <=? hi).
Definition any_of (c : Z) (l : list Z) : bool := existsb (Z.eqb c) l.
Definition quote : Z := 34.
Definition backslash : Z := 92.

(* ---- writing ---- *)

(* '0'..'9', 'A'..'F' *)
Definition hex_char (d : Z) : Z := if d <? 10 then d + 48 else d - 10 + 65.
(* json.cpp:796-803, 808-815: four times the top four bits of a 16-bit unit *)
Fixpoint hex_unit (k : nat) (u : Z) : bytes :=
  match k with
  | O => []
  | S k => hex_char (Z.shiftr u 12) :: hex_unit k (Z.shiftl u 4 mod 2 ^ 16)
  end.
Definition unicode_escape (units : list Z) : bytes :=
  match units with
  | [u] => [backslash; 117] ++ hex_unit 4 u
  | u :: v :: _ => [backslash; 117] ++ hex_unit 4 u ++ [backslash; 117] ++ hex_unit 4 v
  | [] => []
  end.
(* the run of characters that need no escaping, 730-737; the parser's, 401-412 *)
Definition plain_out (c : Z) : bool := negb (any_of c [92; 34; 47]) && within c 32 126.
Definition plain_in (c : Z) : bool := negb (any_of c [92; 34]) && within c 32 126.
Fixpoint span (f : Z -> bool) (s : bytes) : bytes * bytes :=
  match s with
  | [] => ([], [])
  | c :: t => if f c then let '(a, b) := span f t in (c :: a, b) else ([], s)
  end.

(* do_escape_string_utf16, 723-824 *)
Fixpoint escape (fuel : nat) (s : bytes) : res bytes :=
  match fuel with
  | O => No_fuel
  | S fuel =>
      let '(run, t) := span plain_out s in
      match t with
      | [] => Val run
      | next :: t' =>
          let piece_rest :=
            if any_of next [92; 34; 47] then ([backslash; next], t')
            else if next =? 8 then ([backslash; 98], t')
            else if next =? 12 then ([backslash; 102], t')
            else if next =? 10 then ([backslash; 110], t')
            else if next =? 13 then ([backslash; 114], t')
            else if next =? 9 then ([backslash; 116], t')
            else if within next 32 126 then ([next], t')
            else match utf8_decode t with
                 | None => ([backslash; 117; 70; 70; 70; 68], t')
                 | Some (cp, t'') =>
                     (match utf16_encode cp with Some us => unicode_escape us | None => [] end, t'')
                 end in
          let* r := escape fuel (snd piece_rest) in
          Val (run ++ fst piece_rest ++ r)
      end
  end.
Definition escape_string (s : bytes) : res bytes := escape (S (length s)) s.

(* struct Indent, 198-220 *)
Record indent : Type := mk_indent { cur : bytes; add : bytes }.
Definition indent_string (x : bytes) : indent :=
  match x with [] => mk_indent [] [] | _ => mk_indent [10] x end.
Definition indent_int (x : Z) : indent :=
  if x <=? 0 then mk_indent [] [] else mk_indent [10] (repeat 32 (Z.to_nat (Z.min x 40))).

Inductive oframe : Type :=
  | OArr (l : list value)                 (* the elements after the current one *)
  | OObj (l : list (bytes * value)).

Inductive omode : Type := OUnpack (v : value) | OResume.

(* the key of a member, 876-878 and 946-948 *)
Definition print_key (i : indent) (k : bytes) : res bytes :=
  let* e := escape_string k in
  Val ([quote] ++ e ++ [quote; 58] ++ match cur i with [] => [] | _ => [32] end).

(* do_print_to, 826-962 *)
Fixpoint print (fuel : nat) (N : numerics) (i : indent) (stk : list oframe) (m : omode) : res bytes :=
  match fuel with
  | O => No_fuel
  | S fuel =>
      let put (s : bytes) (r : res bytes) : res bytes := let* t := r in Val (s ++ t) in
      match m with
      | OUnpack v =>
          match v with
          | VNull => put [110; 117; 108; 108] (print fuel N i stk OResume)
          | VArr (x :: l) =>
              let i := mk_indent (cur i ++ add i) (add i) in
              put ([91] ++ cur i) (print fuel N i (OArr l :: stk) (OUnpack x))
          | VArr [] => put [91; 93] (print fuel N i stk OResume)
          | VObj ((k, x) :: l) =>
              let i := mk_indent (cur i ++ add i) (add i) in
              let* ks := print_key i k in
              put ([123] ++ cur i ++ ks) (print fuel N i (OObj l :: stk) (OUnpack x))
          | VObj [] => put [123; 125] (print fuel N i stk OResume)
          | VBool true => put [116; 114; 117; 101] (print fuel N i stk OResume)
          | VBool false => put [102; 97; 108; 115; 101] (print fuel N i stk OResume)
          | VInt z => put (show N (of_int N z)) (print fuel N i stk OResume)
          | VReal r =>
              put (if finite N r then show N r else [110; 117; 108; 108]) (print fuel N i stk OResume)
          | VStr s =>
              let* e := escape_string s in
              put ([quote] ++ e ++ [quote]) (print fuel N i stk OResume)
          | VOther => put [110; 117; 108; 108] (print fuel N i stk OResume)
          end
      | OResume =>
          match stk with
          | [] => Val []
          | OArr (x :: l) :: stk => put ([44] ++ cur i) (print fuel N i (OArr l :: stk) (OUnpack x))
          | OObj ((k, x) :: l) :: stk =>
              let* ks := print_key i k in
              put ([44] ++ cur i ++ ks) (print fuel N i (OObj l :: stk) (OUnpack x))
          | f :: stk =>
              (* indent.cur.pop_back(indent.add.size()) *)
              if (length (cur i) <? length (add i))%nat then Undef
              else
                let i := mk_indent (firstn (length (cur i) - length (add i)) (cur i)) (add i) in
                put (cur i ++ match f with OArr _ => [93] | OObj _ => [125] end) (print fuel N i stk OResume)
          end
      end
  end.

Fixpoint nodes (v : value) : nat :=
  match v with
  | VArr l => S (fold_right (fun x n => nodes x + n)%nat O l)
  | VObj l => S (fold_right (fun kx n => nodes (snd kx) + n)%nat O l)
  | _ => 1%nat
  end.
(* std_json_format *)
Definition json_format (N : numerics) (i : indent) (v : value) : res bytes :=
  print (2 * nodes v + 2) N i [] (OUnpack v).

(* ---- reading ---- *)

(* Parser_Context and Memory_Source *)
Record src : Type := mk_src { ch : Z; eof : bool; off : Z; rest : bytes }.

(* rocket/fwd.hpp lzcnt32 *)
Definition lzcnt32 (x : Z) : Z := if x =? 0 then 32 else 31 - Z.log2 x.
Fixpoint load_trail (c : Z) (l : bytes) : res Z :=
  match l with
  | [] => Val c
  | b :: l => if within b 128 191 then load_trail (Z.lor (Z.shiftl c 6) (Z.land b 63)) l else Err
  end.

(* do_load_next, 222-258 *)
Definition load_next (s : src) : res src :=
  match rest s with
  | [] => Val (mk_src (-1) true (off s) [])
  | b :: r =>
      if within b 128 191 then Err
      else if b >? 127 then
        let u8len := lzcnt32 (Z.lxor (Z.shiftl b 24) (2 ^ 32 - 1)) in
        (* 1 << (7 - u8len) *)
        if 7 <? u8len then Undef
        else
          let c := Z.land b (Z.shiftl 1 (7 - u8len) - 1) in
          let n := Z.to_nat (u8len - 1) in
          let got := firstn n r in
          (* getn copies them into `char tbytes[4]` *)
          if (4 <? length got)%nat then Undef
          else if negb (length got =? n)%nat then Err
          else
            let* c := load_trail c got in
            if (c <? 128) || (c <? Z.shiftl 1 (u8len * 5 - 4)) || within c 0xD800 0xDFFF || (c >? 0x10FFFF)
            then Err
            else Val (mk_src c (eof s) (off s + u8len) (skipn n r))
      else Val (mk_src b (eof s) (off s + 1) r)
  end.

Definition is_ws (c : Z) : bool := any_of c [32; 9; 13; 10].
Definition is_digit (c : Z) : bool := within c 48 57.
Definition is_name (c : Z) : bool := any_of c [95; 36] || within c 65 90 || within c 97 122.

(* the loop over whitespace, 282-301 *)
Fixpoint skip_space (fuel : nat) (s : src) : res src :=
  if is_ws (ch s) then
    match fuel with
    | O => No_fuel
    | S fuel =>
        let r := snd (span is_ws (rest s)) in
        let* s := load_next (mk_src (ch s) (eof s) (off s + Z.of_nat (length (rest s) - length r)) r) in
        if ch s <? 0 then Val s else skip_space fuel s
    end
  else Val s.

(* do { token.push_back(ctx.c); do_load_next(ctx, usrc); } while(f(ctx.c)) *)
Fixpoint take (fuel : nat) (f : Z -> bool) (tok : bytes) (s : src) : res (bytes * src) :=
  match fuel with
  | O => No_fuel
  | S fuel =>
      let tok := tok ++ [ch s] in
      let* s := load_next s in
      if f (ch s) then take fuel f tok s else Val (tok, s)
  end.
Definition fuel_of (s : src) : nat := S (length (rest s)).
Definition clear_eof (s : src) : src := mk_src (ch s) false (off s) (rest s).
Definition clear_ch (s : src) : src := mk_src (-1) (eof s) (off s) (rest s).

(* 349-390, from the first digit on *)
Definition take_number (tok : bytes) (s : src) : res (bytes * src) :=
  let* (tok, s) := take (fuel_of s) is_digit tok s in
  let* (tok, s) :=
    if ch s =? 46 then
      let tok := tok ++ [ch s] in
      let* s := load_next s in
      if negb (is_digit (ch s)) then Err else take (fuel_of s) is_digit tok s
    else Val (tok, s) in
  let* (tok, s) :=
    if any_of (ch s) [101; 69] then
      let tok := tok ++ [ch s] in
      let* s := load_next s in
      let* (tok, s) :=
        if any_of (ch s) [43; 45] then
          let tok := tok ++ [ch s] in
          let* s := load_next s in Val (tok, s)
        else Val (tok, s) in
      if negb (is_digit (ch s)) then Err else take (fuel_of s) is_digit tok s
    else Val (tok, s) in
  Val (tok, clear_eof s).

(* 471-483 and 497-509 *)
Fixpoint hex_value (c : Z) (l : bytes) : res Z :=
  match l with
  | [] => Val c
  | b :: l =>
      let c := Z.shiftl c 4 in
      if within b 48 57 then hex_value (Z.lor c (b - 48)) l
      else if within b 65 70 then hex_value (Z.lor c (b - 65 + 10)) l
      else if within b 97 102 then hex_value (Z.lor c (b - 97 + 10)) l
      else Err
  end.
(* usrc.getn(temp, n) != n *)
Definition get_exactly (n : nat) (l : bytes) : res (bytes * bytes) :=
  if (length (firstn n l) =? n)%nat then Val (firstn n l, skipn n l) else Err.

(* what follows a backslash, 428-522: the character and the rest *)
Definition unescape (l : bytes) : res (Z * bytes) :=
  match l with
  | [] => Err
  | next :: l =>
      if any_of next [92; 34; 47] then Val (next, l)
      else if next =? 98 then Val (8, l)
      else if next =? 102 then Val (12, l)
      else if next =? 110 then Val (10, l)
      else if next =? 114 then Val (13, l)
      else if next =? 116 then Val (9, l)
      else if next =? 117 then
        let* (temp, l) := get_exactly 4 l in
        let* c := hex_value 0 temp in
        if within c 0xDC00 0xDFFF then Err
        else if within c 0xD800 0xDBFF then
          let* (temp, l) := get_exactly 6 l in
          if negb (nth 0 temp 0 =? 92) || negb (nth 1 temp 0 =? 117) then Err
          else
            let* t := hex_value 0 (skipn 2 temp) in
            if negb (within t 0xDC00 0xDFFF) then Err
            else Val (0x10000 + Z.shiftl (c - 0xD800) 10 + (t - 0xDC00), l)
        else Val (c, l)
      else Err
  end.

(* 392-540 *)
Fixpoint take_string (fuel : nat) (tok : bytes) (s : src) : res (bytes * src) :=
  match fuel with
  | O => No_fuel
  | S fuel =>
      let '(run, r) := span plain_in (rest s) in
      let tok := tok ++ run in
      let* s := load_next (mk_src (ch s) (eof s) (off s + Z.of_nat (length run)) r) in
      if eof s then Err
      else if (ch s <=? 31) || (ch s =? 127) then Err
      else if ch s =? quote then Val (tok, clear_ch s)
      else
        let* (c, r) :=
          if ch s =? backslash then unescape (rest s) else Val (ch s, rest s) in
        let s := mk_src c (eof s) (off s + Z.of_nat (length (rest s) - length r)) r in
        let bs := if c <=? 127 then [c] else match utf8_encode c with Some m => m | None => [] end in
        take_string fuel (tok ++ bs) s
  end.

(* do_token up to the first character of the token, 264-301 *)
Definition start_token (s : src) : res src :=
  let* s :=
    if ch s <? 0 then
      let start := off s =? 0 in
      let* s := load_next s in
      if (0 <=? ch s) && start && (ch s =? 0xFEFF) then load_next s else Val s
    else Val s in
  if ch s <? 0 then Val s else skip_space (fuel_of s) s.
(* the switch, 303-544 *)
Definition lex (s : src) : res (bytes * src) :=
  if any_of (ch s) [91; 93; 123; 125; 58; 44] then Val ([ch s], clear_ch s)
  else if is_name (ch s) then
    let* (tok, s) := take (fuel_of s) (fun c => is_name c || is_digit c) [] s in Val (tok, clear_eof s)
  else if any_of (ch s) [43; 45] then
    let tok := [ch s] in
    let* s := load_next s in
    if negb (is_digit (ch s)) then Err else take_number tok s
  else if is_digit (ch s) then take_number [] s
  else if ch s =? quote then take_string (fuel_of s) [quote] s
  else Err.
(* do_token, 260-545 *)
Definition do_token (s : src) : res (bytes * src) :=
  let* s := start_token s in
  if ch s <? 0 then Val ([], s) else lex s.

(* an incomplete container with a hole for the value that pstor points to *)
Inductive frame : Type :=
  | FArr (l : list value)
  | FObj (l : list (bytes * value)) (k : bytes).

Definition beqb (a b : bytes) : bool := if list_eq_dec Z.eq_dec a b then true else false.
Definition has_key (k : bytes) (l : list (bytes * value)) : bool := existsb (fun kv => beqb (fst kv) k) l.

Inductive mode : Type :=
  | Pack (tok : bytes)                    (* do_pack_value_loop_ *)
  | Done (v : value).                     (* the loop over the stack *)

Definition tok0 (tok : bytes) : Z := nth 0 tok 0.

(* a key string, a colon and the first token of the value, 606-622 and 689-709 *)
Definition open_member (l : list (bytes * value)) (tok : bytes) (s : src) : res (bytes * bytes * src) :=
  if negb (tok0 tok =? quote) then Err
  else
    let k := tl tok in
    if has_key k l then Err
    else
      let* (tok, s) := do_token s in
      if negb (tok0 tok =? 58) then Err
      else
        let* (tok, s) := do_token s in
        if eof s then Err else Val (k, tok, s).

(* do_parse_from, 547-721 *)
Fixpoint machine (fuel : nat) (N : numerics) (s : src) (stk : list frame) (m : mode) : res value :=
  match fuel with
  | O => No_fuel
  | S fuel =>
      match m with
      | Pack tok =>
          if (32 <? length stk)%nat then Err
          else if tok0 tok =? 91 then
            let* (tok, s) := do_token s in
            if eof s then Err
            else if negb (tok0 tok =? 93) then machine fuel N s (FArr [] :: stk) (Pack tok)
            else machine fuel N s stk (Done (VArr []))
          else if tok0 tok =? 123 then
            let* (tok, s) := do_token s in
            if eof s then Err
            else if negb (tok0 tok =? 125) then
              let* (k, tok, s) := open_member [] tok s in
              machine fuel N s (FObj [] k :: stk) (Pack tok)
            else machine fuel N s stk (Done (VObj []))
          else if any_of (tok0 tok) [43; 45] || is_digit (tok0 tok) then
            match read N tok with
            | None => Err
            | Some r => machine fuel N s stk (Done (VReal r))
            end
          else if tok0 tok =? quote then machine fuel N s stk (Done (VStr (tl tok)))
          else if beqb tok [110; 117; 108; 108] then machine fuel N s stk (Done VNull)
          else if beqb tok [116; 114; 117; 101] then machine fuel N s stk (Done (VBool true))
          else if beqb tok [102; 97; 108; 115; 101] then machine fuel N s stk (Done (VBool false))
          else Err
      | Done v =>
          match stk with
          | [] =>
              let* (tok, s) := do_token s in
              match tok with [] => Val v | _ => Err end
          | FArr l :: stk =>
              let l := l ++ [v] in
              let* (tok, s) := do_token s in
              if eof s then Err
              else if negb (tok0 tok =? 93) then
                if negb (tok0 tok =? 44) then Err
                else
                  let* (tok, s) := do_token s in
                  if eof s then Err
                  else if negb (tok0 tok =? 93) then machine fuel N s (FArr l :: stk) (Pack tok)
                  else machine fuel N s stk (Done (VArr l))
              else machine fuel N s stk (Done (VArr l))
          | FObj l k :: stk =>
              let l := l ++ [(k, v)] in
              let* (tok, s) := do_token s in
              if eof s then Err
              else if negb (tok0 tok =? 125) then
                if negb (tok0 tok =? 44) then Err
                else
                  let* (tok, s) := do_token s in
                  if eof s then Err
                  else if negb (tok0 tok =? 125) then
                    let* (k, tok, s) := open_member l tok s in
                    machine fuel N s (FObj l k :: stk) (Pack tok)
                  else machine fuel N s stk (Done (VObj l))
              else machine fuel N s stk (Done (VObj l))
          end
      end
  end.

(* std_json_parse *)
Definition json_parse (N : numerics) (text : bytes) : res value :=
  let* (tok, s) := do_token (mk_src (-1) false 0 text) in
  match tok with
  | [] => Err
  | _ => machine (2 * length text + 4) N s [] (Pack tok)
  end.
