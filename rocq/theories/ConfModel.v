(* Model of std.system.load_conf (asteria/src/library/system.cpp:475-1086): the reader of
   configuration files.

   The file is the list of its bytes; opening it is not modelled.  A token is the string
   `token` of the code: empty at the end of the file, and with a leading quotation mark if
   it is a string.  Simplifications: line and column numbers, which occur in messages only,
   are left out, so the test for a byte order mark, which asks for line 1 and column 1,
   asks for the first character instead (every token before takes up at least one column);
   all exceptions are Throw; an object is the list of its entries in the order of their
   insertion.  A failing ASTERIA_ASSERT is UB (rocket/xassert.hpp:16-26), and so is an
   access outside an array. *)
From Verif Require Import Base Text Monad UtfModel NumGetModel.

Local Open Scope Z_scope.

(* What the successive calls of do_load_next do: give a character, throw, or run into
   undefined behaviour; at the end of the file `ch` is set to -1 as often as they are
   called. *)
Inductive stream := SEnd | SThrow | SUB | SCons (c : Z) (s : stream).

(* system.cpp:506-507: the number of leading ones of the first byte, and its other bits. *)
Definition u8len (b : Z) : Z := 31 - Z.log2 (Z.lxor (Z.shiftl b 24) (2 ^ 32 - 1)).
Definition low_bits (b : Z) : Z := Z.land b (Z.shiftl 1 (7 - u8len b) - 1).

(* system.cpp:513-526: check the other bytes of the character and the character. *)
Definition is_cont (b : Z) : bool := negb ((b <? 0x80) || (0xBF <? b)).
Definition join (ch : Z) (tbytes : bytes) : Z :=
  fold_left (fun ch b => Z.lor (Z.shiftl ch 6) (Z.land b 0x3F)) tbytes ch.
Definition bad_char (len ch : Z) : bool :=
  (ch <? 0x80) || (ch <? Z.shiftl 1 (len * 5 - 4)) ||
  ((0xD800 <=? ch) && (ch <=? 0xDFFF)) || (0x10FFFF <? ch).
Definition multi (b : Z) (tbytes : bytes) (rest : stream) : stream :=
  if forallb is_cont tbytes then
    let ch := join (low_bits b) tbytes in
    if bad_char (u8len b) ch then SThrow else SCons ch rest
  else SThrow.

(* system.cpp:494-536, do_load_next.  `tbytes` has room for four bytes; a byte with eight
   leading ones makes `7 - u8len` wrap. *)
Fixpoint decode (s : bytes) : stream :=
  match s with
  | [] => SEnd
  | b :: r =>
    if b <=? 0x7F then SCons b (decode r)
    else if b <=? 0xBF then SThrow
    else let len := u8len b in
    if 7 <? len then SUB
    else match r with
    | b1 :: r1 =>
      if len =? 2 then multi b [b1] (decode r1)
      else match r1 with
      | b2 :: r2 =>
        if len =? 3 then multi b [b1; b2] (decode r2)
        else match r2 with
        | b3 :: r3 =>
          if len =? 4 then multi b [b1; b2; b3] (decode r3)
          else match r3 with
          | b4 :: r4 =>
            if len =? 5 then multi b [b1; b2; b3; b4] (decode r4)
            else match r4 with _ :: _ => SUB | [] => SThrow end
          | [] => SThrow
          end
        | [] => SThrow
        end
      | [] => SThrow
      end
    | [] => SThrow
    end
  end.

(* do_load_next is called and the character stays the current one. *)
Definition load (s : stream) : outcome stream :=
  match s with SThrow => Throw | SUB => UB | _ => Ok s end.
Definition head_is (p : Z -> bool) (s : stream) : bool :=
  match s with SCons c _ => p c | _ => false end.
Definition next (s : stream) : stream :=
  match s with SCons _ r => r | _ => s end.

(* system.cpp:557-597: skip white space and comments.  One step of the loops per
   character: [Plain] is the outer loop, [Slash] the switch after a slash, [Line] and
   [Block] the loops in comments, and [Star] the test after an asterisk.  The result is the
   first character of the token and what follows, or None at the end of the file. *)
Inductive skipping := Plain | Slash | Line | Block | Star.
Definition is_space (c : Z) : bool := existsb (Z.eqb c) [32; 9; 13; 10; 11; 12].
Fixpoint skip (m : skipping) (s : stream) : outcome (option (Z * stream)) :=
  match s with
  | SThrow => Throw
  | SUB => UB
  | SEnd => match m with Plain | Line => Ok None | Slash | Block | Star => Throw end
  | SCons c r =>
    match m with
    | Plain => if is_space c then skip Plain r
               else if c =? 47 then skip Slash r
               else Ok (Some (c, r))
    | Slash => if c =? 47 then skip Line r
               else if c =? 42 then skip Block r
               else Throw
    | Line => if c =? 10 then skip Plain r else skip Line r
    | Block => if c =? 42 then skip Star r else skip Block r
    | Star => if c =? 47 then skip Plain r else skip Block r
    end
  end.

(* system.cpp:617-630: identifiers.  As in the digits below, the stream given is the one
   after the last character taken. *)
Definition is_letter (c : Z) : bool :=
  (c =? 95) || (c =? 36) || ((65 <=? c) && (c <=? 90)) || ((97 <=? c) && (c <=? 122)).
Definition is_word (c : Z) : bool := is_letter c || ((48 <=? c) && (c <=? 57)).
Fixpoint word (s : stream) : outcome (bytes * stream) :=
  match s with
  | SThrow => Throw
  | SUB => UB
  | SEnd => Ok ([], SEnd)
  | SCons c r => if is_word c then do p <- word r ; let '(w, t) := p in Ok (c :: w, t)
                 else Ok ([], s)
  end.

(* system.cpp:643-645, and likewise after every digit: load a character, and another one
   after a backquote. *)
Definition tick (s : stream) : stream :=
  match s with SCons c r => if c =? 96 then r else s | _ => s end.

(* system.cpp:647-677: which digits are valid.  The array has 256 elements. *)
Definition valid_digit (base c : Z) : bool :=
  if base =? 2 then (48 <=? c) && (c <=? 49)
  else if base =? 16 then
    ((48 <=? c) && (c <=? 57)) || ((97 <=? c) && (c <=? 102)) || ((65 <=? c) && (c <=? 70))
  else (48 <=? c) && (c <=? 57).

(* system.cpp:679-685 and the loop at 694-699: take digits, looking the current character
   up in the array.  The loop at 715-720 compares the character instead: [table] is false
   there. *)
Fixpoint digits (table : bool) (base : Z) (s : stream) : outcome (bytes * stream) :=
  match s with
  | SThrow => Throw
  | SUB => UB
  | SEnd => if table then UB else Ok ([], SEnd)
  | SCons c r =>
    if table && (256 <=? c) then UB
    else if valid_digit base c then
      do p <- digits table base (match r with
                                 | SCons d r' => if d =? 96 then r' else r
                                 | _ => r
                                 end) ;
      let '(w, t) := p in Ok (c :: w, t)
    else Ok ([], s)
  end.

(* system.cpp:687-700: the fraction. *)
Definition fraction (base : Z) (s : stream) : outcome (bytes * stream) :=
  if head_is (Z.eqb 46) s then
    do p <- digits true base (next s) ;
    match p with
    | ([], _) => Throw
    | (w, t) => Ok (46 :: w, t)
    end
  else Ok ([], s).

(* system.cpp:702-721: the exponent. *)
Definition exp_mark (base : Z) : Z := if base =? 10 then 101 else 112.
Definition exponent (base : Z) (s : stream) : outcome (bytes * stream) :=
  match s with
  | SCons c r =>
    if Z.lor c 32 =? exp_mark base then
      do s1 <- load r ;
      let '(sg, s2) := match s1 with
                       | SCons d r' => if (d =? 43) || (d =? 45) then ([d], r') else ([], s1)
                       | _ => ([], s1)
                       end in
      do p <- digits false 10 s2 ;
      match p with
      | ([], _) => Throw
      | (w, t) => Ok (c :: sg ++ w, t)
      end
    else Ok ([], s)
  | _ => Ok ([], s)
  end.

(* system.cpp:641-725: a number whose first digit is [d]; [s] follows it. *)
Definition number_base (d : Z) (s : stream) : Z :=
  if (d =? 48) && head_is (fun c => Z.lor c 32 =? 98) s then 2
  else if (d =? 48) && head_is (fun c => Z.lor c 32 =? 120) s then 16
  else 10.
Definition unsigned (d : Z) (s : stream) : outcome (bytes * stream) :=
  do s0 <- load s ;
  do s1 <- load (tick s0) ;
  let base := number_base d s1 in
  let '(pre, s2) := if base =? 2 then ([98], next s1)
                    else if base =? 16 then ([120], next s1)
                    else ([], s1) in
  do p <- digits true base s2 ;
  let '(ip, s3) := p in
  do q <- fraction base s3 ;
  let '(fr, s4) := q in
  do r <- exponent base s4 ;
  let '(ex, s5) := r in
  Ok (d :: pre ++ ip ++ fr ++ ex, s5).
(* system.cpp:632-641: with a sign. *)
Definition is_digit (c : Z) : bool := (48 <=? c) && (c <=? 57).
Definition signed (c : Z) (s : stream) : outcome (bytes * stream) :=
  do s1 <- load s ;
  match s1 with
  | SCons d r => if is_digit d then do p <- unsigned d r ; let '(w, t) := p in Ok (c :: w, t)
                 else Throw
  | _ => Throw
  end.

(* system.cpp:727-751: strings in single quotation marks. *)
Definition is_control (c : Z) : bool := (c <=? 0x1F) || (c =? 0x7F).
Fixpoint single (s : stream) : outcome (bytes * stream) :=
  match s with
  | SThrow => Throw
  | SUB => UB
  | SEnd => Throw
  | SCons c r =>
    if is_control c then Throw
    else if c =? 39 then Ok ([], r)
    else do p <- single r ; let '(w, t) := p in Ok (c mod 256 :: w, t)
  end.

(* system.cpp:753-922: strings in double quotation marks, one character at a time:
   [Text] is the start of the loop, [Escape] follows a backslash, [Hex k v u] expects [k]
   hexadecimal digits after those of value [v] and then does [u], and [Trail1] and [Trail2]
   expect the backslash and the `u` of a trailing surrogate. *)
Inductive unit_kind := First | Second (lead : Z) | Long.
Inductive quoting :=
  Text | Escape | Hex (k : nat) (v : Z) (u : unit_kind) | Trail1 (lead : Z) | Trail2 (lead : Z).
(* system.cpp:914-921 *)
Definition put_char (c : Z) : bytes :=
  if c <=? 0x7F then [c] else match utf8_encode c with Some w => w | None => [] end.
Definition hex_value (c : Z) : option Z :=
  if (48 <=? c) && (c <=? 57) then Some (c - 48)
  else if (65 <=? c) && (c <=? 70) then Some (c - 65 + 10)
  else if (97 <=? c) && (c <=? 102) then Some (c - 97 + 10)
  else None.
(* system.cpp:776-801 *)
Definition simple_escape (c : Z) : option Z :=
  if (c =? 92) || (c =? 34) || (c =? 47) then Some c
  else if c =? 98 then Some 8
  else if c =? 102 then Some 12
  else if c =? 110 then Some 10
  else if c =? 114 then Some 13
  else if c =? 116 then Some 9
  else None.
(* system.cpp:825-870 and 894-903: what the unit of value [v] is good for. *)
Inductive unit_result := Reject | Lead (v : Z) | Char (c : Z).
Definition unit_value (u : unit_kind) (v : Z) : unit_result :=
  match u with
  | First => if (0xDC00 <=? v) && (v <=? 0xDFFF) then Reject
             else if (0xD800 <=? v) && (v <=? 0xDBFF) then Lead v
             else Char v
  | Second lead => if (v <? 0xDC00) || (0xDFFF <? v) then Reject
                   else Char (0x10000 + Z.shiftl (lead - 0xD800) 10 + (v - 0xDC00))
  | Long => if 0x10FFFF <=? v then Reject
            else if (0xD800 <=? v) && (v <=? 0xDFFF) then Reject
            else Char v
  end.
Fixpoint double (m : quoting) (s : stream) : outcome (bytes * stream) :=
  let put c k := do p <- k ; let '(w, t) := p in Ok (put_char c ++ w, t) in
  match s with
  | SThrow => Throw
  | SUB => UB
  | SEnd => Throw
  | SCons c r =>
    match m with
    | Text => if is_control c then Throw
              else if c =? 34 then Ok ([], r)
              else if c =? 92 then double Escape r
              else put c (double Text r)
    | Escape => match simple_escape c with
                | Some e => put e (double Text r)
                | None => if c =? 117 then double (Hex 4 0 First) r
                          else if c =? 85 then double (Hex 6 0 Long) r
                          else Throw
                end
    | Hex k v u => match hex_value c with
                   | None => Throw
                   | Some h =>
                     let v' := Z.lor (Z.shiftl v 4) h in
                     match k with
                     | S (S _ as k') => double (Hex k' v' u) r
                     | _ => match unit_value u v' with
                            | Reject => Throw
                            | Lead l => double (Trail1 l) r
                            | Char e => put e (double Text r)
                            end
                     end
                   end
    | Trail1 lead => if c =? 92 then double (Trail2 lead) r else Throw
    | Trail2 lead => if c =? 117 then double (Hex 4 0 (Second lead)) r else Throw
    end
  end.

(* system.cpp:539-928, do_token, after the byte order mark has been dealt with. *)
Definition is_punct (c : Z) : bool := existsb (Z.eqb c) [91; 93; 123; 125; 58; 61; 44; 59].
Definition token : Type := bytes.
Definition do_token (s : stream) : outcome (token * stream) :=
  do p <- skip Plain s ;
  match p with
  | None => Ok ([], SEnd)
  | Some (c, r) =>
    if is_punct c then Ok ([c], r)
    else if is_letter c then do q <- word r ; let '(w, t) := q in Ok (c :: w, t)
    else if (c =? 43) || (c =? 45) then signed c r
    else if is_digit c then unsigned c r
    else if c =? 39 then do q <- single r ; let '(w, t) := q in Ok (34 :: w, t)
    else if c =? 34 then do q <- double Text r ; let '(w, t) := q in Ok (34 :: w, t)
    else Throw
  end.
(* system.cpp:549-556 *)
Definition skip_bom (s : stream) : stream :=
  match s with SCons c r => if c =? 0xFEFF then r else s | _ => s end.

(* The tokens that successive calls of do_token give.  [TFuel] stands for no answer: with
   enough fuel it does not occur. *)
Inductive tstream := TEnd | TThrow | TUB | TFuel | TCons (t : token) (s : tstream).
Fixpoint stream_length (s : stream) : nat :=
  match s with SCons _ r => S (stream_length r) | _ => O end.
Fixpoint tokens (fuel : nat) (s : stream) : tstream :=
  match fuel with
  | O => TFuel
  | S n => match do_token s with
           | Throw => TThrow
           | UB => TUB
           | Ok ([], _) => TEnd
           | Ok (t, r) => TCons t (tokens n r)
           end
  end.

(* Values.  A real is its bit pattern. *)
Inductive cval :=
  | VNull | VBool (b : bool) | VInt (i : Z) | VReal (bits : Z) | VStr (s : bytes)
  | VArr (l : list cval) | VObj (l : list (bytes * cval)).

(* ascii_numget.cpp:1395-1502: whether cast_I sets m_ovfl. *)
Definition cast_I_over (x : num) : bool :=
  match n_cls x with
  | Cls_infinity | Cls_nan => true
  | Cls_normal =>
      if n_mant x =? 0 then false
      else if n_exp x <? -10000 then false
      else if 10000 <? n_exp x then true
      else
        let umax := if n_sign x then 2 ^ 63 else int64_max in
        if 0 <? n_exp x then
          let '(bits, o) := raise_mant (n_base x) (Z.to_nat (n_exp x)) (n_mant x) in
          if o then true else umax <? bits
        else if n_exp x <? 0 then
          let '(bits, _) := lower_mant (n_base x) (Z.to_nat (- n_exp x)) (n_mant x) (n_more x) in
          umax <? bits
        else umax <? n_mant x
  end.
(* ascii_numget.cpp:1689-1869 with the range from -DBL_MAX to DBL_MAX: m_ovfl is set
   exactly if the value is an infinity or not a number. *)
Definition cast_D_over (x : num) : bool := 2047 * 2 ^ 52 <=? cast_D x mod 2 ^ 63.

(* system.cpp:1017-1035: numbers.  The assertions `n == token.size()` are part of it. *)
Definition number_value (t : token) : outcome cval :=
  if existsb (Z.eqb 46) t then
    do p <- parse_D t ;
    match p with
    | Some (x, []) => if cast_D_over x then Throw else Ok (VReal (cast_D x))
    | _ => UB
    end
  else
    do p <- parse_I t ;
    match p with
    | Some (x, []) => if cast_I_over x then Throw else Ok (VInt (fst (cast_I x)))
    | _ => UB
    end.

(* system.cpp:1036-1047: the other scalars. *)
Definition beqb (a b : bytes) : bool := if list_eq_dec Z.eq_dec a b then true else false.
Definition first_is (p : Z -> bool) (t : token) : bool :=
  match t with c :: _ => p c | [] => false end.
Definition scalar_value (t : token) : outcome cval :=
  if first_is (fun c => (c =? 43) || (c =? 45) || is_digit c) t then number_value t
  else if first_is (Z.eqb 34) t then Ok (VStr (tl t))
  else if beqb t (str "null") then Ok VNull
  else if beqb t (str "true") then Ok (VBool true)
  else if beqb t (str "false") then Ok (VBool false)
  else Throw.

(* The containers that are open.  A frame is a container with a place for a value, which
   is `pstor`; instead of pointers into it, it is taken apart and put together again.  The
   entries of a container are in reverse order. *)
Inductive container := CArr (l : list cval) | CObj (l : list (bytes * cval)).
Inductive frame := FArr (l : list cval) | FObj (l : list (bytes * cval)) (k : bytes).
Definition fill (f : frame) (v : cval) : container :=
  match f with FArr l => CArr (v :: l) | FObj l k => CObj ((k, v) :: l) end.
Definition close (c : container) : cval :=
  match c with CArr l => VArr (rev l) | CObj l => VObj (rev l) end.
Definition closes (c : container) (t : token) : bool :=
  match c with CArr _ => first_is (Z.eqb 93) t | CObj _ => first_is (Z.eqb 125) t end.

(* system.cpp:1049-1051 and 1072-1074: an optional comma or semicolon.
   system.cpp:968-970: an optional colon or equals sign. *)
Definition separator (s : tstream) : tstream :=
  match s with
  | TCons t r => if first_is (fun c => (c =? 44) || (c =? 59)) t then r else s
  | _ => s
  end.
Definition assigner (s : tstream) : tstream :=
  match s with
  | TCons t r => if first_is (fun c => (c =? 58) || (c =? 61)) t then r else s
  | _ => s
  end.
(* system.cpp:959-966 *)
Definition key_of (t : token) : option bytes :=
  if first_is (Z.eqb 34) t then Some (tl t)
  else if first_is is_letter t then Some t
  else None.
Definition has_key (k : bytes) (l : list (bytes * cval)) : bool := existsb (fun e => beqb (fst e) k) l.

(* system.cpp:949-1085.  [Member c] is the loop at 1053-1065 followed, if the container is
   not closed, by the label at 949; going there from 947, 992 and 1011 makes a difference to
   a message only, for the token is not the one that closes the container, or the container
   is the outermost one.  [Slot f] is line 972 and what follows. *)
Inductive place := Member (c : container) | Slot (f : frame).
Definition duplicate (f : frame) : bool :=
  match f with FArr _ => false | FObj l k => has_key k l end.
Fixpoint pack (p : place) (stack : list frame) (s : tstream) {struct s}
  : outcome (list (bytes * cval)) :=
  match s with
  | TThrow => Throw
  | TUB | TFuel => UB
  | TEnd => match p, stack with
            | Member (CObj l), [] => Ok (rev l)
            | _, _ => Throw
            end
  | TCons t r =>
    (* system.cpp:972-1051 *)
    let slot f :=
      if duplicate f then Throw
      else if first_is (Z.eqb 91) t then
        match r with
        | TThrow | TEnd => Throw
        | TUB | TFuel => UB
        | TCons t' r' =>
          if first_is (Z.eqb 93) t' then pack (Member (fill f (VArr []))) stack (separator r')
          else pack (Member (CArr [])) (f :: stack) r
        end
      else if first_is (Z.eqb 123) t then
        match r with
        | TThrow | TEnd => Throw
        | TUB | TFuel => UB
        | TCons t' r' =>
          if first_is (Z.eqb 125) t' then pack (Member (fill f (VObj []))) stack (separator r')
          else pack (Member (CObj [])) (f :: stack) r
        end
      else
        do v <- scalar_value t ;
        pack (Member (fill f v)) stack (separator r) in
    match p with
    | Slot f => slot f
    | Member c =>
      if closes c t then
        match stack with
        | [] => Throw
        | f :: stack' => pack (Member (fill f (close c))) stack' (separator r)
        end
      else if 32 <? Z.of_nat (length stack) then Throw
      else match c with
           | CArr l => slot (FArr l)
           | CObj l => match key_of t with
                       | None => Throw
                       | Some k => pack (Slot (FObj l k)) stack (assigner r)
                       end
           end
    end
  end.

(* system.cpp:475-1086, std_system_load_conf. *)
Definition load_conf (file : bytes) : outcome (list (bytes * cval)) :=
  let s := skip_bom (decode file) in
  pack (Member (CObj [])) [] (tokens (S (stream_length s)) s).
