(* Text codecs of the standard library.  Source: asteria/src/library/string.cpp.
   A string is the list of its bytes (0..255).  reserve() calls are dropped.
   The in-place edits of the URL codecs are written as producing the output
   from left to right: the read position never moves back past an edit. *)
From Verif Require Import Base Text.

(* string.cpp:257-260 *)
Definition base16_table : bytes := str "00112233445566778899AaBbCcDdEeFf".
Definition base32_table : bytes :=
  str "AaBbCcDdEeFfGgHhIiJjKkLlMmNnOoPpQqRrSsTtUuVvWwXxYyZz223344556677==".
Definition base64_table : bytes :=
  str "ABCDEFGHIJKLMNOPQRSTUVWXYZabcdefghijklmnopqrstuvwxyz0123456789+/==".
Definition spaces : bytes := [32; 12; 10; 13; 9; 11].

(* string.cpp:262-272 do_xstrchr: offset of the first occurrence *)
Fixpoint xstrchr (s : bytes) (c : Z) : option Z :=
  match s with
  | [] => None
  | x :: t => if x =? c then Some 0
              else match xstrchr t c with Some k => Some (k + 1) | None => None end
  end.

(* table[b]; -1 stands for an access outside the table *)
Definition table_at (tab : bytes) (b : Z) : Z := nth (Z.to_nat b) tab (-1).

(* The digit-emitting loops: `b = (reg >> sh) & mask; reg <<= k; text += table[b]`
   with a w-bit register, n times.  string.cpp:1136-1140 (w=32 sh=27 mask=0xFE
   k=4), 1209-1213 and 1229-1233 (64, 58, 0xFE, 5), 1330-1334 and 1350-1354
   (32, 26, 0xFF, 6). *)
Fixpoint emit (w sh mask k : Z) (tab : bytes) (n : nat) (reg : Z) {struct n} : bytes * Z :=
  match n with
  | O => ([], reg)
  | S n' =>
    let b := Z.land (Z.shiftr reg sh) mask in
    let '(out, reg') := emit w sh mask k tab n' (Z.shiftl reg k mod 2 ^ w) in
    (table_at tab b :: out, reg')
  end.

(* `reg <<= 8; reg |= b` for each byte *)
Fixpoint absorb (w : Z) (reg : Z) (s : bytes) {struct s} : Z :=
  match s with
  | [] => reg
  | c :: t => absorb w (Z.lor (Z.shiftl reg 8 mod 2 ^ w) (Z.land c 0xFF)) t
  end.

(* string.cpp:1112-1143 std_string_hex_encode; `first` is text.empty() *)
Fixpoint hex_encode_loop (delim : bytes) (first : bool) (data : bytes) {struct data} : bytes :=
  match data with
  | [] => []
  | c :: t =>
    let reg := Z.shiftl (Z.land c 0xFF) 24 mod 2 ^ 32 in
    (if first then [] else delim) ++ fst (emit 32 27 0xFE 4 base16_table 2 reg)
    ++ hex_encode_loop delim false t
  end.
Definition hex_encode (delim : bytes) (data : bytes) : bytes := hex_encode_loop delim true data.

(* string.cpp:1145-1186 std_string_hex_decode *)
Fixpoint hex_decode_loop (reg : Z) (text : bytes) {struct text} : outcome bytes :=
  match text with
  | [] => if negb (reg =? 1) then Throw else Ok []
  | c :: t =>
    match xstrchr spaces c with
    | Some _ => if negb (reg =? 1) then Throw else hex_decode_loop reg t
    | None =>
      let reg := Z.shiftl reg 4 mod 2 ^ 32 in
      match xstrchr base16_table c with
      | None => Throw
      | Some pos =>
        let reg := Z.lor reg (pos / 2) in
        if Z.land reg 0x100 =? 0 then hex_decode_loop reg t
        else match hex_decode_loop 1 t with
             | Ok r => Ok (reg mod 256 :: r)
             | e => e
             end
      end
    end
  end.
Definition hex_decode (text : bytes) : outcome bytes := hex_decode_loop 1 text.

(* string.cpp:1215-1239: the tail of base32_encode with m < 5 bytes left *)
Definition base32_tail (reg : Z) (rest : bytes) : bytes :=
  let m := Z.of_nat (length rest) in
  let p := (m * 8 + 4) / 5 in
  let reg := Z.shiftl (absorb 64 reg rest) (64 - m * 8) mod 2 ^ 64 in
  fst (emit 64 58 0xFE 5 base32_table (Z.to_nat p) reg)
  ++ repeat (table_at base32_table 64) (Z.to_nat (8 - p)).

(* string.cpp:1188-1240 std_string_base32_encode *)
Fixpoint base32_encode_loop (reg : Z) (data : bytes) {struct data} : bytes :=
  match data with
  | b0 :: b1 :: b2 :: b3 :: b4 :: t =>
    let g := emit 64 58 0xFE 5 base32_table 8
               (Z.shiftl (absorb 64 reg [b0; b1; b2; b3; b4]) 24 mod 2 ^ 64) in
    fst g ++ base32_encode_loop (snd g) t
  | [] => []
  | rest => base32_tail reg rest
  end.
Definition base32_encode (data : bytes) : bytes := base32_encode_loop 0 data.

(* string.cpp:1297-1300 / 1419-1422: `reg <<= 8; data += (char)(reg >> g)` *)
Fixpoint extract (w g : Z) (n : nat) (reg : Z) {struct n} : bytes :=
  match n with
  | O => []
  | S n' =>
    let reg := Z.shiftl reg 8 mod 2 ^ w in
    Z.shiftr reg g mod 256 :: extract w g n' reg
  end.

(* string.cpp:1260-1285: shift the register and read a padding character or a
   digit; None when it throws *)
Definition base32_digit (c reg npad : Z) : option (Z * Z) :=
  let reg := Z.shiftl reg 5 mod 2 ^ 64 in
  if c =? table_at base32_table 64 then
    if reg <? 0x100 then None else Some (reg, npad + 1)
  else
    match xstrchr base32_table c with
    | None => None
    | Some pos => if negb (npad =? 0) then None else Some (Z.lor reg (pos / 2), npad)
    end.

(* string.cpp:1242-1307 std_string_base32_decode *)
Fixpoint base32_decode_loop (reg npad : Z) (text : bytes) {struct text} : outcome bytes :=
  match text with
  | [] => if negb (reg =? 1) then Throw else Ok []
  | c :: t =>
    match xstrchr spaces c with
    | Some _ => if negb (reg =? 1) then Throw else base32_decode_loop reg npad t
    | None =>
      match base32_digit c reg npad with
      | None => Throw
      | Some (reg, npad) =>
        if Z.land reg 0x10000000000 =? 0 then base32_decode_loop reg npad t
        else
          let m := (40 - npad * 5) mod 2 ^ 32 / 8 in
          let p := (m * 8 + 4) / 5 in
          if negb (p + npad =? 8) then Throw
          else match base32_decode_loop 1 0 t with
               | Ok r => Ok (extract 64 40 (Z.to_nat m) reg ++ r)
               | e => e
               end
      end
    end
  end.
Definition base32_decode (text : bytes) : outcome bytes := base32_decode_loop 1 0 text.

(* string.cpp:1336-1360 *)
Definition base64_tail (reg : Z) (rest : bytes) : bytes :=
  let m := Z.of_nat (length rest) in
  let p := (m * 8 + 5) / 6 in
  let reg := Z.shiftl (absorb 32 reg rest) (32 - m * 8) mod 2 ^ 32 in
  fst (emit 32 26 0xFF 6 base64_table (Z.to_nat p) reg)
  ++ repeat (table_at base64_table 64) (Z.to_nat (4 - p)).

(* string.cpp:1309-1361 std_string_base64_encode *)
Fixpoint base64_encode_loop (reg : Z) (data : bytes) {struct data} : bytes :=
  match data with
  | b0 :: b1 :: b2 :: t =>
    let g := emit 32 26 0xFF 6 base64_table 4
               (Z.shiftl (absorb 32 reg [b0; b1; b2]) 8 mod 2 ^ 32) in
    fst g ++ base64_encode_loop (snd g) t
  | [] => []
  | rest => base64_tail reg rest
  end.
Definition base64_encode (data : bytes) : bytes := base64_encode_loop 0 data.

(* string.cpp:1382-1407: shift the register and read a padding character or a
   digit; None when it throws *)
Definition base64_digit (c reg npad : Z) : option (Z * Z) :=
  let reg := Z.shiftl reg 6 mod 2 ^ 32 in
  if c =? table_at base64_table 64 then
    if reg <? 0x100 then None else Some (reg, npad + 1)
  else
    match xstrchr base64_table c with
    | None => None
    | Some pos => if negb (npad =? 0) then None else Some (Z.lor reg pos, npad)
    end.

(* string.cpp:1363-1429 std_string_base64_decode *)
Fixpoint base64_decode_loop (reg npad : Z) (text : bytes) {struct text} : outcome bytes :=
  match text with
  | [] => if negb (reg =? 1) then Throw else Ok []
  | c :: t =>
    match xstrchr spaces c with
    | Some _ => if negb (reg =? 1) then Throw else base64_decode_loop reg npad t
    | None =>
      match base64_digit c reg npad with
      | None => Throw
      | Some (reg, npad) =>
        if Z.land reg 0x1000000 =? 0 then base64_decode_loop reg npad t
        else
          let m := (24 - npad * 6) mod 2 ^ 32 / 8 in
          let p := (m * 8 + 5) / 6 in
          if negb (p + npad =? 4) then Throw
          else match base64_decode_loop 1 0 t with
               | Ok r => Ok (extract 32 24 (Z.to_nat m) reg ++ r)
               | e => e
               end
      end
    end
  end.
Definition base64_decode (text : bytes) : outcome bytes := base64_decode_loop 1 0 text.

Definition alnum (c : Z) : bool :=
  ((48 <=? c) && (c <=? 57)) || ((65 <=? c) && (c <=? 90)) || ((97 <=? c) && (c <=? 122)).

Definition pct (c : Z) : bytes :=
  [37; table_at base16_table (Z.shiftr (Z.land c 0xF0) 3);
   table_at base16_table (Z.shiftl (Z.land c 0x0F) 1)].

(* string.cpp:1431-1455 std_string_url_encode *)
Fixpoint url_encode (data : bytes) {struct data} : bytes :=
  match data with
  | [] => []
  | c :: t =>
    (if alnum c then [c]
     else if (c =? 45) || (c =? 95) || (c =? 126) || (c =? 46) then [c]
     else pct c) ++ url_encode t
  end.

(* string.cpp:1457-1499 std_string_url_decode *)
Fixpoint url_decode (text : bytes) {struct text} : outcome bytes :=
  match text with
  | [] => Ok []
  | c :: t =>
    if ((0 <=? c) && (c <=? 32)) || (c =? 0x7F) || (c =? 0xFF) then Throw
    else if negb (c =? 37) then
      match url_decode t with Ok r => Ok (c :: r) | e => e end
    else
      match t with
      | h :: l :: t' =>
        match xstrchr base16_table h, xstrchr base16_table l with
        | Some ph, Some pl =>
          match url_decode t' with
          | Ok r => Ok ((ph / 2 * 16 + pl / 2) mod 256 :: r)
          | e => e
          end
        | _, _ => Throw
        end
      | _ => Throw
      end
  end.

(* string.cpp:1501-1531 std_string_url_query_encode *)
Fixpoint url_query_encode (data : bytes) {struct data} : bytes :=
  match data with
  | [] => []
  | c :: t =>
    (if alnum c then [c]
     else if (c =? 45) || (c =? 95) || (c =? 46) then [c]
     else if c =? 32 then [43]
     else pct c) ++ url_query_encode t
  end.

(* string.cpp:1533-1582 std_string_url_query_decode *)
Fixpoint url_query_decode (text : bytes) {struct text} : outcome bytes :=
  match text with
  | [] => Ok []
  | c :: t =>
    if ((0 <=? c) && (c <=? 32)) || (c =? 0x7F) || (c =? 0xFF) then Throw
    else if c =? 43 then
      match url_query_decode t with Ok r => Ok (32 :: r) | e => e end
    else if negb (c =? 37) then
      match url_query_decode t with Ok r => Ok (c :: r) | e => e end
    else
      match t with
      | h :: l :: t' =>
        match xstrchr base16_table h, xstrchr base16_table l with
        | Some ph, Some pl =>
          match url_query_decode t' with
          | Ok r => Ok ((ph / 2 * 16 + pl / 2) mod 256 :: r)
          | e => e
          end
        | _, _ => Throw
        end
      | _ => Throw
      end
  end.
