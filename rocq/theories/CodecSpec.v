(* What the text codecs should do, written without reference to registers,
   tables or loops. *)
From Verif Require Import Base Text.

Definition is_space (c : Z) : Prop := In c (str " " ++ [9; 10; 11; 12; 13]).

(* big-endian value of a list of digits *)
Fixpoint be_value_from (base acc : Z) (l : list Z) : Z :=
  match l with [] => acc | d :: t => be_value_from base (acc * base + d) t end.
Definition be_value (base : Z) (l : list Z) : Z := be_value_from base 0 l.
Definition digits_below (base : Z) (l : list Z) : Prop := Forall (fun d => 0 <= d < base) l.

(* hexadecimal *)
Definition hex_digit (c v : Z) : Prop :=
  (48 <= c <= 57 /\ v = c - 48) \/ (65 <= c <= 70 /\ v = c - 55) \/ (97 <= c <= 102 /\ v = c - 87).
Definition upper_hex_digit (v : Z) : Z := if v <? 10 then 48 + v else 55 + v.

Inductive hex_denotes : bytes -> bytes -> Prop :=
| hex_nil : hex_denotes [] []
| hex_space : forall c t d, is_space c -> hex_denotes t d -> hex_denotes (c :: t) d
| hex_pair : forall h l vh vl t d,
    hex_digit h vh -> hex_digit l vl -> hex_denotes t d ->
    hex_denotes (h :: l :: t) (16 * vh + vl :: d).

(* "AB", delimiter, "CD", ... *)
Fixpoint hex_text (delim : bytes) (data : bytes) : bytes :=
  match data with
  | [] => []
  | [b] => [upper_hex_digit (b / 16); upper_hex_digit (b mod 16)]
  | b :: t => [upper_hex_digit (b / 16); upper_hex_digit (b mod 16)] ++ delim ++ hex_text delim t
  end.

(* RFC 4648: input is taken in chunks of n bytes; each chunk, read as one
   big-endian number, is written as digits of k bits, zero bits being added
   after the chunk to fill the last digit, and '=' fills up the group of g
   characters. *)
Definition ndigits (k m : Z) : Z := (8 * m + (k - 1)) / k.

Definition rfc_group (k g : Z) (alph : list Z) (chunk out : bytes) : Prop :=
  exists ds,
    Z.of_nat (length ds) = ndigits k (Z.of_nat (length chunk)) /\
    digits_below (2 ^ k) ds /\
    be_value (2 ^ k) ds =
      be_value 256 chunk * 2 ^ (k * Z.of_nat (length ds) - 8 * Z.of_nat (length chunk)) /\
    out = map (fun d => nth (Z.to_nat d) alph (-1)) ds
          ++ repeat 61 (Z.to_nat g - length ds).

Inductive rfc_encoding (n k g : Z) (alph : list Z) : bytes -> bytes -> Prop :=
| rfc_nil : rfc_encoding n k g alph [] []
| rfc_last : forall chunk out,
    0 < Z.of_nat (length chunk) < n -> rfc_group k g alph chunk out ->
    rfc_encoding n k g alph chunk out
| rfc_full : forall chunk out rest t,
    Z.of_nat (length chunk) = n -> rfc_group k g alph chunk out ->
    rfc_encoding n k g alph rest t ->
    rfc_encoding n k g alph (chunk ++ rest) (out ++ t).

Definition rfc_base32_alphabet : list Z := str "ABCDEFGHIJKLMNOPQRSTUVWXYZ234567".
Definition rfc_base64_alphabet : list Z :=
  str "ABCDEFGHIJKLMNOPQRSTUVWXYZabcdefghijklmnopqrstuvwxyz0123456789+/".

(* Base-32 digits are accepted in either case. *)
Definition base32_digit_value (c v : Z) : Prop :=
  (65 <= c <= 90 /\ v = c - 65) \/ (97 <= c <= 122 /\ v = c - 97) \/ (50 <= c <= 55 /\ v = c - 24).
Definition base64_digit_value (c v : Z) : Prop :=
  (65 <= c <= 90 /\ v = c - 65) \/ (97 <= c <= 122 /\ v = c - 71) \/ (48 <= c <= 57 /\ v = c + 4)
  \/ (c = 43 /\ v = 62) \/ (c = 47 /\ v = 63).

(* The language of the decoders: groups of g characters made of the digits of
   a chunk of m bytes (1 <= m <= n) and padding, separated by whitespace.  The
   bits of the last digit that lie beyond the chunk are ignored. *)
Inductive rfc_decoding (n k g : Z) (digit : Z -> Z -> Prop) : bytes -> bytes -> Prop :=
| dec_nil : rfc_decoding n k g digit [] []
| dec_space : forall c t d,
    is_space c -> rfc_decoding n k g digit t d -> rfc_decoding n k g digit (c :: t) d
| dec_group : forall chunk cs ds t d,
    0 < Z.of_nat (length chunk) <= n -> all_bytes chunk ->
    Z.of_nat (length ds) = ndigits k (Z.of_nat (length chunk)) ->
    Forall2 digit cs ds ->
    be_value 256 chunk =
      be_value (2 ^ k) ds / 2 ^ (k * Z.of_nat (length ds) - 8 * Z.of_nat (length chunk)) ->
    rfc_decoding n k g digit t d ->
    rfc_decoding n k g digit (cs ++ repeat 61 (Z.to_nat g - length ds) ++ t) (chunk ++ d).

(* RFC 3986 unreserved characters and %XX escapes *)
Definition unreserved (c : Z) : Prop :=
  48 <= c <= 57 \/ 65 <= c <= 90 \/ 97 <= c <= 122 \/ c = 45 \/ c = 95 \/ c = 46 \/ c = 126.
Definition query_plain (c : Z) : Prop :=
  48 <= c <= 57 \/ 65 <= c <= 90 \/ 97 <= c <= 122 \/ c = 45 \/ c = 95 \/ c = 46.

Fixpoint url_text (plain : Z -> bool) (plus : bool) (data : bytes) : bytes :=
  match data with
  | [] => []
  | c :: t =>
    (if plain c then [c]
     else if plus && (c =? 32) then [43]
     else [37; upper_hex_digit (c / 16); upper_hex_digit (c mod 16)]) ++ url_text plain plus t
  end.

(* The language of the decoders: escapes denote a byte, '+' a space in query
   strings, control characters and spaces are not allowed, all else is itself. *)
Definition url_bad (c : Z) : Prop := 0 <= c <= 32 \/ c = 127 \/ c = 255.
Inductive url_denotes (plus : bool) : bytes -> bytes -> Prop :=
| url_nil : url_denotes plus [] []
| url_escape : forall h l vh vl t d,
    hex_digit h vh -> hex_digit l vl -> url_denotes plus t d ->
    url_denotes plus (37 :: h :: l :: t) (16 * vh + vl :: d)
| url_plus : forall t d,
    plus = true -> url_denotes plus t d -> url_denotes plus (43 :: t) (32 :: d)
| url_other : forall c t d,
    ~ url_bad c -> c <> 37 -> (plus = true -> c <> 43) ->
    url_denotes plus t d -> url_denotes plus (c :: t) (c :: d).
