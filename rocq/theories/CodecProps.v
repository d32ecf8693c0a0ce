(* Property theorems C13-C16: text codecs. *)
From Verif Require Import Base Text CodecModel CodecSpec CodecFinal CodecProofs.

(* C13: hexadecimal *)
Theorem C13_hex_encode : forall delim data, all_bytes data ->
  hex_encode delim data = hex_text delim data.
Proof. exact hex_encode_text. Qed.
Print Assumptions C13_hex_encode.
Theorem C13_hex_roundtrip : forall delim data, Forall is_space delim -> all_bytes data ->
  hex_decode (hex_encode delim data) = Ok data.
Proof. exact hex_roundtrip. Qed.
Print Assumptions C13_hex_roundtrip.
Theorem C13_hex_decode_exact : forall text d, all_bytes text ->
  (hex_decode text = Ok d <-> hex_denotes text d).
Proof. exact hex_decode_iff. Qed.
Print Assumptions C13_hex_decode_exact.
Theorem C13_hex_decode_total : forall text,
  hex_decode text = Throw \/ exists d, hex_decode text = Ok d.
Proof. exact hex_decode_total. Qed.
Print Assumptions C13_hex_decode_total.
Example C13_ex :
  all_bytes [0; 171; 255] /\ Forall is_space (str " ") /\
  hex_encode (str " ") [0; 171; 255] = str "00 AB FF" /\
  hex_decode (str " 00aB Ff ") = Ok [0; 171; 255] /\
  hex_decode (str "0 0") = Throw /\ hex_decode (str "123") = Throw.
Proof.
  repeat split; try (repeat constructor; unfold is_byte; lia); try (vm_compute; reflexivity).
Qed.

(* C14: base-32 *)
Theorem C14_base32_encode : forall data, all_bytes data ->
  rfc_encoding 5 5 8 rfc_base32_alphabet data (base32_encode data).
Proof. exact base32_encode_rfc. Qed.
Print Assumptions C14_base32_encode.
Theorem C14_base32_length : forall data, all_bytes data ->
  Z.of_nat (length (base32_encode data)) = 8 * ((Z.of_nat (length data) + 4) / 5).
Proof. exact base32_length. Qed.
Print Assumptions C14_base32_length.
Theorem C14_base32_roundtrip : forall data, all_bytes data ->
  base32_decode (base32_encode data) = Ok data.
Proof. exact base32_roundtrip. Qed.
Print Assumptions C14_base32_roundtrip.
Theorem C14_base32_decode_exact : forall text d, all_bytes text ->
  (base32_decode text = Ok d <-> rfc_decoding 5 5 8 base32_digit_value text d).
Proof. exact base32_decode_iff. Qed.
Print Assumptions C14_base32_decode_exact.
Theorem C14_base32_decode_total : forall text,
  base32_decode text = Throw \/ exists d, base32_decode text = Ok d.
Proof. exact base32_decode_total. Qed.
Print Assumptions C14_base32_decode_total.
Example C14_ex :
  base32_encode (str "foobar") = str "MZXW6YTBOI======" /\
  base32_encode (str "fooba") = str "MZXW6YTB" /\
  base32_decode (str "mzxw6ytb OI======") = Ok (str "foobar") /\
  base32_decode (str "MZXW6YTBO=======") = Throw.
Proof. repeat split; vm_compute; reflexivity. Qed.

(* C15: base-64 *)
Theorem C15_base64_encode : forall data, all_bytes data ->
  rfc_encoding 3 6 4 rfc_base64_alphabet data (base64_encode data).
Proof. exact base64_encode_rfc. Qed.
Print Assumptions C15_base64_encode.
Theorem C15_base64_length : forall data, all_bytes data ->
  Z.of_nat (length (base64_encode data)) = 4 * ((Z.of_nat (length data) + 2) / 3).
Proof. exact base64_length. Qed.
Print Assumptions C15_base64_length.
Theorem C15_base64_roundtrip : forall data, all_bytes data ->
  base64_decode (base64_encode data) = Ok data.
Proof. exact base64_roundtrip. Qed.
Print Assumptions C15_base64_roundtrip.
Theorem C15_base64_decode_exact : forall text d, all_bytes text ->
  (base64_decode text = Ok d <-> rfc_decoding 3 6 4 base64_digit_value text d).
Proof. exact base64_decode_iff. Qed.
Print Assumptions C15_base64_decode_exact.
Theorem C15_base64_decode_total : forall text,
  base64_decode text = Throw \/ exists d, base64_decode text = Ok d.
Proof. exact base64_decode_total. Qed.
Print Assumptions C15_base64_decode_total.
Example C15_ex :
  base64_encode (str "foobar!") = str "Zm9vYmFyIQ==" /\
  base64_decode (str "Zm9v YmFyIQ==") = Ok (str "foobar!") /\
  base64_decode (str "Zm9vY===") = Throw.
Proof. repeat split; vm_compute; reflexivity. Qed.

(* C16: URL escaping *)
Theorem C16_url_encode : forall plain data,
  (forall c, plain c = true <-> unreserved c) -> all_bytes data ->
  url_encode data = url_text plain false data.
Proof. exact url_encode_spec. Qed.
Print Assumptions C16_url_encode.
Theorem C16_url_query_encode : forall plain data,
  (forall c, plain c = true <-> query_plain c) -> all_bytes data ->
  url_query_encode data = url_text plain true data.
Proof. exact url_query_encode_spec. Qed.
Print Assumptions C16_url_query_encode.
Theorem C16_url_roundtrip : forall data, all_bytes data -> url_decode (url_encode data) = Ok data.
Proof. exact url_roundtrip. Qed.
Print Assumptions C16_url_roundtrip.
Theorem C16_url_query_roundtrip : forall data, all_bytes data ->
  url_query_decode (url_query_encode data) = Ok data.
Proof. exact url_query_roundtrip. Qed.
Print Assumptions C16_url_query_roundtrip.
Theorem C16_url_decode_exact : forall text, all_bytes text -> forall d,
  url_decode text = Ok d <-> url_denotes false text d.
Proof. exact url_decode_iff. Qed.
Print Assumptions C16_url_decode_exact.
Theorem C16_url_query_decode_exact : forall text, all_bytes text -> forall d,
  url_query_decode text = Ok d <-> url_denotes true text d.
Proof. exact url_query_decode_iff. Qed.
Print Assumptions C16_url_query_decode_exact.
Theorem C16_decode_total : forall text,
  (url_decode text = Throw \/ exists d, url_decode text = Ok d) /\
  (url_query_decode text = Throw \/ exists d, url_query_decode text = Ok d).
Proof. exact (fun t => conj (url_decode_total t) (url_query_decode_total t)). Qed.
Print Assumptions C16_decode_total.
Example C16_ex :
  (forall c, unreservedb c = true <-> unreserved c) /\
  (forall c, query_plainb c = true <-> query_plain c) /\
  url_encode (str "a b~/" ++ [255]) = str "a%20b~%2F%FF" /\
  url_query_encode (str "a b~") = str "a+b%7E" /\
  url_decode (str "a%2") = Throw /\ url_query_decode (str "x+%41") = Ok (str "x A").
Proof.
  split; [exact unreservedb_spec|]. split; [exact query_plainb_spec|].
  repeat split; vm_compute; reflexivity.
Qed.
