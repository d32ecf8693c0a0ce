(* Property theorems C01-C03: UTF-8 and UTF-16. *)
From Verif Require Import Base UtfModel UtfSpec UtfProofs.

Theorem C01_utf8_encode : forall cp, 0 <= cp < 2 ^ 32 ->
  (scalar cp /\ utf8_encode cp = Some (rfc3629 cp)) \/ (~ scalar cp /\ utf8_encode cp = None).
Proof. exact utf8_encode_spec. Qed.
Print Assumptions C01_utf8_encode.
Example C01_encode_ex : utf8_encode 0x20AC = Some [0xE2; 0x82; 0xAC] /\ utf8_encode 0xD800 = None.
Proof. split; reflexivity. Qed.

Theorem C01_utf8_roundtrip : forall cp rest, scalar cp ->
  exists s, utf8_encode cp = Some s /\ utf8_decode (s ++ rest) = Some (cp, rest).
Proof. exact utf8_roundtrip. Qed.
Print Assumptions C01_utf8_roundtrip.
Example C01_roundtrip_ex : scalar 0x1F600 /\ utf8_decode ([0xF0; 0x9F; 0x98; 0x80] ++ [0x41]) = Some (0x1F600, [0x41]).
Proof. split; [unfold scalar; lia|reflexivity]. Qed.

(* The library functions on arrays of code points, strict or permissive. *)
Theorem C01_string_roundtrip : forall perm perm' cps, Forall is_int64 cps -> Forall scalar cps ->
  exists s, std_utf8_encode perm cps = Ok s /\ std_utf8_decode perm' s = Some (Ok cps).
Proof. exact std_utf8_roundtrip. Qed.
Print Assumptions C01_string_roundtrip.
Theorem C01_string_encode_rejects : forall cps, Forall is_int64 cps -> ~ Forall scalar cps ->
  std_utf8_encode false cps = Throw.
Proof. exact std_encode_throws. Qed.
Print Assumptions C01_string_encode_rejects.
Theorem C01_permissive_decode_total : forall s, all_bytes s ->
  exists cps, std_utf8_decode true s = Some (Ok cps).
Proof. exact std_decode_permissive. Qed.
Print Assumptions C01_permissive_decode_total.
Example C01_string_ex :
  std_utf8_encode false [0x41; 0x20AC; 0x1F600] = Ok [0x41; 0xE2; 0x82; 0xAC; 0xF0; 0x9F; 0x98; 0x80]
  /\ std_utf8_encode false [0x41; -1] = Throw
  /\ std_utf8_decode true [0xFF; 0x41] = Some (Ok [0xFF; 0x41]).
Proof. repeat split; reflexivity. Qed.

Theorem C02_utf16_encode : forall cp, 0 <= cp < 2 ^ 32 ->
  (scalar cp /\ utf16_encode cp = Some (rfc2781 cp)) \/ (~ scalar cp /\ utf16_encode cp = None).
Proof. exact utf16_encode_spec. Qed.
Print Assumptions C02_utf16_encode.
Theorem C02_utf16_roundtrip : forall cp rest, scalar cp ->
  exists s, utf16_encode cp = Some s /\ utf16_decode (s ++ rest) = Some (cp, rest).
Proof. exact utf16_roundtrip. Qed.
Print Assumptions C02_utf16_roundtrip.
Theorem C02_utf16_decode_strict : forall s cp rest, Forall is_u16 s ->
  utf16_decode s = Some (cp, rest) -> scalar cp /\ s = rfc2781 cp ++ rest.
Proof. exact utf16_decode_sound. Qed.
Print Assumptions C02_utf16_decode_strict.
Theorem C02_utf16_validate : forall s, Forall is_u16 s -> (utf16_validate s = Some true <-> utf16_wf s).
Proof. exact utf16_validate_iff. Qed.
Print Assumptions C02_utf16_validate.
Example C02_ex : scalar 0x1F600 /\ utf16_encode 0x1F600 = Some [0xD83D; 0xDE00]
  /\ utf16_decode [0xD83D; 0xDE00; 65] = Some (0x1F600, [65])
  /\ utf16_validate [0xD83D; 65] = Some false.
Proof. split; [unfold scalar; lia|]. repeat split; reflexivity. Qed.

(* C03. Every well-formed text is accepted and the loop terminates, but the
   converse is false: ill-formed texts are accepted too. *)
Theorem C03_validate_accepts_wf_partial : forall s, utf8_wf s -> utf8_validate s = Some true.
Proof. exact utf8_validate_complete. Qed.
Print Assumptions C03_validate_accepts_wf_partial.
Theorem C03_validate_terminates : forall s, all_bytes s -> utf8_validate s <> None.
Proof. exact utf8_validate_total. Qed.
Print Assumptions C03_validate_terminates.
(* What is accepted: encodings in which the two top bits of each trailing byte
   are arbitrary. *)
Theorem C03_validate_accepts_exactly_loose : forall s, all_bytes s ->
  (utf8_validate s = Some true <->
   exists cps parts, Forall scalar cps /\ s = concat parts /\ Forall2 loose_encoding parts cps).
Proof. exact utf8_validate_iff. Qed.
Print Assumptions C03_validate_accepts_exactly_loose.
Theorem C03_validate_refuted :
  exists s, all_bytes s /\ utf8_validate s = Some true /\ ~ utf8_wf s.
Proof. exact utf8_validate_refuted. Qed.
Print Assumptions C03_validate_refuted.
Example C03_ex : utf8_wf [0xC3; 0xA8] /\ utf8_validate [0xC3; 0x28] = Some true
  /\ utf8_validate [0xC0; 0x80] = Some false /\ utf8_validate [0xED; 0xA0; 0x80] = Some false.
Proof.
  split; [|repeat split; reflexivity]. exists [0xE8]. split; [|reflexivity].
  repeat constructor; unfold scalar; lia.
Qed.
