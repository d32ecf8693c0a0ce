(* RFC 3629 (UTF-8) and RFC 2781 (UTF-16) by arithmetic. *)
From Verif Require Import Base.

(* Unicode scalar values *)
Definition scalar (cp : Z) : Prop := 0 <= cp < 0xD800 \/ 0xE000 <= cp < 0x110000.

Definition cont (x : Z) : Z := 128 + x mod 64.
Definition rfc3629 (cp : Z) : bytes :=
  if cp <? 128 then [cp]
  else if cp <? 2048 then [192 + cp / 64; cont cp]
  else if cp <? 65536 then [224 + cp / 4096; cont (cp / 64); cont cp]
  else [240 + cp / 262144; cont (cp / 4096); cont (cp / 64); cont cp].

Definition rfc2781 (cp : Z) : list Z :=
  if cp <? 65536 then [cp]
  else [0xD800 + (cp - 65536) / 1024; 0xDC00 + (cp - 65536) mod 1024].

(* Well-formed texts: concatenations of encodings of scalar values. *)
Definition utf8_wf (s : bytes) : Prop :=
  exists cps, Forall scalar cps /\ s = concat (map rfc3629 cps).
Definition utf16_wf (s : list Z) : Prop :=
  exists cps, Forall scalar cps /\ s = concat (map rfc2781 cps).

(* b stands where a continuation byte with the same low six bits should be. *)
Definition same_low6 (b c : Z) : Prop := b mod 64 = c mod 64.
(* The encoding of cp except that the two top bits of the bytes after the
   first one are arbitrary. *)
Definition loose_encoding (s : bytes) (cp : Z) : Prop :=
  match s, rfc3629 cp with
  | b :: s', c :: t => b = c /\ Forall2 same_low6 s' t
  | _, _ => False
  end.
