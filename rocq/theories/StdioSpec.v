(* Text as lines of Unicode characters. *)
From Verif Require Import Base UtfSpec.

Definition LF : Z := 10.
Definition text_of (cps : list Z) : bytes := concat (map rfc3629 cps).
(* text with the code points cps, as far as the decoder tells: see C03 *)
Definition spells (s : bytes) (cps : list Z) : Prop :=
  Forall scalar cps /\ exists parts, s = concat parts /\ Forall2 loose_encoding parts cps.
(* no character can be read from the beginning *)
Definition malformed (s : bytes) : Prop :=
  s <> [] /\ ~ exists cp pre rest, scalar cp /\ loose_encoding pre cp /\ s = pre ++ rest.
(* a line, and what comes after it *)
Definition line_of (inp line rest : list Z) : Prop :=
  ~ In LF line /\ (inp = line ++ LF :: rest \/ (inp = line /\ rest = [])).
Definition at_most (limit : option Z) : Z :=
  match limit with Some n => Z.max 0 (Z.min n (2 ^ 31 - 1)) | None => 2 ^ 31 - 1 end.
