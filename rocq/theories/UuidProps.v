(* C78: std.system.random_uuid *)
From Verif Require Import Base Text UuidModel UuidSpec UuidProofs.

(* The result is a UUID of version 4, in lower case. *)
Theorem C78_shape : forall q0 q1, exists ds, version4 ds /\ random_uuid q0 q1 = dashed ds.
Proof. exact uuid_shape. Qed.
Print Assumptions C78_shape.

(* Every such UUID is the result for some random bits. *)
Theorem C78_all : forall ds, version4 ds -> exists q0 q1, u64 q0 /\ u64 q1 /\ random_uuid q0 q1 = dashed ds.
Proof. exact uuid_all. Qed.
Print Assumptions C78_all.

(* All random bits but six, always the same ones, are recovered from the result,
   and these six do not matter; so if all bits are equally likely then all UUIDs
   of version 4 are. *)
Theorem C78_same : forall q0 q1 q0' q1', u64 q1 -> u64 q1' ->
  (random_uuid q0 q1 = random_uuid q0' q1' <-> q0 mod 2 ^ 60 = q0' mod 2 ^ 60 /\ q1 mod 4 = q1' mod 4 /\ q1 / 16 = q1' / 16).
Proof. exact same_iff. Qed.
Print Assumptions C78_same.

(* different digits give different texts *)
Theorem C78_text : forall ds ds', version4 ds -> version4 ds' -> dashed ds = dashed ds' -> ds = ds'.
Proof. exact dashed_inj. Qed.
Print Assumptions C78_text.

Example C78_ex : random_uuid 0xFEDCBA9876543210 0x0F1E2D3C4B5A6978 = str "01234567-89ab-4cde-8796-a5b4c3d2e1f0".
Proof. vm_compute. reflexivity. Qed.
Example C78_ex_v4 : version4 [0; 1; 2; 3; 4; 5; 6; 7; 8; 9; 10; 11; 4; 12; 13; 14; 8; 7; 9; 6; 10; 5; 11; 4; 12; 3; 13; 2; 14; 1; 15; 0].
Proof. split; [reflexivity|]. split; [repeat constructor; unfold digit; lia|]. split; [reflexivity|cbn; lia]. Qed.
