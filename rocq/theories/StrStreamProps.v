(* C82: streams on strings. *)
From Verif Require Import Base StrStreamModel StrStreamSpec StrStreamProofs.

(* Writing puts the characters at the offset (at the end in append mode), with
   zeroes in between if that is beyond the end; the string ends there. *)
Theorem C82_write : forall max s l, good max s -> Forall (fun c => -128 <= c <= 127) l ->
  match putn max s l with
  | Ok s' => can_write s = true /\ good max s' /\ same_mode s s' /\ off s' = start s + Z.of_nat (length l) /\ written (text s) (start s) l (text s')
  | Throw => can_write s = false \/ max < start s + Z.of_nat (length l)
  | UB => False
  end.
Proof. exact putn_ok. Qed.
Print Assumptions C82_write.

Theorem C82_write_one : forall max s c, good max s -> putc max s c = putn max s [c].
Proof. exact putc_ok. Qed.
Print Assumptions C82_write_one.

(* Unlike with files, what follows the characters is lost; it is even lost if no
   characters are written. *)
Theorem C82_overwrite_refuted : exists max s c s', good max s /\ putc max s c = Ok s' /\ ~ keeps_rest (text s) (off s) [c] (text s')
  /\ exists s'', putn max s [] = Ok s'' /\ text s'' <> text s.
Proof.
  exists 100, (Stream [104; 101; 108; 108; 111] 0 true true false), 74, (Stream [74] 1 true true false).
  split; [repeat split; repeat constructor; cbn; lia|]. split; [reflexivity|]. split.
  - intros K. specialize (K 1%nat ltac:(cbn; lia)). discriminate K.
  - eexists. split; [reflexivity|]. discriminate.
Qed.
Print Assumptions C82_overwrite_refuted.

Theorem C82_read : forall max s n, good max s -> 0 <= n ->
  match getn s n with
  | Ok (r, s') => can_read s = true /\ good max s' /\ same_mode s s' /\ text s' = text s /\ off s' = off s + Z.of_nat (length r) /\ read_at (text s) (off s) n r
  | Throw => can_read s = false
  | UB => False
  end.
Proof. exact getn_ok. Qed.
Print Assumptions C82_read.

Theorem C82_read_one : forall max s, good max s ->
  match getn s 1 with
  | Ok ([], s') => getc s = Ok (-1, s')
  | Ok (c :: _, s') => exists u, getc s = Ok (u, s') /\ 0 <= u < 256 /\ (u = c \/ u = c + 256)
  | Throw => getc s = Throw
  | UB => False
  end.
Proof. exact getc_ok. Qed.
Print Assumptions C82_read_one.

Theorem C82_seek : forall max s o dir, good max s -> - 2 ^ 63 <= o < 2 ^ 63 ->
  let targ := match dir with Seek_set => 0 | Seek_cur => off s | Seek_end => size s end + o in
  (0 <= targ < 2 ^ 63 /\ exists s', seek s o dir = Ok s' /\ good max s' /\ same_mode s s' /\ text s' = text s /\ off s' = targ) \/
  (~ 0 <= targ < 2 ^ 63 /\ seek s o dir = Throw).
Proof. exact seek_ok. Qed.
Print Assumptions C82_seek.

(* What was written can be read back. *)
Theorem C82_read_back : forall max s l, good max s -> Forall (fun c => -128 <= c <= 127) l -> can_read s = true -> forall s1, putn max s l = Ok s1 ->
  exists s2 s3, seek s1 (start s) Seek_set = Ok s2 /\ getn s2 (Z.of_nat (length l)) = Ok (l, s3) /\ text s3 = text s1 /\ off s3 = off s1.
Proof. exact back_ok. Qed.
Print Assumptions C82_read_back.

(* "hello": writing two characters past the end and reading over the gap; the
   same in append mode. *)
Example C82_ex :
  putn 100 (Stream [104; 101; 108; 108; 111] 7 true true false) [-61; -92] = Ok (Stream [104; 101; 108; 108; 111; 0; 0; -61; -92] 9 true true false)
  /\ putn 100 (Stream [104; 101; 108; 108; 111] 7 true true true) [-61; -92] = Ok (Stream [104; 101; 108; 108; 111; -61; -92] 7 true true true)
  /\ getn (Stream [104; 101; 108; 108; 111; 0; 0; -61; -92] 4 true true false) 10 = Ok ([111; 0; 0; -61; -92], Stream [104; 101; 108; 108; 111; 0; 0; -61; -92] 9 true true false)
  /\ getc (Stream [104; -61] 1 true true false) = Ok (195, Stream [104; -61] 2 true true false)
  /\ putn 8 (Stream [104; 101] 7 true true false) [1; 2] = Throw
  /\ putn 100 (Stream [104; 101; 108; 108; 111] 1 true true false) [97] = Ok (Stream [104; 97] 2 true true false)
  /\ seek (Stream [104; 101] 1 true true false) (-2) Seek_cur = Throw
  /\ seek (Stream [104; 101] 1 true true false) (2 ^ 63 - 1) Seek_end = Throw
  /\ seek (Stream [104; 101] 1 true true false) 5 Seek_end = Ok (Stream [104; 101] 7 true true false).
Proof. vm_compute. repeat split; reflexivity. Qed.
