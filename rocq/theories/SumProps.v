(* C40: streaming hashers. *)
From Verif Require Import Base Text SumModel SumSpec SumProofs.

Local Open Scope Z_scope.

(* For any program that makes, copies, assigns, destroys, feeds, finishes and clears
   hashers, every checksum is that of the bytes fed to that very variable since it was
   made, finished or cleared; nothing undefined happens, and every object left is held by
   a variable. *)
Theorem C40_history : forall ops vs es,
  deep_run fnv1a [] ops = Some (vs, es) ->
  exists m, run fnv_init fnv_upd fnv_final (Mem [] []) ops = Ok (m, es) /\
    (forall p n r, nth_error (cells m) p = Some (Live n r) ->
       exists v b, nth_error (vars m) v = Some (Some (Some p)) /\ nth_error vs v = Some (Some (Some b))).
Proof.
  intros ops vs es H. apply (history fnv_init fnv_upd fnv_final fnv_nil fnv_app).
  rewrite <- H. apply deep_run_ext. exact fnv_oneshot.
Qed.
Print Assumptions C40_history.

(* The same for every hasher whose register takes bytes one chunk after the other, as
   those of zlib and OpenSSL do by their documentation. *)
Theorem C40_history_any : forall (R O : Type) (init : R) (upd : R -> bytes -> R) (final : R -> O),
  (forall r, upd r [] = r) -> (forall r a b, upd r (a ++ b) = upd (upd r a) b) ->
  forall ops vs es,
  deep_run (fun b => final (upd init b)) [] ops = Some (vs, es) ->
  exists m, run init upd final (Mem [] []) ops = Ok (m, es) /\
    (forall p n r, nth_error (cells m) p = Some (Live n r) ->
       exists v b, nth_error (vars m) v = Some (Some (Some p)) /\ nth_error vs v = Some (Some (Some b))).
Proof. exact (@history). Qed.
Print Assumptions C40_history_any.

Theorem C40_oneshot : forall s, hash_bytes fnv_init fnv_upd fnv_final s = fnv1a s.
Proof. exact fnv_oneshot. Qed.
Print Assumptions C40_oneshot.

(* A file is hashed as its content, however it is cut into reads; an error is thrown. *)
Theorem C40_file : forall reads,
  hash_file fnv_init fnv_upd fnv_final reads =
  match content reads with Some s => Ok (fnv1a s) | None => Throw end.
Proof.
  intros reads. unfold hash_file. rewrite (file_ok fnv_upd fnv_final fnv_nil fnv_app).
  destruct (content reads); [rewrite fnv_oneshot|]; reflexivity.
Qed.
Print Assumptions C40_file.

(* Digests of MD5 and SHA are shown as hexadecimal digits. *)
Theorem C40_digest_text : forall bs, Forall (fun b => 0 <= b < 256) bs ->
  copy_sha_result bs = hex_text bs.
Proof. exact sha_text. Qed.
Print Assumptions C40_digest_text.

Example C40_ex :
  let ops := [Make; Update 0 (str "foo"); Copy 0; Update 0 (str "bar"); Finish 1; Finish 0;
              Update 1 (str "a"); Assign 0 1; Finish 0; Finish 1; Make_null; Finish 2; Drop 0; Finish 1] in
  deep_run fnv1a [] ops =
    Some ([None; Some (Some []); Some None],
          [Quiet; Quiet; Quiet; Quiet; Sum 0xa9f37ed7; Sum 0xbf9cf968; Quiet; Quiet;
           Sum 0xe40c292c; Sum 0xe40c292c; Quiet; Thrown; Quiet; Sum 0x811c9dc5]) /\
  hash_bytes fnv_init fnv_upd fnv_final (str "foobar") = 0xbf9cf968 /\
  hash_file fnv_init fnv_upd fnv_final [Some (str "foo"); Some (str "bar")] = Ok 0xbf9cf968 /\
  copy_sha_result [0xd4; 0x1d; 0x8c] = str "D41D8C".
Proof. repeat split; vm_compute; reflexivity. Qed.
