(* C76: std.filesystem.read, stream, write, append and copy *)
From Verif Require Import Base Text FileModel FileSpec FileProofs.

(* Reading gives the bytes from the offset on, no more than the limit, however
   few bytes each call of read transfers; it throws only if one of them fails. *)
Theorem C76_read : forall io f p c offset limit, f p = Some c -> Z.of_nat (length c) < 2 ^ 63 -> possible offset ->
  fs_read io f p offset limit = Ok (part c offset limit) \/ (fs_read io f p offset limit = Throw /\ ~ works io).
Proof. exact read_part. Qed.
Print Assumptions C76_read.

(* Streaming calls the function with the same bytes, in blocks that follow one
   another and with the offset of each; the result is the number of bytes.  If
   there is an error it has got the beginning of them. *)
Theorem C76_stream : forall io f p c offset limit, f p = Some c -> Z.of_nat (length c) < 2 ^ 63 -> possible offset ->
  exists calls data r, fs_stream io f p offset limit = (calls, r) /\ blocks (first offset) calls data /\
  ((r = Ok (Z.of_nat (length data)) /\ data = part c offset limit) \/
   (r = Throw /\ ~ works io /\ exists rest, part c offset limit = data ++ rest)).
Proof. exact stream_parts. Qed.
Print Assumptions C76_stream.

(* files that do not exist, and negative offsets *)
Theorem C76_unreadable : forall io f p offset limit, ~ possible offset \/ f p = None ->
  fs_read io f p offset limit = Throw /\ fs_stream io f p offset limit = ([], Throw).
Proof. exact read_bad. Qed.
Print Assumptions C76_unreadable.

(* Writing cuts the file at the offset, or fills it with zeroes up to there,
   and puts the data after it; other files stay as they are. *)
Theorem C76_write : forall io f p offset data, possible offset -> exists f' start r,
  fs_write io f p offset data = (f', r) /\ same_elsewhere f f' p /\
  match offset with
  | None => start = []
  | Some o => resized o (match f p with Some c => c | None => [] end) start
  end /\ wrote io start data (f' p) r.
Proof. exact write_wrote. Qed.
Print Assumptions C76_write.

Theorem C76_append : forall io f p data exclusive, exclusive = false \/ f p = None -> exists f' r,
  fs_append io f p data exclusive = (f', r) /\ same_elsewhere f f' p /\
  wrote io (match f p with Some c => c | None => [] end) data (f' p) r.
Proof. exact append_wrote. Qed.
Print Assumptions C76_append.

(* what is refused leaves all files as they are *)
Theorem C76_refused : forall io f p offset data pnew nbuf,
  (~ possible offset -> fs_write io f p offset data = (f, Throw)) /\
  (f p <> None -> fs_append io f p data true = (f, Throw)) /\
  (f p = None -> fs_copy io f pnew p nbuf = (f, Throw)).
Proof. exact refused. Qed.
Print Assumptions C76_refused.

(* A copy at another path has the contents of the original, which stays as it
   is, whatever the size of the buffer. *)
Theorem C76_copy : forall io f pnew pold c nbuf, pnew <> pold -> f pold = Some c -> 1 <= nbuf ->
  exists f' r, fs_copy io f pnew pold nbuf = (f', r) /\ same_elsewhere f f' pnew /\ wrote io [] c (f' pnew) r.
Proof. exact copy_wrote. Qed.
Print Assumptions C76_copy.

(* But a file that is copied onto itself is emptied, without an error. *)
Theorem C76_copy_self_refuted : exists f p c nbuf, f p = Some c /\ c <> [] /\ 4096 <= nbuf /\
  exists f', fs_copy (fun _ => Some 4096) f p p nbuf = (f', Ok tt) /\ f' p = Some [].
Proof. exact copy_self. Qed.
Print Assumptions C76_copy_self_refuted.

(* examples: every call transfers two bytes, or one; the fourth call fails *)
Definition ex_io (k : nat) : option Z := if Nat.even k then Some 2 else Some 0.
Definition ex_bad (k : nat) : option Z := if Nat.eqb k 3 then None else Some 2.
Definition ex_files : files := set_file (set_file (fun _ => None) (str "a") (str "abcdefgh")) (str "b") (str "xyz").
Example C76_ex_works : works ex_io.
Proof. intros k. unfold ex_io. destruct (Nat.even k); discriminate. Qed.
Example C76_ex_read : fs_read ex_io ex_files (str "a") (Some 1) (Some 6) = Ok (str "bcdefg") /\
  fs_read ex_io ex_files (str "a") None None = Ok (str "abcdefgh") /\
  fs_read ex_io ex_files (str "a") (Some 9) None = Ok [] /\
  fs_read ex_bad ex_files (str "a") (Some 1) None = Throw /\
  fs_read ex_bad ex_files (str "a") (Some 1) (Some 6) = Ok (str "bcdefg") /\
  fs_read ex_io ex_files (str "c") None None = Throw.
Proof. vm_compute. repeat split. Qed.
Example C76_ex_stream : fs_stream ex_io ex_files (str "a") (Some 1) (Some 6) =
  ([(1, str "bc"); (3, str "d"); (4, str "ef"); (6, str "g")], Ok 6) /\
  fs_stream ex_bad ex_files (str "a") None None = ([(0, str "ab"); (2, str "cd"); (4, str "ef")], Throw).
Proof. vm_compute. repeat split. Qed.
Example C76_ex_write : fst (fs_write ex_io ex_files (str "a") (Some 3) (str "uvw")) (str "a") = Some (str "abcuvw") /\
  fst (fs_write ex_io ex_files (str "b") (Some 5) (str "uvw")) (str "b") = Some (str "xyz" ++ [0; 0] ++ str "uvw") /\
  fst (fs_write ex_io ex_files (str "a") None (str "uvw")) (str "a") = Some (str "uvw") /\
  fst (fs_write ex_bad ex_files (str "a") None (str "abcdefgh")) (str "a") = Some (str "abcdef") /\
  fst (fs_append ex_io ex_files (str "b") (str "uvw") false) (str "b") = Some (str "xyzuvw").
Proof. vm_compute. repeat split. Qed.
Example C76_ex_copy : fst (fs_copy ex_io ex_files (str "b") (str "a") 3) (str "b") = Some (str "abcdefgh") /\
  snd (fs_copy ex_bad ex_files (str "b") (str "a") 3) = Throw.
Proof. vm_compute. repeat split. Qed.
