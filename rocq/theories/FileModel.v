(* Reading, writing and copying whole files.
   Source: asteria/src/library/filesystem.cpp:34-52, 417-473, 475-541, 543-580,
   582-606 and 608-664.
   The file system gives the contents of every path.  The k-th call of read,
   pread or write fails, or transfers at least one byte if there is one to
   transfer, and as many as `io k` says at most.  Simplifications: paths that
   differ denote different files; other system calls fail only if a file that
   has to exist does not, or one that must not does; nobody else changes the
   files meanwhile, not even the callback of stream, which does not throw;
   permissions are left out; memory never runs out. *)
From Verif Require Import Base.

Definition path := bytes.
Definition files := path -> option bytes.
Definition path_eqb (p q : path) : bool := if list_eq_dec Z.eq_dec p q then true else false.
Definition set_file (f : files) (p : path) (c : bytes) : files := fun q => if path_eqb p q then Some c else f q.

(* the first n bytes, and those after them *)
Fixpoint ztake (n : Z) (l : bytes) : bytes :=
  match l with [] => [] | x :: l => if n <=? 0 then [] else x :: ztake (n - 1) l end.
Fixpoint zdrop (n : Z) (l : bytes) : bytes :=
  match l with [] => [] | x :: l' => if n <=? 0 then l else zdrop (n - 1) l' end.
Definition size (l : bytes) : Z := Z.of_nat (length l).

Section IO.
Variable io : nat -> option Z.

(* read and pread *)
Definition sys_read (k : nat) (c : bytes) (pos count : Z) : option bytes :=
  option_map (fun d => ztake (Z.max 1 d) (ztake count (zdrop pos c))) (io k).
(* write: what is written, and what is left *)
Definition sys_write (k : nat) (data : bytes) : option (bytes * bytes) :=
  option_map (fun d => (ztake (Z.max 1 d) data, zdrop (Z.max 1 d) data)) (io k).

Definition INT_MAX : Z := 2 ^ 31 - 1.
(* 445 and 505 *)
Definition next_batch (nbatch rlimit : Z) : Z := Z.min (nbatch * 2) (Z.max 0 (Z.min rlimit INT_MAX)).

(* 439-471; [use] is whether there is an offset, [fpos] the file pointer *)
Fixpoint read_loop (fuel k : nat) (c : bytes) (use : bool) (fpos roffset rlimit nbatch : Z) (data : bytes) : outcome bytes :=
  if rlimit <=? 0 then Ok data else
  match fuel with
  | O => UB
  | S fuel =>
    let nbatch := next_batch nbatch rlimit in
    match sys_read k c (if use then roffset else fpos) nbatch with
    | None => Throw
    | Some chunk =>
      let nread := size chunk in
      if nread =? 0 then Ok data
      else read_loop fuel (S k) c use (if use then fpos else fpos + nread) (roffset + nread) (rlimit - nread) nbatch (data ++ chunk)
    end
  end.
Definition value_or (o : option Z) (d : Z) : Z := match o with Some x => x | None => d end.
Definition bad_offset (o : option Z) : bool := match o with Some x => x <? 0 | None => false end.
Definition given (o : option Z) : bool := match o with Some _ => true | None => false end.
Definition INT64_MAX : Z := 2 ^ 63 - 1.

(* 417-473 std_filesystem_read *)
Definition fs_read (f : files) (p : path) (offset limit : option Z) : outcome bytes :=
  if bad_offset offset then Throw else
  match f p with
  | None => Throw
  | Some c => read_loop (S (length c)) 0 c (given offset) 0 (value_or offset 0) (value_or limit INT64_MAX) 1048576 []
  end.

(* 499-540; the calls of the callback are collected *)
Fixpoint stream_loop (fuel k : nat) (c : bytes) (use : bool) (fpos roffset rlimit nbatch : Z) (calls : list (Z * bytes))
    : list (Z * bytes) * outcome Z :=
  if rlimit <=? 0 then (calls, Ok roffset) else
  match fuel with
  | O => (calls, UB)
  | S fuel =>
    let nbatch := next_batch nbatch rlimit in
    match sys_read k c (if use then roffset else fpos) nbatch with
    | None => (calls, Throw)
    | Some chunk =>
      let nread := size chunk in
      if nread =? 0 then (calls, Ok roffset)
      else stream_loop fuel (S k) c use (if use then fpos else fpos + nread) (roffset + nread) (rlimit - nread) nbatch
             (calls ++ [(roffset, chunk)])
    end
  end.
(* 475-541 std_filesystem_stream *)
Definition fs_stream (f : files) (p : path) (offset limit : option Z) : list (Z * bytes) * outcome Z :=
  if bad_offset offset then ([], Throw) else
  match f p with
  | None => ([], Throw)
  | Some c =>
    match stream_loop (S (length c)) 0 c (given offset) 0 (value_or offset 0) (value_or limit INT64_MAX) 1048576 [] with
    | (calls, Ok roffset) => (calls, Ok (roffset - value_or offset 0))
    | r => r
    end
  end.

(* 34-52 do_write_loop, for a file opened with O_APPEND; [k] is returned as well *)
Fixpoint write_loop (fuel k : nat) (c data : bytes) : nat * bytes * outcome unit :=
  match data with
  | [] => (k, c, Ok tt)
  | _ =>
    match fuel with
    | O => (k, c, UB)
    | S fuel =>
      match sys_write k data with
      | None => (S k, c, Throw)
      | Some (w, rest) => write_loop fuel (S k) (c ++ w) rest
      end
    end
  end.
(* ftruncate: the file is cut, or zeroes are added *)
Definition truncated (n : Z) (c : bytes) : bytes := ztake n c ++ repeat 0 (Z.to_nat (n - size c)).

Definition written (f : files) (p : path) (c data : bytes) : files * outcome unit :=
  let '(_, c, r) := write_loop (length data) 0 c data in (set_file f p c, r).
(* 543-580 std_filesystem_write *)
Definition fs_write (f : files) (p : path) (offset : option Z) (data : bytes) : files * outcome unit :=
  match offset with
  | None => written f p [] data
  | Some o =>
    if o <? 0 then (f, Throw)
    else written f p (truncated o (match f p with Some c => c | None => [] end)) data
  end.
(* 582-606 std_filesystem_append *)
Definition fs_append (f : files) (p : path) (data : bytes) (exclusive : bool) : files * outcome unit :=
  match f p with
  | Some c => if exclusive then (f, Throw) else written f p c data
  | None => written f p [] data
  end.

(* 644-656; the old file is read from its current contents *)
Fixpoint copy_loop (fuel k : nat) (nbuf : Z) (f : files) (pnew pold : path) (fpos : Z) : files * outcome unit :=
  match fuel with
  | O => (f, UB)
  | S fuel =>
    match f pold, f pnew with
    | Some old, Some new =>
      match sys_read k old fpos nbuf with
      | None => (f, Throw)
      | Some chunk =>
        if size chunk =? 0 then (f, Ok tt) else
        let '(k, new, r) := write_loop (length chunk) (S k) new chunk in
        let f := set_file f pnew new in
        match r with
        | Ok _ => copy_loop fuel k nbuf f pnew pold (fpos + size chunk)
        | Throw => (f, Throw)
        | UB => (f, UB)
        end
      end
    | _, _ => (f, UB)
    end
  end.
(* 608-664 std_filesystem_copy; [nbuf] is the size of the buffer *)
Definition fs_copy (f : files) (pnew pold : path) (nbuf : Z) : files * outcome unit :=
  match f pold with
  | None => (f, Throw)
  | Some c => copy_loop (S (length c)) 0 nbuf (set_file f pnew []) pnew pold 0
  end.
End IO.
