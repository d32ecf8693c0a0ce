(* Streaming hashers of std.checksum (asteria/src/library/checksum.cpp) and the shared
   opaque values that hold them (asteria/fwd.hpp:245-410, cow_opaque).

   A hasher is a register with an initial value, an update and a final function.  FNV-1a
   is defined here; CRC-32 and Adler-32 belong to zlib and MD5 and SHA to OpenSSL, so for
   these the three are parameters.  Memory is a list of hasher objects with their
   reference counts; variables are a list of pointers, which may be null.  An object whose
   count drops to zero is gone, and touching it is undefined.

   Simplifications: one thread; reference counts do not overflow; allocation does not
   fail; dynamic_cast to the hasher's own class succeeds. *)
From Verif Require Import Base Monad SeqModel.

Local Open Scope Z_scope.

Section Hasher.
Context {R O : Type}.
Variable init : R.
Variable upd : R -> bytes -> R.
Variable final : R -> O.

Inductive cell := Live (nref : Z) (reg : R) | Gone.
(* An entry of [vars] is None when the variable does not exist (any more), Some None when
   the pointer is null. *)
Record mem := Mem { cells : list cell; vars : list (option (option nat)) }.

Definition get_var (m : mem) (v : nat) : outcome (option nat) :=
  match nth_error (vars m) v with Some (Some o) => Ok o | _ => UB end.
Definition set_var (m : mem) (v : nat) (o : option (option nat)) : mem :=
  Mem (cells m) (set_nth (vars m) v o).
Definition get_cell (m : mem) (p : nat) : outcome (Z * R) :=
  match nth_error (cells m) p with Some (Live n r) => Ok (n, r) | _ => UB end.
Definition set_cell (m : mem) (p : nat) (c : cell) : mem := Mem (set_nth (cells m) p c) (vars m).

(* rocket/details/refcnt_ptr.ipp:112-140, fork and reset of the stored pointer. *)
Definition acquire (m : mem) (o : option nat) : outcome mem :=
  match o with
  | None => Ok m
  | Some p => do c <- get_cell m p ; Ok (set_cell m p (Live (fst c + 1) (snd c)))
  end.
Definition release (m : mem) (o : option nat) : outcome mem :=
  match o with
  | None => Ok m
  | Some p =>
      do c <- get_cell m p ;
      Ok (set_cell m p (if fst c - 1 =? 0 then Gone else Live (fst c - 1) (snd c)))
  end.

(* std_checksum_..._private, checksum.cpp:1424-1428: a new object in a new variable. *)
Definition make (m : mem) : mem :=
  Mem (cells m ++ [Live 1 init]) (vars m ++ [Some (Some (length (cells m)))]).
(* A null value in a new variable. *)
Definition make_null (m : mem) : mem := Mem (cells m) (vars m ++ [Some None]).
(* Copy construction of a value into a new variable. *)
Definition copy (m : mem) (v : nat) : outcome mem :=
  do o <- get_var m v ; do m1 <- acquire m o ;
  Ok (Mem (cells m1) (vars m1 ++ [Some o])).
(* Copy assignment: the reference is added before the old one is dropped. *)
Definition assign (m : mem) (v w : nat) : outcome mem :=
  do o <- get_var m w ; do old <- get_var m v ;
  do m1 <- acquire m o ; release (set_var m1 v (Some o)) old.
(* Destruction of a variable. *)
Definition drop (m : mem) (v : nat) : outcome mem :=
  do old <- get_var m v ; release (set_var m v None) old.

(* fwd.hpp:379-410, cow_opaque::open: the object is unique afterwards.  A null pointer
   throws before anything is changed. *)
Definition open (m : mem) (v : nat) : outcome (mem * nat) :=
  do o <- get_var m v ;
  match o with
  | None => Throw
  | Some p =>
      do c <- get_cell m p ;
      if fst c =? 1 then Ok (m, p)
      else
        let q := length (cells m) in
        (* clone_opt, checksum.cpp:326-332, then m_sptr = move(csptr) *)
        let m1 := Mem (cells m ++ [Live 1 (snd c)]) (vars m) in
        do m2 <- release (set_var m1 v (Some (Some q))) (Some p) ;
        Ok (m2, q)
  end.
Definition modify (m : mem) (p : nat) (f : R -> R) : outcome mem :=
  do c <- get_cell m p ; Ok (set_cell m p (Live (fst c) (f (snd c)))).

(* checksum.cpp:1430-1446, update, finish and clear; the members of the hashers at
   :334-357 (FNV-1a), :58-77 (CRC-32) and so on. *)
Definition do_update (m : mem) (v : nat) (data : bytes) : outcome mem :=
  do mp <- open m v ; modify (fst mp) (snd mp) (fun r => upd r data).
Definition do_finish (m : mem) (v : nat) : outcome (mem * O) :=
  do mp <- open m v ;
  do c <- get_cell (fst mp) (snd mp) ;
  do m2 <- modify (fst mp) (snd mp) (fun _ => init) ;
  Ok (m2, final (snd c)).
Definition do_clear (m : mem) (v : nat) : outcome mem :=
  do mp <- open m v ; modify (fst mp) (snd mp) (fun _ => init).

(* checksum.cpp:1274-1281, do_hash_bytes. *)
Definition hash_bytes (data : bytes) : O := final (upd init data).

(* checksum.cpp:1283-1324, do_hash_file, from the results of ::read on: [None] is an
   error, an empty chunk or the end of the list is the end of the file. *)
Fixpoint hash_chunks (r : R) (reads : list (option bytes)) : outcome O :=
  match reads with
  | [] => Ok (final r)
  | None :: _ => Throw
  | Some [] :: _ => Ok (final r)
  | Some (c :: t) :: rest => hash_chunks (upd r (c :: t)) rest
  end.
Definition hash_file (reads : list (option bytes)) : outcome O := hash_chunks init reads.

(* A program. *)
Inductive op :=
  Make | Make_null | Copy (v : nat) | Assign (v w : nat) | Drop (v : nat) |
  Update (v : nat) (data : bytes) | Finish (v : nat) | Clear (v : nat).
(* What it shows: nothing, a checksum, or an exception, after which it goes on. *)
Inductive event := Quiet | Sum (o : O) | Thrown.

Definition quiet (m : outcome mem) : outcome (mem * event) :=
  do m' <- m ; Ok (m', Quiet).
Definition catch (m : mem) (r : outcome (mem * event)) : outcome (mem * event) :=
  match r with Throw => Ok (m, Thrown) | _ => r end.
Definition step (m : mem) (o : op) : outcome (mem * event) :=
  match o with
  | Make => Ok (make m, Quiet)
  | Make_null => Ok (make_null m, Quiet)
  | Copy v => quiet (copy m v)
  | Assign v w => quiet (assign m v w)
  | Drop v => quiet (drop m v)
  | Update v d => catch m (quiet (do_update m v d))
  | Finish v => catch m (do r <- do_finish m v ; Ok (fst r, Sum (snd r)))
  | Clear v => catch m (quiet (do_clear m v))
  end.
Fixpoint run (m : mem) (ops : list op) : outcome (mem * list event) :=
  match ops with
  | [] => Ok (m, [])
  | o :: t =>
      do r <- step m o ;
      do s <- run (fst r) t ;
      Ok (fst s, snd r :: snd s)
  end.
End Hasher.
Arguments cell : clear implicits.
Arguments mem : clear implicits.
Arguments event : clear implicits.

(* checksum.cpp:334-357, FNV1a32_Hasher: clear, update, finish. *)
Definition fnv_init : Z := 2166136261.
Definition fnv_upd (r : Z) (data : bytes) : Z :=
  fold_left (fun r b => (Z.lxor r b * 16777619) mod 2 ^ 32) data r.
Definition fnv_final (r : Z) : Z := r.

(* checksum.cpp:436-450, do_copy_SHA_result. *)
Definition sha_char (ch : Z) : Z := 48 + ch + Z.shiftr ((9 - ch) mod 2 ^ 32) 29.
Definition copy_sha_result (bs : bytes) : bytes :=
  flat_map (fun v => [sha_char (Z.land (Z.shiftr v 4) 15); sha_char (Z.land (Z.shiftr v 0) 15)]) bs.
