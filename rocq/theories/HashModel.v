(* Open-addressing tables and the copy-on-write map built on them.
   asteria/rocket/xhashtable.hpp, asteria/rocket/cow_hashmap.hpp and
   asteria/rocket/details/cow_hashmap.ipp.

   A program is a history of operations over any number of maps.  An assertion
   that fails (__builtin_unreachable in release builds) is undefined.

   Simplifications: one thread; reference counts do not overflow; a bucket holds
   its value instead of a pointer to it, and copying a value does not throw;
   allocation fails only above max_size(); the allocator is stateless; the
   hasher and the comparator do not throw; the temporary handle of a
   reallocation is kept apart from the blocks until it is exchanged. *)
From Verif Require Import Base Monad SeqModel.

Section Map.
Context {K V : Type}.
(* key_equal and hasher *)
Variable eqb : K -> K -> bool.
Variable hash : K -> Z.

(* basic_bucket, details/cow_hashmap.ipp:43-102 *)
Definition bucket := option (K * V).
(* nelem and the buckets of basic_storage, details/cow_hashmap.ipp:104-150 *)
Record table := Table { nelem : nat; bkts : list bucket }.

(* xhashtable.hpp:11-19, in size_t *)
Definition probe_origin (size hval : Z) : Z :=
  to_u64 (to_u64 (hval * 0x9E3779B9) mod 2 ^ 32 * size) / 2 ^ 32.
Definition origin (n : nat) (k : K) : nat := Z.to_nat (probe_origin (Z.of_nat n) (hash k)).

(* one of the loops of linear_probe, n buckets from k on *)
Fixpoint scan (pred : K * V -> bool) (b : list bucket) (k n : nat) : outcome (option nat) :=
  match n with
  | O => Ok None
  | S n =>
      match nth_error b k with
      | None => UB
      | Some None => Ok (Some k)
      | Some (Some kv) => if pred kv then Ok (Some k) else scan pred b (S k) n
      end
  end.
(* linear_probe, xhashtable.hpp:21-38; None is the null pointer *)
Definition linear_probe (pred : K * V -> bool) (b : list bucket) (to from size : nat) : outcome (option nat) :=
  if (size <? from)%nat then UB
  else
    do r <- scan pred b from (size - from);
    match r with Some k => Ok (Some k) | None => scan pred b 0 to end.

(* adopt_value_unchecked(k, qval), details/cow_hashmap.ipp:240-253 *)
Definition adopt_at (t : table) (k : nat) (kv : K * V) : outcome table :=
  match nth_error (bkts t) k with
  | Some None => Ok (Table (S (nelem t)) (set_nth (bkts t) k (Some kv)))
  | _ => UB
  end.
(* adopt_value_unchecked(qval), 222-238 *)
Definition adopt (t : table) (kv : K * V) : outcome table :=
  let n := length (bkts t) in
  let orig := origin n (fst kv) in
  do r <- linear_probe (fun _ => false) (bkts t) orig orig n;
  match r with Some k => adopt_at t k kv | None => UB end.
(* extract_value_opt, 255-266 *)
Definition extract (t : table) (k : nat) : outcome (option (K * V) * table) :=
  match nth_error (bkts t) k with
  | None => UB
  | Some None => Ok (None, t)
  | Some (Some kv) =>
      match nelem t with
      | O => UB
      | S n => Ok (Some kv, Table n (set_nth (bkts t) k None))
      end
  end.

(* find, details/cow_hashmap.ipp:578-602: the bucket, and what is in it *)
Definition find (t : table) (k : K) : outcome (nat * option (K * V)) :=
  let n := length (bkts t) in
  let orig := origin n k in
  do r <- linear_probe (fun kv => eqb (fst kv) k) (bkts t) orig orig n;
  match r with
  | None => UB
  | Some p => match nth_error (bkts t) p with Some x => Ok (p, x) | None => UB end
  end.
Definition capacity_of (t : table) : nat := (length (bkts t) / 2)%nat.
(* keyed_try_emplace, 604-622, on storage that is not shared: the bucket,
   whether the value is new, the table *)
Definition keyed_try_emplace (t : table) (k : K) (v : V) : outcome (nat * bool * table) :=
  if (nelem t <? capacity_of t)%nat then
    do (p, x) <- find t k;
    match x with
    | Some _ => Ok (p, false, t)
    | None => do t <- adopt_at t p (k, v); Ok (p, true, t)
    end
  else UB.

(* erase_range_unchecked, 624-654: the loop that clears *)
Fixpoint clear_range (t : table) (k n : nat) : outcome table :=
  match n with
  | O => Ok t
  | S n => do (x, t) <- extract t k; clear_range t (S k) n
  end.
(* the loops that relocate; true if an empty bucket was met *)
Fixpoint relocate (n k : nat) (t : table) : outcome (table * bool) :=
  match n with
  | O => Ok (t, false)
  | S n =>
      match nth_error (bkts t) k with
      | None => UB
      | Some None => Ok (t, true)
      | Some (Some kv) =>
          do (x, t) <- extract t k;
          do t <- adopt t kv;
          relocate n (S k) t
      end
  end.
Definition erase_range (t : table) (tpos tlen : nat) : outcome table :=
  if (tlen =? 0)%nat then Ok t
  else
    do t <- clear_range t tpos tlen;
    let n := length (bkts t) in
    if (n <? tpos + tlen)%nat then UB
    else
      do (t, stop) <- relocate (n - (tpos + tlen)) (tpos + tlen) t;
      if stop : bool then Ok t
      else do (t, stop) <- relocate tpos 0 t; Ok t.

(* dispatch_transfer, details/cow_hashmap.ipp:288-331: n buckets from k on; the
   old table loses its values if it is not shared *)
Fixpoint transfer (n k : nat) (uniq : bool) (old new : table) : outcome (table * table) :=
  match n with
  | O => Ok (old, new)
  | S n =>
      if uniq then
        do (x, old) <- extract old k;
        match x with
        | Some kv => do new <- adopt new kv; transfer n (S k) uniq old new
        | None => transfer n (S k) uniq old new
        end
      else
        match nth_error (bkts old) k with
        | None => UB
        | Some None => transfer n (S k) uniq old new
        | Some (Some kv) => do new <- adopt new kv; transfer n (S k) uniq old new
        end
  end.
Definition dispatch_transfer (uniq : bool) (old new : table) : outcome (table * table) :=
  transfer (length (bkts old)) 0 uniq old new.
(* do_copy_insert, cloning, 300-310 *)
Fixpoint clone (n k : nat) (old new : table) : outcome table :=
  match n with
  | O => Ok new
  | S n =>
      match nth_error (bkts old) k with
      | None => UB
      | Some None => clone n (S k) old new
      | Some (Some kv) => do new <- adopt_at new k kv; clone n (S k) old new
      end
  end.

(* ---- storage blocks and handles ---- *)

Record storage := Storage { nref : Z; tab : table }.
Inductive slot := Live (b : storage) | Gone.
(* a map is its storage_handle, cow_hashmap.hpp:73; [None]: destroyed *)
Record mem := Mem { blocks : list slot; objs : list (option (option nat)) }.

Definition obj (m : mem) (h : nat) : outcome (option nat) :=
  match nth_error (objs m) h with Some (Some o) => Ok o | _ => UB end.
Definition set_obj (m : mem) (h : nat) (o : option (option nat)) : mem :=
  Mem (blocks m) (set_nth (objs m) h o).
Definition new_obj (m : mem) (o : option nat) : mem := Mem (blocks m) (objs m ++ [Some o]).
Definition block (m : mem) (s : nat) : outcome storage :=
  match nth_error (blocks m) s with Some (Live b) => Ok b | _ => UB end.
Definition set_block (m : mem) (s : nat) (b : slot) : mem :=
  Mem (set_nth (blocks m) s b) (objs m).
Definition set_tab (m : mem) (s : nat) (t : table) : outcome mem :=
  do b <- block m s;
  if nref b =? 1 then Ok (set_block m s (Live (Storage (nref b) t))) else UB.

(* do_reset(nullptr), details/cow_hashmap.ipp:411-441; the destructor frees
   what is left in the buckets *)
Definition release (m : mem) (s : option nat) : outcome mem :=
  match s with
  | None => Ok m
  | Some s =>
      do b <- block m s;
      if nref b - 1 =? 0 then Ok (set_block m s Gone)
      else Ok (set_block m s (Live (Storage (nref b - 1) (tab b))))
  end.
(* share_with, details/cow_hashmap.ipp:746-754, the increment *)
Definition acquire (m : mem) (s : option nat) : outcome mem :=
  match s with
  | None => Ok m
  | Some s => do b <- block m s; Ok (set_block m s (Live (Storage (nref b + 1) (tab b))))
  end.

(* details/cow_hashmap.ipp:474-576: unique, bucket_count, capacity, size and
   mut_buckets_opt (no storage counts as writable: the pointer is then -1) *)
Definition unique (m : mem) (o : option nat) : outcome bool :=
  match o with None => Ok false | Some s => do b <- block m s; Ok (nref b =? 1) end.
Definition bucket_count (m : mem) (o : option nat) : outcome nat :=
  match o with None => Ok 0%nat | Some s => do b <- block m s; Ok (length (bkts (tab b))) end.
Definition capacity (m : mem) (o : option nat) : outcome nat :=
  match o with None => Ok 0%nat | Some s => do b <- block m s; Ok (capacity_of (tab b)) end.
Definition size (m : mem) (o : option nat) : outcome nat :=
  match o with None => Ok 0%nat | Some s => do b <- block m s; Ok (nelem (tab b)) end.
Definition writable (m : mem) (o : option nat) : outcome bool :=
  match o with None => Ok true | Some s => do b <- block m s; Ok (nref b =? 1) end.
(* find on a handle *)
Definition lookup (m : mem) (o : option nat) (k : K) : outcome (option (nat * V)) :=
  match o with
  | None => Ok None
  | Some s =>
      do b <- block m s;
      do (p, x) <- find (tab b) k;
      Ok match x with Some kv => Some (p, snd kv) | None => None end
  end.

(* sizeof(bucket_type) and sizeof(basic_storage), and max_size() *)
Variables bkt_size block_size : Z.
Variable max_size : nat.
(* the buckets of a new block, min_nblk_for_nbkt and max_nbkt_for_nblk,
   details/cow_hashmap.ipp:161-176, for a capacity *)
Definition buckets_for (cap : nat) : nat :=
  let nblk := ((Z.of_nat cap * 2 - 1) * bkt_size + block_size - 1) / block_size + 1 in
  Z.to_nat ((nblk - 1) * block_size / bkt_size + 1).
Definition empty_table (n : nat) : table := Table 0 (repeat None n).
(* round_up_capacity, 535-542 *)
Definition round_up_capacity (n : nat) : outcome nat :=
  if (max_size <? n)%nat then Throw else Ok (buckets_for n / 2)%nat.
(* reallocate_reserve(sth, finish, add), 687-718, with what is left in sth *)
Definition reallocate_reserve (m : mem) (o : option nat) (finish : bool) (add : nat) : outcome (mem * table) :=
  do len <- size m o;
  let cap := (len + add)%nat in
  if (max_size <? cap)%nat then Throw
  else
    let new := empty_table (buckets_for cap) in
    if finish && negb (len =? 0)%nat then
      match o with
      | None => UB
      | Some s =>
          do b <- block m s;
          do (old, new) <- dispatch_transfer (nref b =? 1) (tab b) new;
          Ok (set_block m s (Live (Storage (nref b) old)), new)
      end
    else Ok (m, new).
(* reallocate_finish, 720-737 *)
Definition reallocate_finish (m : mem) (o : option nat) (new : table) : outcome (mem * table) :=
  match o with
  | None => Ok (m, new)
  | Some s =>
      do b <- block m s;
      do (old, new) <- dispatch_transfer (nref b =? 1) (tab b) new;
      Ok (set_block m s (Live (Storage (nref b) old)), new)
  end.
(* exchange_with, and the end of the temporary handle *)
Definition install (m : mem) (h : nat) (o : option nat) (new : table) : outcome mem :=
  let t := length (blocks m) in
  let m := Mem (blocks m ++ [Live (Storage 1 new)]) (set_nth (objs m) h (Some (Some t))) in
  release m o.
(* do_mut_buckets, cow_hashmap.hpp:243-255, with reallocate_clone,
   details/cow_hashmap.ipp:655-685 *)
Definition mut_buckets (m : mem) (h : nat) : outcome (mem * option nat) :=
  do o <- obj m h;
  do w <- writable m o;
  if w : bool then Ok (m, o)
  else
    match o with
    | None => UB
    | Some s =>
        do b <- block m s;
        let n := length (bkts (tab b)) in
        do new <- (if negb (nelem (tab b) =? 0)%nat
                   then clone n 0 (tab b) (empty_table n) else Ok (empty_table n));
        do m' <- install m h o new;
        Ok (m', Some (length (blocks m)))
    end.

(* ---- the operations ---- *)

Definition new_empty (m : mem) : outcome mem := Ok (new_obj m None).
(* copy constructor, cow_hashmap.hpp:95-102 *)
Definition new_copy (m : mem) (j : nat) : outcome mem :=
  do o <- obj m j; do m <- acquire m o; Ok (new_obj m o).
(* move constructor, cow_hashmap.hpp:111-117 *)
Definition new_move (m : mem) (j : nat) : outcome mem :=
  do o <- obj m j; Ok (new_obj (set_obj m j (Some None)) o).
Definition drop (m : mem) (h : nat) : outcome mem :=
  do o <- obj m h; do m <- release m o; Ok (set_obj m h None).
(* operator=(const cow_hashmap&), cow_hashmap.hpp:184-191 *)
Definition assign (m : mem) (h j : nat) : outcome mem :=
  do o <- obj m h; do p <- obj m j;
  do m <- acquire m p; do m <- release m o;
  Ok (set_obj m h (Some p)).
(* operator=(cow_hashmap&&) and swap, cow_hashmap.hpp:193-217: both exchange *)
Definition swap_with (m : mem) (h j : nat) : outcome mem :=
  do o <- obj m h; do p <- obj m j;
  Ok (set_obj (set_obj m j (Some o)) h (Some p)).
(* do_deallocate, cow_hashmap.hpp:220-226 *)
Definition deallocate (m : mem) (h : nat) : outcome mem :=
  do o <- obj m h; do m <- release m o; Ok (set_obj m h (Some None)).
(* shrink_to_fit, cow_hashmap.hpp:385-403 *)
Definition shrink_to_fit (m : mem) (h : nat) : outcome mem :=
  do o <- obj m h;
  do len <- size m o;
  if (len =? 0)%nat then deallocate m h
  else
    do rcap <- round_up_capacity len;
    do u <- unique m o;
    do cap <- capacity m o;
    if negb u || (cap <=? rcap)%nat then Ok m
    else
      do (m, new) <- reallocate_reserve m o true 0;
      install m h o new.
(* reserve, cow_hashmap.hpp:364-383 *)
Definition reserve (m : mem) (h n : nat) : outcome mem :=
  do o <- obj m h;
  if (n =? 0)%nat then shrink_to_fit m h
  else
    do len <- size m o;
    do rcap <- round_up_capacity (Nat.max len n);
    do u <- unique m o;
    do cap <- capacity m o;
    if u && (rcap <=? cap)%nat then Ok m
    else
      do (m, new) <- reallocate_reserve m o true (rcap - len);
      install m h o new.
(* rehash, cow_hashmap.hpp:450-465 *)
Definition rehash (m : mem) (h n : nat) : outcome mem :=
  do o <- obj m h;
  do len <- size m o;
  do rcap <- round_up_capacity (Nat.max len n);
  do cap <- capacity m o;
  if (cap =? rcap)%nat then Ok m
  else
    do (m, new) <- reallocate_reserve m o true (rcap - len);
    install m h o new.
(* clear, cow_hashmap.hpp:406-416 *)
Definition clear (m : mem) (h : nat) : outcome mem :=
  do o <- obj m h;
  do u <- unique m o;
  if negb u then deallocate m h
  else
    match o with
    | None => UB
    | Some s =>
        do b <- block m s;
        do t <- erase_range (tab b) 0 (length (bkts (tab b)));
        set_tab m s t
    end.

(* try_emplace, cow_hashmap.hpp:551-589: the bucket of the key, whether it is
   new *)
Definition try_emplace (m : mem) (h : nat) (k : K) (v : V) : outcome (mem * (nat * bool)) :=
  do o <- obj m h;
  do w <- writable m o;
  do cap <- capacity m o;
  do len <- size m o;
  match (if w && (len <? cap)%nat then o else None) with
  | Some s =>
      do b <- block m s;
      do (p, t) <- keyed_try_emplace (tab b) k v;
      do m <- set_tab m s t;
      Ok (m, p)
  | None =>
      do r <- lookup m o k;
      match r with
      | Some (p, _) => do (m, o) <- mut_buckets m h; Ok (m, (p, false))
      | None =>
          do (m, new) <- reallocate_reserve m o false (Z.to_nat (Z.lor 17 (Z.of_nat (cap / 2)%nat)));
          do (p, new) <- keyed_try_emplace new k v;
          do (m, new) <- reallocate_finish m o new;
          do m <- install m h o new;
          Ok (m, (fst p, true))
      end
  end.
(* bkts[p]->second = v, through a reference or an iterator that allows writing *)
Definition write_at (m : mem) (o : option nat) (p : nat) (v : V) : outcome mem :=
  match o with
  | None => UB
  | Some s =>
      do b <- block m s;
      match nth_error (bkts (tab b)) p with
      | Some (Some (k, _)) => set_tab m s (Table (nelem (tab b)) (set_nth (bkts (tab b)) p (Some (k, v))))
      | _ => UB
      end
  end.
(* insert_or_assign, cow_hashmap.hpp:598-606 *)
Definition insert_or_assign (m : mem) (h : nat) (k : K) (v : V) : outcome mem :=
  do (m, r) <- try_emplace m h k v;
  if snd r then Ok m else do o <- obj m h; write_at m o (fst r) v.
(* operator[](k) = v, cow_hashmap.hpp:616-628; def is mapped_type() *)
Definition index_assign (m : mem) (h : nat) (k : K) (def v : V) : outcome mem :=
  do (m, r) <- try_emplace m h k def;
  do o <- obj m h; write_at m o (fst r) v.
(* find_and_assign, cow_hashmap.hpp:733-742 *)
Definition find_and_assign (m : mem) (h : nat) (k : K) (v : V) : outcome mem :=
  do o <- obj m h;
  do r <- lookup m o k;
  match r with
  | None => Ok m
  | Some (p, _) => do (m, o) <- mut_buckets m h; write_at m o p v
  end.
(* do_erase_unchecked, cow_hashmap.hpp:257-264 *)
Definition erase_unchecked (m : mem) (h tpos tlen : nat) : outcome mem :=
  do (m, o) <- mut_buckets m h;
  match o with
  | None => UB
  | Some s => do b <- block m s; do t <- erase_range (tab b) tpos tlen; set_tab m s t
  end.
(* erase(key), cow_hashmap.hpp:630-642; find_and_erase, 745-755 *)
Definition erase (m : mem) (h : nat) (k : K) : outcome mem :=
  do o <- obj m h;
  do r <- lookup m o k;
  match r with
  | None => Ok m
  | Some (p, _) => erase_unchecked m h p 1
  end.

(* insert(first, last), cow_hashmap.hpp:485-534: the loop in place *)
Fixpoint emplace_all (t : table) (l : list (K * V)) : outcome table :=
  match l with
  | [] => Ok t
  | (k, v) :: l => do (p, t) <- keyed_try_emplace t k v; emplace_all t l
  end.
(* the loop into new storage: keys that exist already are skipped *)
Fixpoint emplace_new (m : mem) (o : option nat) (new : table) (l : list (K * V)) : outcome table :=
  match l with
  | [] => Ok new
  | (k, v) :: l =>
      do r <- lookup m o k;
      match r with
      | Some _ => emplace_new m o new l
      | None => do (p, new) <- keyed_try_emplace new k v; emplace_new m o new l
      end
  end.
(* the same if the iterators do not tell their distance: the new storage grows;
   [keep]: whether the bool argument of reallocate_reserve, this->size(), is
   not zero *)
Fixpoint emplace_grow (m : mem) (o : option nat) (keep : bool) (new : table) (l : list (K * V)) : outcome table :=
  match l with
  | [] => Ok new
  | (k, v) :: l =>
      do new <- (if (capacity_of new <=? nelem new)%nat then
                   let cap := (nelem new + capacity_of new / 2)%nat in
                   if (max_size <? cap)%nat then Throw
                   else if keep && negb (nelem new =? 0)%nat then
                     do (old, new) <- dispatch_transfer true new (empty_table (buckets_for cap)); Ok new
                   else Ok (empty_table (buckets_for cap))
                 else Ok new);
      do r <- lookup m o k;
      match r with
      | Some _ => emplace_grow m o keep new l
      | None => do (p, new) <- keyed_try_emplace new k v; emplace_grow m o keep new l
      end
  end.
(* known: whether estimate_distance tells the distance *)
Definition insert (m : mem) (h : nat) (known : bool) (l : list (K * V)) : outcome mem :=
  do o <- obj m h;
  if (length l =? 0)%nat then Ok m
  else
    do w <- writable m o;
    do cap <- capacity m o;
    do len <- size m o;
    match (if known && w && (length l <=? cap - len)%nat then o else None) with
    | Some s => do b <- block m s; do t <- emplace_all (tab b) l; set_tab m s t
    | None =>
        if known then
          do (m, new) <- reallocate_reserve m o false
            (Z.to_nat (Z.lor (Z.of_nat (length l)) (Z.of_nat (cap / 2)%nat)));
          do new <- emplace_new m o new l;
          do (m, new) <- reallocate_finish m o new;
          install m h o new
        else
          do (m, new) <- reallocate_reserve m o false (Z.to_nat (Z.lor 17 (Z.of_nat (cap / 2)%nat)));
          do new <- emplace_grow m o (negb (len =? 0)%nat) new l;
          do (m, new) <- reallocate_finish m o new;
          install m h o new
    end.

(* the values in the order of iteration: begin() to end() with do_next,
   details/cow_hashmap.ipp:860-870 and 931-943 *)
Fixpoint entries (b : list bucket) : list (K * V) :=
  match b with
  | [] => []
  | None :: b => entries b
  | Some kv :: b => kv :: entries b
  end.

Inductive stmt :=
  | New | NewCopy (j : nat) | NewMove (j : nat)
  | Drop (h : nat) | Assign (h j : nat) | Swap (h j : nat) | Clear (h : nat)
  | Reserve (h n : nat) | Shrink (h : nat) | Rehash (h n : nat)
  | Emplace (h : nat) (k : K) (v : V) | Put (h : nat) (k : K) (v : V)
  | Index (h : nat) (k : K) (def v : V) | FindPut (h : nat) (k : K) (v : V)
  | Erase (h : nat) (k : K) | EraseRange (h tpos tlen : nat)
  | Insert (h : nat) (l : list (K * V)) | InsertUnknown (h : nat) (l : list (K * V)).

Definition run1 (m : mem) (s : stmt) : outcome mem :=
  match s with
  | New => new_empty m
  | NewCopy j => new_copy m j
  | NewMove j => new_move m j
  | Drop h => drop m h
  | Assign h j => assign m h j
  | Swap h j => swap_with m h j
  | Clear h => clear m h
  | Reserve h n => reserve m h n
  | Shrink h => shrink_to_fit m h
  | Rehash h n => rehash m h n
  | Emplace h k v => do (m, r) <- try_emplace m h k v; Ok m
  | Put h k v => insert_or_assign m h k v
  | Index h k def v => index_assign m h k def v
  | FindPut h k v => find_and_assign m h k v
  | Erase h k => erase m h k
  | EraseRange h tpos tlen => erase_unchecked m h tpos tlen
  | Insert h l => insert m h true l
  | InsertUnknown h l => insert m h false l
  end.
End Map.
Arguments bucket K V : clear implicits.
Arguments table K V : clear implicits.
Arguments storage K V : clear implicits.
Arguments slot K V : clear implicits.
Arguments mem K V : clear implicits.
Arguments stmt K V : clear implicits.
Arguments entries {K V} b.
Definition init {K V} : mem K V := Mem [] [].
