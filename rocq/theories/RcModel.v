(* Reference-counted storage shared by threads: rocket/reference_counter.hpp,
   rocket/details/refcnt_ptr.ipp and the storage handles of cow_vector,
   cow_string and cow_hashmap.

   Any number of variables (objects of cow_vector, say) refer to blocks of
   storage.  Any number of threads take steps one at a time in any order.
   Every atomic operation on a reference count, every access to the elements of
   a block, every construction and every destruction of one is an access; each
   gets a number of its own.  To every thread belongs the set of the accesses
   which happen before what it does next (C++17 [intro.races]): its own earlier
   ones and those learnt by acquire operations.  An access conflicting with an
   earlier one that is not in this set is a data race, and touching a block
   which is not allocated is undefined; both are distinct outcomes.

   A client accesses a variable only while it holds the lock of the variable,
   which may be held by one thread or by several; the latter may then only read
   the variable or copy it.  Locks stand for whatever orders the accesses to
   one variable (mutexes, messages, the creation of threads).

   Simplifications: a load of the count reads its latest value (a relaxed one
   might read an earlier value); the elements of a block are one datum, a
   number, and copying, changing or moving them is a single access; allocation
   always succeeds and gives any address that is not in use; elements hold no
   references to other blocks, and their copy constructors do not throw. *)
From Verif Require Import Base.

(* construction, reading, writing of elements; access to the count; destruction *)
Inductive kind : Type := In' | Rd | Wr | At | De.

(* [intro.races]/2, and [basic.life] for construction and destruction; the
   count and the elements are different memory locations *)
Definition conflict (new old : kind) : bool :=
  match new, old with
  | De, _ | _, In' => true
  | Rd, Wr | Wr, Rd | Wr, Wr => true
  | _, _ => false
  end.

(* storage_header + data, cow_vector.ipp:11-50 *)
Record blk : Type := mk_blk {
  cnt : Z;                       (* nref *)
  data : Z;
  rel : list nat;                (* what an acquire operation on nref learns *)
  acc : list (nat * kind)        (* the accesses so far *)
}.

Inductive pc : Type :=
  | PIdle
  | PReset (d : nat) (h : option nat)        (* do_reset(qstor_new), cow_vector.ipp:250 *)
  | PDestroy (b : nat)                       (* do_destroy_storage, 266 *)
  | PWrite (x : nat) (f : Z -> Z)            (* unique() was true *)
  | PClone (x : nat) (f : Z -> Z)            (* unique() was false: reallocate *)
  | PMove (x : nat) (f : Z -> Z)             (* do_transfer, 151-154: it has become true *)
  | PCopy (x : nat) (f : Z -> Z).            (* 155-158 *)

Record config : Type := mk_config {
  heap : nat -> option blk;
  slot : nat -> option nat;      (* m_qstor of every variable *)
  holders : nat -> list nat;     (* of its lock *)
  excl : nat -> bool;            (* whether the lock is held by one thread alone *)
  vc : nat -> list nat;          (* what locking it learns *)
  know : nat -> list nat;        (* what happens before the next step of a thread *)
  pcs : nat -> pc;
  now : nat                      (* the number of the next access *)
}.

Definition start : config :=
  mk_config (fun _ => None) (fun _ => None) (fun _ => []) (fun _ => false)
            (fun _ => []) (fun _ => []) (fun _ => PIdle) 0.

Definition upd {A : Type} (f : nat -> A) (k : nat) (v : A) : nat -> A :=
  fun x => if Nat.eqb x k then v else f x.

Definition set_heap (c : config) (b : nat) (m : option blk) : config :=
  mk_config (upd (heap c) b m) (slot c) (holders c) (excl c) (vc c) (know c) (pcs c) (now c).
Definition set_slot (c : config) (x : nat) (h : option nat) : config :=
  mk_config (heap c) (upd (slot c) x h) (holders c) (excl c) (vc c) (know c) (pcs c) (now c).
Definition set_lock (c : config) (x : nat) (hs : list nat) (e : bool) (v : list nat) : config :=
  mk_config (heap c) (slot c) (upd (holders c) x hs) (upd (excl c) x e) (upd (vc c) x v)
            (know c) (pcs c) (now c).
Definition set_know (c : config) (t : nat) (k : list nat) : config :=
  mk_config (heap c) (slot c) (holders c) (excl c) (vc c) (upd (know c) t k) (pcs c) (now c).
Definition set_pc (c : config) (t : nat) (p : pc) : config :=
  mk_config (heap c) (slot c) (holders c) (excl c) (vc c) (know c) (upd (pcs c) t p) (now c).
Definition set_now (c : config) (n : nat) : config :=
  mk_config (heap c) (slot c) (holders c) (excl c) (vc c) (know c) (pcs c) n.

Inductive action : Type :=
  | LockX (x : nat)                          (* lock x for this thread alone *)
  | LockS (x : nat)                          (* lock x together with other readers *)
  | Unlock (x : nat)
  | New (d : nat) (v : Z) (b : nat)          (* d = { v }; storage at address b *)
  | Copy (d s : nat)                         (* d = s; share_with, cow_vector.ipp:513-520 *)
  | Reset (d : nat)                          (* d.clear() of shared storage, ~d; deallocate, 506 *)
  | Swap (x y : nat)                         (* exchange_with, 523 *)
  | Read (x : nat)                           (* data(), 353 *)
  | Mutate (x : nat) (f : Z -> Z)            (* mut_data_opt(), 363, or a reallocation *)
  | Go (b : nat).                            (* go on; b: the address for new storage *)

Inductive res : Type :=
  | Next (c : config) (seen : option Z)
  | Touch                                    (* access to storage that is not allocated *)
  | Assert                                   (* ASTERIA_ASSERT(old >= 1) fails *)
  | Over                                     (* the count exceeds an int *)
  | Race (new old : kind).                   (* a data race *)

Definition knows (c : config) (t : nat) (i : nat) : bool := existsb (Nat.eqb i) (know c t).

(* thread t accesses block b *)
Definition touch (c : config) (t b : nat) (k : kind) (go : config -> blk -> res) : res :=
  match heap c b with
  | None => Touch
  | Some m =>
      match find (fun e => conflict k (snd e) && negb (knows c t (fst e))) (acc m) with
      | Some e => Race k (snd e)
      | None =>
          let m' := mk_blk (cnt m) (data m) (rel m) ((now c, k) :: acc m) in
          go (set_now (set_know (set_heap c b (Some m')) t (now c :: know c t)) (S (now c))) m'
      end
  end.

(* storage with the count 1, reference_counter.hpp:25-28 *)
Definition alloc (c : config) (t b : nat) (v : Z) : config :=
  set_now (set_know (set_heap c b (Some (mk_blk 1 v [] [(now c, In')]))) t (now c :: know c t))
          (S (now c)).

Definition int_max : Z := 2147483647.

(* reference_counter::increment, 68-75: a relaxed operation, neither publishes nor learns *)
Definition increment (c : config) (t b : nat) (go : config -> res) : res :=
  touch c t b At (fun c m =>
    if cnt m <? 1 then Assert else if cnt m =? int_max then Over
    else go (set_heap c b (Some (mk_blk (cnt m + 1) (data m) (rel m) (acc m))))).

(* reference_counter::decrement, 81-88: acquire and release *)
Definition decrement (c : config) (t b : nat) (go : config -> Z -> res) : res :=
  touch c t b At (fun c m =>
    if cnt m <? 1 then Assert
    else
      let k := know c t ++ rel m in
      go (set_know (set_heap c b (Some (mk_blk (cnt m - 1) (data m) k (acc m)))) t k) (cnt m - 1)).

(* reference_counter::unique, 43-46: a relaxed load; an acquire one if acq *)
Definition unique (acq : bool) (c : config) (t b : nat) (go : config -> bool -> res) : res :=
  touch c t b At (fun c m =>
    go (if acq then set_know c t (know c t ++ rel m) else c) (cnt m =? 1)).

Definition held (c : config) (t x : nat) : bool := existsb (Nat.eqb t) (holders c x).
Definition owns (c : config) (t x : nat) : bool := excl c x && held c t x.
Definition vacant (c : config) (b : nat) : bool :=
  match heap c b with None => true | Some _ => false end.

(* what the client may do *)
Definition ready (c : config) (t : nat) (a : action) : bool :=
  match pcs c t, a with
  | PIdle, LockX x => match holders c x with [] => true | _ => false end
  | PIdle, LockS x => negb (excl c x) && negb (held c t x)
  | PIdle, Unlock x => held c t x
  | PIdle, New d _ b => owns c t d && vacant c b
  | PIdle, Copy d s => owns c t d && held c t s
  | PIdle, Reset d => owns c t d
  | PIdle, Swap x y => owns c t x && owns c t y
  | PIdle, Read x => held c t x
  | PIdle, Mutate x _ => owns c t x
  | PIdle, Go _ => false
  | (PMove _ _ | PCopy _ _), Go b => vacant c b
  | _, Go _ => true
  | _, _ => false
  end.

(* the next step of an operation that has begun *)
Definition resume (acq : bool) (c : config) (t : nat) (b' : nat) : res :=
  match pcs c t with
  | PIdle => Next c None
  | PReset d h =>
      let old := slot c d in
      let c := set_slot c d h in
      match old with
      | None => Next (set_pc c t PIdle) None
      | Some b =>
          decrement c t b (fun c n =>
            Next (set_pc c t (if n =? 0 then PDestroy b else PIdle)) None)
      end
  | PDestroy b => touch c t b De (fun c _ => Next (set_pc (set_heap c b None) t PIdle) None)
  | PWrite x f =>
      match slot c x with
      | None => Next (set_pc c t PIdle) None
      | Some b =>
          touch c t b Wr (fun c m =>
            Next (set_pc (set_heap c b (Some (mk_blk (cnt m) (f (data m)) (rel m) (acc m)))) t PIdle) None)
      end
  | PClone x f =>
      match slot c x with
      | None => Next (set_pc c t PIdle) None
      | Some b => unique acq c t b (fun c u => Next (set_pc c t (if u then PMove x f else PCopy x f)) None)
      end
  | PMove x f =>
      match slot c x with
      | None => Next (set_pc c t PIdle) None
      | Some b =>
          touch c t b Wr (fun c m =>
            let c := set_heap c b (Some (mk_blk (cnt m) 0 (rel m) (acc m))) in
            Next (set_pc (alloc c t b' (f (data m))) t (PReset x (Some b'))) None)
      end
  | PCopy x f =>
      match slot c x with
      | None => Next (set_pc c t PIdle) None
      | Some b =>
          touch c t b Rd (fun c m =>
            Next (set_pc (alloc c t b' (f (data m))) t (PReset x (Some b'))) None)
      end
  end.

Definition step (acq : bool) (c : config) (ta : nat * action) : res :=
  let (t, a) := ta in
  if ready c t a then
    match a with
    | LockX x => Next (set_know (set_lock c x [t] true (vc c x)) t (know c t ++ vc c x)) None
    | LockS x =>
        Next (set_know (set_lock c x (t :: holders c x) false (vc c x)) t (know c t ++ vc c x)) None
    | Unlock x =>
        Next (set_lock c x (remove Nat.eq_dec t (holders c x)) false (vc c x ++ know c t)) None
    | New d v b => Next (set_pc (alloc c t b v) t (PReset d (Some b))) None
    | Copy d s =>
        match slot c s with
        | None => Next (set_pc c t (PReset d None)) None
        | Some b => increment c t b (fun c => Next (set_pc c t (PReset d (Some b))) None)
        end
    | Reset d => Next (set_pc c t (PReset d None)) None
    | Swap x y => Next (set_slot (set_slot c x (slot c y)) y (slot c x)) None
    | Read x =>
        match slot c x with
        | None => Next c None
        | Some b => touch c t b Rd (fun c m => Next c (Some (data m)))
        end
    | Mutate x f =>
        match slot c x with
        | None => Next c None
        | Some b => unique acq c t b (fun c u => Next (set_pc c t (if u then PWrite x f else PClone x f)) None)
        end
    | Go b => resume acq c t b
    end
  else Next c None.

Fixpoint steps (acq : bool) (c : config) (l : list (nat * action)) : res :=
  match l with
  | [] => Next c None
  | a :: r => match step acq c a with Next c' _ => steps acq c' r | x => x end
  end.

(* reference_counter.hpp:46 *)
Definition code_acq : bool := false.
