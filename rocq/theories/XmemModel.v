(* The storage pool of asteria/src/rocket/xmemory.cpp, executed by any number of
   threads.

   A machine has a memory of blocks and threads which take steps one at a time
   in any order.  Every access to a pool (an atomic operation on its head),
   every access to the first word of a block (free_block::next), every call of
   operator new and of operator delete is one step; address 0 is null.
   Touching a block that is not allocated is undefined.

   A client calls xmemalloc, xmemfree and xmemclean as it likes, in any thread,
   but gives to xmemfree only what it got from xmemalloc, and only once; it may
   write to the blocks that it holds.  operator new gives any address which is
   not in use, such as one that was in use before, or fails.

   Simplifications: atomic operations are sequentially consistent (they are
   acquire-release, and all of them read and write the same word of a pool,
   but the loads and stores of blocks in between are not reordered here);
   free_block::size, which nothing reads, the fill patterns of debug builds and
   the hints to the address sanitizer are left out. *)
From Verif Require Import Base.

Inductive xmemopt : Type := use_cache | bypass_cache | clear_cache.

(* rocket/fwd.hpp:712-715 *)
Definition lzcnt64 (x : Z) : Z := if x =? 0 then 64 else 63 - Z.log2 x.

(* do_get_pool_for_size, xmemory.cpp:26-42: the index of the pool and the
   rounded size; `1ULL << 64` is undefined *)
Definition pool_for_size (size : Z) : outcome (Z * Z) :=
  if size >? 32 then
    let si := 64 - lzcnt64 (size - 1) in
    if si <? 64 then if size <=? 2 ^ si then Ok (si, 2 ^ si) else UB else UB
  else Ok (5, 32).

(* xmeminfo *)
Record info : Type := mk_info { i_size : Z; i_data : Z; i_count : Z; i_wanted : Z }.
   (* i_wanted: the count that was asked for, which the code does not store *)

(* the local variables of xmemalloc *)
Record req : Type := mk_req { r_elem : Z; r_count : Z; r_pool : Z; r_size : Z }.

(* what follows do_deallocate_list *)
Inductive cont : Type :=
  | KAlloc (r : req) (b : Z)
  | KFree
  | KClean (i : Z).

Inductive pc : Type :=
  | Idle
  (* xmemalloc, xmemory.cpp:57-94 *)
  | AXchg (r : req) (opt : xmemopt)       (* b = p.head.xchg(nullptr) *)
  | ANext (r : req) (b : Z)               (* b->next != nullptr *)
  | APut (r : req) (b n : Z)              (* p.head.xchg(b->next) *)
  | ALink (r : req) (b n : Z)             (* b->next = *)
  | ANew (r : req)                        (* operator new *)
  | ARest (r : req) (b : Z)               (* do_deallocate_list(b->next) *)
  | AHand (r : req) (b : Z)               (* info.data = b *)
  (* do_deallocate_list, 44-53 *)
  | Del (k : cont) (p : Z)                (* p != nullptr; next = p->next *)
  | Del2 (k : cont) (p n : Z)             (* operator delete(p) *)
  (* xmemfree, 96-130 *)
  | FNull (i b : Z) (opt : xmemopt)       (* b->next = nullptr *)
  | FLoad (i b : Z)                       (* p.head.load() *)
  | FStore (i b v : Z)                    (* b->next = *)
  | FCas (i b : Z)                        (* p.head.cmpxchg_weak(b->next, b) *)
  | FTake (i b : Z)                       (* p.head.xchg(nullptr) *)
  | FLink (i b v : Z)                     (* b->next = *)
  (* xmemclean, 132-141 *)
  | CXchg (i : Z).

Record config : Type := mk_config {
  sys : Z -> option Z;       (* the blocks that the system has given out: their sizes *)
  nxt : Z -> Z;              (* their first words *)
  head : Z -> Z;             (* s_pools *)
  thr : nat -> pc;
  live : list info           (* what the client holds *)
}.

(* what the environment decides about the next step of a thread *)
Inductive choice : Type :=
  | Call_alloc (elem count : Z) (opt : xmemopt)
  | Call_free (k : nat) (opt : xmemopt)      (* the k-th of [live] *)
  | Call_free_null
  | Call_clean
  | Client_write (k : nat) (v : Z)
  | Step                                     (* for steps without a choice *)
  | Fresh (a : Z)                            (* operator new returns a *)
  | No_memory                                (* or throws *)
  | Spurious.                                (* cmpxchg_weak fails although it need not *)

Inductive result : Type :=
  | Next (c : config)
  | Bad                                      (* undefined behaviour *)
  | Never.                                   (* this choice is not possible *)

Definition zupd {B} (f : Z -> B) (x : Z) (v : B) : Z -> B := fun y => if y =? x then v else f y.
Definition nupd {B} (f : nat -> B) (x : nat) (v : B) : nat -> B :=
  fun y => if Nat.eqb y x then v else f y.

Definition at_ (c : config) (t : nat) (q : pc) : config :=
  mk_config (sys c) (nxt c) (head c) (nupd (thr c) t q) (live c).
Definition set_head (c : config) (i h : Z) : config :=
  mk_config (sys c) (nxt c) (zupd (head c) i h) (thr c) (live c).
Definition set_sys (c : config) (a : Z) (s : option Z) : config :=
  mk_config (zupd (sys c) a s) (nxt c) (head c) (thr c) (live c).
Definition set_live (c : config) (l : list info) : config :=
  mk_config (sys c) (nxt c) (head c) (thr c) l.

Definition allocated (c : config) (a : Z) : bool :=
  match sys c a with Some _ => true | None => false end.
Definition rd (c : config) (a : Z) (k : Z -> result) : result :=
  if allocated c a then k (nxt c a) else Bad.
Definition wr (c : config) (a v : Z) (k : config -> result) : result :=
  if allocated c a
  then k (mk_config (sys c) (zupd (nxt c) a v) (head c) (thr c) (live c)) else Bad.

Definition after (k : cont) : pc :=
  match k with
  | KAlloc r b => AHand r b
  | KFree => Idle
  | KClean i => if i <? 63 then CXchg (i + 1) else Idle
  end.

Fixpoint remove_nth {B} (k : nat) (l : list B) : list B :=
  match k, l with
  | O, _ :: r => r
  | S k, x :: r => x :: remove_nth k r
  | _, [] => []
  end.

(* one step of thread [t] *)
Definition step (c : config) (t : nat) (ch : choice) : result :=
  match thr c t, ch with
  | Idle, Call_alloc elem count opt =>
      if (0 <=? elem) && (elem <? 2 ^ 64) && (0 <=? count) && (count <? 2 ^ 64) then
        if elem * count <? 2 ^ 64 then
          match pool_for_size (elem * count) with
          | Ok (si, rsize) =>
              let r := mk_req elem count si rsize in
              Next (at_ c t (match opt with bypass_cache => ANew r | _ => AXchg r opt end))
          | _ => Bad
          end
        else Next c                                   (* throw std::bad_alloc() *)
      else Never
  | AXchg r opt, Step =>
      let b := head c (r_pool r) in
      Next (at_ (set_head c (r_pool r) 0) t
              (if b =? 0 then ANew r
               else match opt with use_cache => ANext r b | _ => ARest r b end))
  | ANext r b, Step =>
      rd c b (fun n => Next (at_ c t (if n =? 0 then ARest r b else APut r b n)))
  | APut r b n, Step =>
      Next (at_ (set_head c (r_pool r) n) t (ALink r b (head c (r_pool r))))
  | ALink r b n, Step => wr c b n (fun c => Next (at_ c t (ARest r b)))
  | ANew r, Fresh a =>
      if (a =? 0) || allocated c a then Never
      else Next (at_ (set_sys c a (Some (r_size r))) t (AHand r a))
  | ANew r, No_memory => Next (at_ c t Idle)
  | ARest r b, Step => rd c b (fun n => Next (at_ c t (Del (KAlloc r b) n)))
  | AHand r b, Step =>
      let count := if r_elem r >? 1 then r_size r / r_elem r else r_size r in
      Next (at_ (set_live c (mk_info (r_elem r) b count (r_count r) :: live c)) t Idle)

  | Del k p, Step =>
      if p =? 0 then Next (at_ c t (after k))
      else rd c p (fun n => Next (at_ c t (Del2 k p n)))
  | Del2 k p n, Step =>
      if allocated c p then Next (at_ (set_sys c p None) t (Del k n)) else Bad

  | Idle, Call_free_null => Next c
  | Idle, Call_free k opt =>
      match nth_error (live c) k with
      | None => Never
      | Some f =>
          match pool_for_size ((i_size f * i_count f) mod 2 ^ 64) with
          | Ok (si, _) =>
              Next (at_ (set_live c (remove_nth k (live c))) t (FNull si (i_data f) opt))
          | _ => Bad
          end
      end
  | FNull i b opt, Step =>
      wr c b 0 (fun c => Next (at_ c t
        match opt with use_cache => FLoad i b | clear_cache => FTake i b | bypass_cache => Del KFree b end))
  | FLoad i b, Step => Next (at_ c t (FStore i b (head c i)))
  | FStore i b v, Step => wr c b v (fun c => Next (at_ c t (FCas i b)))
  | FCas i b, Step =>
      rd c b (fun e =>
        if head c i =? e then Next (at_ (set_head c i b) t Idle)
        else wr c b (head c i) (fun c => Next (at_ c t (FCas i b))))
  | FCas i b, Spurious =>
      rd c b (fun _ => wr c b (head c i) (fun c => Next (at_ c t (FCas i b))))
  | FTake i b, Step => Next (at_ (set_head c i 0) t (FLink i b (head c i)))
  | FLink i b v, Step => wr c b v (fun c => Next (at_ c t (Del KFree b)))

  | Idle, Call_clean => Next (at_ c t (CXchg 0))
  | CXchg i, Step => Next (at_ (set_head c i 0) t (Del (KClean i) (head c i)))

  | Idle, Client_write k v =>
      match nth_error (live c) k with
      | None => Never
      | Some f => wr c (i_data f) v Next
      end
  | _, _ => Never
  end.

(* static storage is zero-initialized *)
Definition start : config := mk_config (fun _ => None) (fun _ => 0) (fun _ => 0) (fun _ => Idle) [].

Fixpoint steps (c : config) (l : list (nat * choice)) : result :=
  match l with
  | [] => Next c
  | (t, ch) :: l => match step c t ch with Next c' => steps c' l | r => r end
  end.
