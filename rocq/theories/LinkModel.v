(* Variable_HashMap (asteria/src/llds/variable_hashmap.cpp) and
   Reference_Dictionary (asteria/src/llds/reference_dictionary.cpp): tables of
   buckets with linear probing, as in HashModel.v, whose occupied buckets are in
   a circular list too.  The two classes differ in the size of a bucket, in the
   least number of buckets and in their keys; one definition is given for both.

   A pointer to a bucket is its index; the head of the list is the last bucket.
   Following a null pointer, an assertion that fails and storage that goes back
   to another pool than it came from are undefined.

   Simplifications: release builds (debug builds reallocate for every insert);
   keys are compared by value (do_xfind_opt of the dictionary compares sizes,
   pointers and hash values first); destroying a value has no effects;
   operator new does not fail, so that only do_reallocate throws. *)
From Verif Require Import Base Monad SeqModel HashModel XmemModel.

Section Link.
Context {K V : Type}.
Variable eqb : K -> K -> bool.
Variable hash : K -> Z.
(* the explicit conversion of a value to bool: whether a pointer is not null *)
Variable live : V -> bool.
(* sizeof(Bucket), and 5 or 11 *)
Variables bsz least : Z.

(* Bucket, details/variable_hashmap.ipp:10-47; [item]: key and var_opt, which
   are not initialised in a bucket that was never used *)
Record cell := Cell { prv : option nat; nxt : option nat; item : option (K * V) }.
Definition set_prv (c : cell) (p : option nat) : cell := Cell p (nxt c) (item c).
Definition set_nxt (c : cell) (p : option nat) : cell := Cell (prv c) p (item c).
Definition set_item (c : cell) (x : K * V) : cell := Cell (prv c) (nxt c) (Some x).

Definition at_ (cs : list cell) (i : nat) : outcome cell :=
  match nth_error cs i with Some c => Ok c | None => UB end.
Definition upd (cs : list cell) (i : nat) (f : cell -> cell) : outcome (list cell) :=
  do c <- at_ cs i; Ok (set_nth cs i (f c)).
Definition deref (p : option nat) : outcome nat := match p with Some i => Ok i | None => UB end.

(* Bucket::attach, 21-29, and detach, 31-39 *)
Definition attach (cs : list cell) (q after : nat) : outcome (list cell) :=
  do cs <- upd cs q (fun c => set_prv c (Some after));
  do a <- at_ cs after;
  do cs <- upd cs q (fun c => set_nxt c (nxt a));
  do c <- at_ cs q;
  do p <- deref (prv c);
  do cs <- upd cs p (fun c => set_nxt c (Some q));
  do c <- at_ cs q;
  do n <- deref (nxt c);
  upd cs n (fun c => set_prv c (Some q)).
Definition detach (cs : list cell) (q : nat) : outcome (list cell) :=
  do c <- at_ cs q;
  do p <- deref (prv c);
  do cs <- upd cs p (fun a => set_nxt a (nxt c));
  do c <- at_ cs q;
  do n <- deref (nxt c);
  do cs <- upd cs n (fun a => set_prv a (prv c));
  do cs <- upd cs q (fun c => set_prv c None);
  upd cs q (fun c => set_nxt c None).

(* m_bptr with m_nbkt + 1 buckets, none if it is null; m_size; [pool]: where the
   storage came from *)
Record hmap := HMap { size : nat; pool : Z; cells : list cell }.
Definition head (cs : list cell) : nat := pred (length cs).
(* Bucket::operator bool, 41-46 *)
Definition bucket_of (c : cell) : bucket K V := match nxt c with Some _ => item c | None => None end.
Definition view (cs : list cell) : list (bucket K V) := map bucket_of (firstn (head cs) cs).

(* a free bucket for a value, which is put there: variable_hashmap.cpp:41-49,
   149-158 and 206-215 *)
Definition place (cs : list cell) (kv : K * V) : outcome (list cell) :=
  let n := head cs in
  let orel := origin hash n (fst kv) in
  do q <- linear_probe (fun _ => false) (view cs) orel orel n;
  match q with
  | None => UB
  | Some q => do cs <- upd cs q (fun c => set_item c kv); attach cs q n
  end.
(* the loops of the linear_probe that relocates, 138-160 and 195-217 *)
Fixpoint relocate (n k : nat) (cs : list cell) : outcome (list cell * bool) :=
  match n with
  | O => Ok (cs, false)
  | S n =>
      match nth_error (view cs) k with
      | None => UB
      | Some None => Ok (cs, true)
      | Some (Some kv) =>
          do cs <- detach cs k;
          do cs <- place cs kv;
          relocate n (S k) cs
      end
  end.
(* destroy a bucket and relocate what follows, 133-160 and 190-217 *)
Definition remove_at (cs : list cell) (p : nat) : outcome (list cell) :=
  do cs <- detach cs p;
  let n := head cs in
  if (n <? p + 1)%nat then UB
  else
    do (cs, stop) <- relocate (n - (p + 1)) (p + 1) cs;
    if stop : bool then Ok cs
    else do (cs, stop) <- relocate p 0 cs; Ok cs.

(* xmemalloc of n + 1 buckets, with the lists initialised: 16-32 *)
Definition allocate (n : Z) : outcome (Z * list cell) :=
  if 0x7FFE0000 / bsz <=? n then Throw
  else
    do (p, rsize) <- pool_for_size (bsz * (n + 1));
    let h := Z.to_nat (rsize / bsz - 1) in
    Ok (p, repeat (Cell None None None) h ++ [Cell (Some h) (Some h) None]).
(* xmemfree of n buckets *)
Definition release (m : hmap) (n : nat) : outcome unit :=
  do (p, rsize) <- pool_for_size (bsz * Z.of_nat n);
  if p =? pool m then Ok tt else UB.
(* do_reallocate, 34-60: the old buckets into the new ones *)
Fixpoint drain (fuel : nat) (old new : list cell) : outcome (list cell) :=
  match fuel with
  | O => UB
  | S fuel =>
      do e <- at_ old (head old);
      do p <- deref (nxt e);
      if (p =? head old)%nat then Ok new
      else
        do c <- at_ old p;
        match item c with
        | None => UB
        | Some kv =>
            do new <- place new kv;
            do old <- detach old p;
            drain fuel old new
        end
  end.
Definition reallocate (m : hmap) (n : Z) : outcome hmap :=
  do (p, new) <- allocate n;
  if n <? Z.of_nat (size m) * 2 then UB
  else
    match cells m with
    | [] => Ok (HMap (size m) p new)
    | _ =>
        do new <- drain (length (cells m)) (cells m) new;
        do u <- release m (head (cells m) + 1);
        Ok (HMap (size m) p new)
    end.
(* do_clear, 65-88 *)
Fixpoint empty_out (fuel : nat) (m : hmap) : outcome hmap :=
  match fuel with
  | O => UB
  | S fuel =>
      let cs := cells m in
      do e <- at_ cs (head cs);
      do p <- deref (nxt e);
      if (p =? head cs)%nat then Ok m
      else
        match size m with
        | O => UB
        | S s => do cs <- detach cs p; empty_out fuel (HMap s (pool m) cs)
        end
  end.
Definition do_clear (m : hmap) (free : bool) : outcome hmap :=
  do m <- empty_out (length (cells m)) m;
  do m <- (if free then do u <- release m (head (cells m)); Ok (HMap (size m) 0 []) else Ok m);
  if (size m =? 0)%nat then Ok m else UB.

(* ~Variable_HashMap and clear, variable_hashmap.hpp:59-78 *)
Definition destroy (m : hmap) : outcome unit :=
  match cells m with [] => Ok tt | _ => do m <- do_clear m true; Ok tt end.
Definition clear (m : hmap) : outcome hmap :=
  if (size m =? 0)%nat then Ok m else do_clear m false.

(* the bucket where probing for a key ends *)
Definition probe (m : hmap) (k : K) : outcome (nat * bucket K V) :=
  let n := head (cells m) in
  let orig := origin hash n k in
  do r <- linear_probe (fun kv => eqb (fst kv) k) (view (cells m)) orig orig n;
  match r with
  | None => UB
  | Some p => match nth_error (view (cells m)) p with Some x => Ok (p, x) | None => UB end
  end.
(* insert, variable_hashmap.cpp:90-115, reference_dictionary.cpp:114-143: the
   bucket of the key, and whether it is new; the table may have been
   reallocated even if it is not *)
Definition insert (m : hmap) (k : K) (v : V) : outcome (hmap * nat * bool) :=
  do m <- (if (head (cells m) / 2 <=? size m)%nat
           then reallocate m (Z.lor (Z.of_nat (size m) * 3 mod 2 ^ 32) least) else Ok m);
  do (p, x) <- probe m k;
  match x with
  | Some _ => Ok (m, p, false)
  | None =>
      do cs <- upd (cells m) p (fun c => set_item c (k, v));
      do cs <- attach cs p (head cs);
      Ok (HMap (S (size m)) (pool m) cs, p, true)
  end.
(* erase, variable_hashmap.cpp:117-163: what is moved to *varp_opt *)
Definition erase (m : hmap) (k : K) : outcome (hmap * option V) :=
  if (size m =? 0)%nat then Ok (m, None)
  else
    do (p, x) <- probe m k;
    match x with
    | None => Ok (m, None)
    | Some kv => do cs <- remove_at (cells m) p; Ok (HMap (size m - 1) (pool m) cs, Some (snd kv))
    end.
(* do_xfind_opt, reference_dictionary.cpp:86-112 *)
Definition find (m : hmap) (k : K) : outcome (option (nat * V)) :=
  if (head (cells m) =? 0)%nat then Ok None
  else
    do (p, x) <- probe m k;
    Ok match x with Some kv => Some (p, snd kv) | None => None end.
(* through the reference to a value *)
Definition write_at (m : hmap) (p : nat) (v : V) : outcome hmap :=
  do c <- at_ (cells m) p;
  match item c with
  | Some (k, _) => do cs <- upd (cells m) p (fun c => set_item c (k, v)); Ok (HMap (size m) (pool m) cs)
  | None => UB
  end.
(* merge_into, variable_hashmap.cpp:165-180, from a bucket on *)
Fixpoint merge_from (fuel : nat) (cs : list cell) (q : nat) (other : hmap) : outcome hmap :=
  match fuel with
  | O => UB
  | S fuel =>
      if (q =? head cs)%nat then Ok other
      else
        do c <- at_ cs q;
        match item c with
        | None => UB
        | Some (k, v) =>
            do other <- (if live v then do (o, r) <- insert other k v; Ok (fst o) else Ok other);
            do q <- deref (nxt c);
            merge_from fuel cs q other
        end
  end.
Definition merge_into (m other : hmap) : outcome hmap :=
  if (size m =? 0)%nat then Ok other
  else
    do e <- at_ (cells m) (head (cells m));
    do q <- deref (nxt e);
    merge_from (length (cells m)) (cells m) q other.
(* extract_variable, variable_hashmap.cpp:182-223; [var] before and after *)
Fixpoint extract_from (fuel : nat) (m : hmap) (var : V) : outcome (hmap * bool * V) :=
  match fuel with
  | O => UB
  | S fuel =>
      if (size m =? 0)%nat then Ok (m, false, var)
      else
        let cs := cells m in
        do e <- at_ cs (head cs);
        do q <- deref (nxt e);
        if (q =? head cs)%nat then UB
        else
          do c <- at_ cs q;
          match item c with
          | None => UB
          | Some (_, v) =>
              do cs <- remove_at cs q;
              let m := HMap (size m - 1) (pool m) cs in
              if live v then Ok (m, true, v) else extract_from fuel m v
          end
  end.
Definition extract_variable (m : hmap) (var : V) : outcome (hmap * bool * V) :=
  extract_from (S (size m)) m var.

(* ---- programs with any number of maps ---- *)

(* [None]: destroyed *)
Definition mem := list (option hmap).
Inductive op :=
  | New | Drop (h : nat) | Swap (h j : nat) | Clear (h : nat) | Size (h : nat)
  | Insert (h : nat) (k : K) (v : V)          (* Variable_HashMap::insert *)
  | Put (h : nat) (k : K) (def v : V)         (* Reference_Dictionary::insert(k) = v *)
  | Find (h : nat) (k : K)
  | Write (h : nat) (k : K) (v : V)           (* *mut_find_opt(k) = v, if it is not null *)
  | Erase (h : nat) (k : K)
  | Merge (h j : nat)                         (* h.merge_into(j) *)
  | Extract (h : nat) (var : V).
Inductive res := RUnit | RBool (b : bool) | RNum (n : nat) | RFound (v : option V) | RVar (b : bool) (v : V).

Definition obj (m : mem) (h : nat) : outcome hmap :=
  match nth_error m h with Some (Some x) => Ok x | _ => UB end.
Definition set_obj (m : mem) (h : nat) (x : option hmap) : mem := set_nth m h x.
Definition run1 (m : mem) (o : op) : outcome (mem * res) :=
  match o with
  | New => Ok (m ++ [Some (HMap 0 0 [])], RUnit)
  | Drop h => do x <- obj m h; do u <- destroy x; Ok (set_obj m h None, RUnit)
  | Swap h j => do x <- obj m h; do y <- obj m j;
                Ok (set_obj (set_obj m h (Some y)) j (Some x), RUnit)
  | Clear h => do x <- obj m h; do x <- clear x; Ok (set_obj m h (Some x), RUnit)
  | Size h => do x <- obj m h; Ok (m, RNum (size x))
  | Insert h k v => do x <- obj m h; do (xp, b) <- insert x k v;
                    Ok (set_obj m h (Some (fst xp)), RBool b)
  | Put h k def v => do x <- obj m h; do (xp, b) <- insert x k def;
                     do x <- write_at (fst xp) (snd xp) v;
                     Ok (set_obj m h (Some x), RBool b)
  | Find h k => do x <- obj m h; do r <- find x k; Ok (m, RFound (option_map snd r))
  | Write h k v => do x <- obj m h; do r <- find x k;
                   match r with
                   | None => Ok (m, RBool false)
                   | Some (p, _) => do x <- write_at x p v; Ok (set_obj m h (Some x), RBool true)
                   end
  | Erase h k => do x <- obj m h; do (x, r) <- erase x k; Ok (set_obj m h (Some x), RFound r)
  | Merge h j => do x <- obj m h; do y <- obj m j;
                 if (h =? j)%nat then Ok (m, RUnit)
                 else do y <- merge_into x y; Ok (set_obj m j (Some y), RUnit)
  | Extract h var => do x <- obj m h; do (xb, v) <- extract_variable x var;
                     Ok (set_obj m h (Some (fst xb)), RVar (snd xb) v)
  end.
Fixpoint run (m : mem) (l : list op) : outcome (list res) :=
  match l with
  | [] => Ok []
  | o :: l => do (m, r) <- run1 m o; do rs <- run m l; Ok (r :: rs)
  end.
End Link.
Arguments cell K V : clear implicits.
Arguments hmap K V : clear implicits.
Arguments mem K V : clear implicits.
Arguments op K V : clear implicits.
Arguments res V : clear implicits.
