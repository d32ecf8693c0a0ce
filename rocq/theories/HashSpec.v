(* Maps as plain values: unordered lists of pairs with distinct keys, and what a
   program would do if every copy were deep. *)
From Verif Require Import Base Monad HashModel.
From Coq Require Import Permutation.

Section Spec.
Context {K V : Type}.
Variable eqb : K -> K -> bool.

Definition pairs := list (K * V).
Fixpoint assoc (a : pairs) (k : K) : option V :=
  match a with [] => None | (k', v) :: a => if eqb k' k then Some v else assoc a k end.
Definition has (a : pairs) (k : K) : bool := match assoc a k with Some _ => true | None => false end.
Definition without (a : pairs) (k : K) : pairs := filter (fun kv => negb (eqb (fst kv) k)) a.
Definition put (a : pairs) (k : K) (v : V) : pairs := (k, v) :: without a k.
Definition add (a : pairs) (k : K) (v : V) : pairs := if has a k then a else (k, v) :: a.
Definition add_all (a : pairs) (l : list (K * V)) : pairs :=
  fold_left (fun a kv => add a (fst kv) (snd kv)) l a.

(* the pairs of each map of the program; None for one destroyed *)
Definition values := list (option pairs).
Definition val (v : values) (h : nat) : option pairs :=
  match nth_error v h with Some (Some x) => Some x | _ => None end.
Definition upd (v : values) (h : nat) (x : option pairs) : values :=
  firstn h v ++ x :: skipn (S h) v.
Definition get (v : values) (h : nat) : pairs := match val v h with Some l => l | None => [] end.

(* the buckets of map h *)
Definition buckets (m : mem K V) (h : nat) : list (bucket K V) :=
  match nth_error (objs m) h with
  | Some (Some (Some s)) =>
      match nth_error (blocks m) s with Some (Live b) => bkts (tab b) | _ => [] end
  | _ => []
  end.

(* iterators must belong to the map, and the map must have storage *)
Definition legal (m : mem K V) (v : values) (s : stmt K V) : Prop :=
  match s with
  | New => True
  | NewCopy j | NewMove j | Drop j | Clear j | Reserve j _ | Shrink j | Rehash j _
  | Emplace j _ _ | Put j _ _ | Index j _ _ _ | FindPut j _ _ | Erase j _ | Insert j _ => val v j <> None
  | Assign h j | Swap h j => val v h <> None /\ val v j <> None
  | EraseRange h tpos tlen => val v h <> None /\ buckets m h <> [] /\ (tpos + tlen <= length (buckets m h))%nat
  | InsertUnknown _ _ => False
  end.

(* the values after a statement; the pairs between two iterators are the ones
   met when going from the first to the second *)
Definition deep (m : mem K V) (v : values) (s : stmt K V) : values :=
  match s with
  | New => v ++ [Some []]
  | NewCopy j => v ++ [Some (get v j)]
  | NewMove j => upd v j (Some []) ++ [Some (get v j)]
  | Drop h => upd v h None
  | Assign h j => upd v h (Some (get v j))
  | Swap h j => upd (upd v j (Some (get v h))) h (Some (get v j))
  | Clear h => upd v h (Some [])
  | Reserve _ _ | Shrink _ | Rehash _ _ => v
  | Emplace h k x => upd v h (Some (add (get v h) k x))
  | Put h k x | Index h k _ x => upd v h (Some (put (get v h) k x))
  | FindPut h k x => upd v h (Some (if has (get v h) k then put (get v h) k x else get v h))
  | Erase h k => upd v h (Some (without (get v h) k))
  | EraseRange h tpos tlen =>
      upd v h (Some (entries (firstn tpos (buckets m h)) ++ entries (skipn (tpos + tlen) (buckets m h))))
  | Insert h l | InsertUnknown h l => upd v h (Some (add_all (get v h) l))
  end.

Variable hash : K -> Z.
(* what a program sees of a map: iteration, size() and find() *)
Definition iterate (m : mem K V) (o : option nat) : outcome (list (K * V)) :=
  match o with None => Ok [] | Some s => do b <- block m s; Ok (entries (bkts (tab b))) end.
Definition shows (m : mem K V) (o : option (option nat)) (x : option pairs) : Prop :=
  match o, x with
  | Some o, Some x =>
      (exists l, iterate m o = Ok l /\ Permutation l x) /\ NoDup (map fst x) /\
      size m o = Ok (length x) /\
      forall k, exists r, lookup eqb hash m o k = Ok r /\ option_map snd r = assoc x k
  | None, None => True
  | _, _ => False
  end.
Definition denotes (m : mem K V) (v : values) : Prop := Forall2 (shows m) (objs m) v.

(* a block is kept exactly as long as a map uses it, and is at most half full *)
Definition owned (m : mem K V) (s : nat) : Prop := In (Some (Some s)) (objs m).
Definition users (m : mem K V) (s : nat) : list (option (option nat)) :=
  filter (fun o => match o with Some (Some s') => (s' =? s)%nat | _ => false end) (objs m).
Definition tidy (m : mem K V) : Prop :=
  (forall s, owned m s <-> exists b, nth_error (blocks m) s = Some (Live b)) /\
  (forall s b, nth_error (blocks m) s = Some (Live b) ->
     nref b = Z.of_nat (length (users m s)) /\
     (2 * length (entries (bkts (tab b))) <= length (bkts (tab b)))%nat).

Variables bkt_size block_size : Z.
Variable max_size : nat.
(* every size involved is far below the limit *)
Definition small (m : mem K V) (v : values) (s : stmt K V) : Prop :=
  let ok n := (16 * n <= max_size)%nat in
  ok 17%nat /\ 16 * block_size <= Z.of_nat max_size /\
  (forall b, In (Live b) (blocks m) -> ok (length (bkts (tab b)))) /\
  match s with
  | Reserve _ n | Rehash _ n => ok n
  | Insert _ l => ok (length l)
  | _ => True
  end.

(* the states an execution can be in, with the values its maps should have; a
   statement that throws has no effect *)
Inductive reach : mem K V -> values -> Prop :=
  | r_init : reach init []
  | r_step m v s m' :
      reach m v -> legal m v s ->
      run1 eqb hash bkt_size block_size max_size m s = Ok m' -> reach m' (deep m v s).
End Spec.
Arguments pairs K V : clear implicits.
Arguments values K V : clear implicits.
