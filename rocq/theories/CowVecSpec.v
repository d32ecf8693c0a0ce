(* Arrays as plain values: what a program would do if every copy were deep. *)
From Verif Require Import Base Monad CowVecModel.

Section Spec.
Context {A : Type}.

(* the elements of each vector of the program; None for one destroyed *)
Definition values := list (option (list A)).
Definition val (v : values) (h : nat) : option (list A) :=
  match nth_error v h with Some (Some x) => Some x | _ => None end.
Definition upd (v : values) (h : nat) (x : option (list A)) : values :=
  firstn h v ++ x :: skipn (S h) v.
Definition get (v : values) (h : nat) : list A := match val v h with Some l => l | None => [] end.

(* the elements an argument stands for *)
Definition arg_vals (v : values) (x : arg A) : list A :=
  match x with
  | Vals l => l
  | Copies n j i => match nth_error (get v j) i with Some a => repeat a n | None => [] end
  | All j => get v j
  end.
Definition legal_arg (v : values) (x : arg A) : Prop :=
  match x with
  | Vals _ => True
  | Copies _ j i => val v j <> None /\ (i < length (get v j))%nat
  | All j => val v j <> None
  end.
Definition legal (v : values) (s : stmt A) : Prop :=
  match s with
  | New => True
  | NewCopy j | NewMove j | NewSub j _ _ | Drop j | Clear j | Erase j _ _ | Put j _ _
  | Resize j _ _ | Reserve j _ | Shrink j => val v j <> None
  | Assign h j | Swap h j => val v h <> None /\ val v j <> None
  | Append h x | Insert h _ x => val v h <> None /\ legal_arg v x
  | Push h x | Insert1 h _ x => val v h <> None /\ legal_arg v x /\ length (arg_vals v x) = 1%nat
  | Pop h n => val v h <> None /\ (n <= length (get v h))%nat
  end.

(* the values after a statement; None if a position is out of range *)
Definition deep (v : values) (s : stmt A) : option values :=
  match s with
  | New => Some (v ++ [Some []])
  | NewCopy j => Some (v ++ [Some (get v j)])
  | NewMove j => Some (upd v j (Some []) ++ [Some (get v j)])
  | NewSub j tpos tn =>
      if (tpos <=? length (get v j))%nat
      then Some (v ++ [Some (firstn tn (skipn tpos (get v j)))]) else None
  | Drop h => Some (upd v h None)
  | Assign h j => Some (upd v h (Some (get v j)))
  | Swap h j => Some (upd (upd v j (Some (get v h))) h (Some (get v j)))
  | Clear h => Some (upd v h (Some []))
  | Append h x | Push h x => Some (upd v h (Some (get v h ++ arg_vals v x)))
  | Insert h tpos x | Insert1 h tpos x =>
      if (tpos <=? length (get v h))%nat
      then Some (upd v h (Some (firstn tpos (get v h) ++ arg_vals v x ++ skipn tpos (get v h)))) else None
  | Erase h tpos tn =>
      if (tpos <=? length (get v h))%nat
      then Some (upd v h (Some (firstn tpos (get v h) ++ skipn tn (skipn tpos (get v h))))) else None
  | Pop h n => Some (upd v h (Some (firstn (length (get v h) - n) (get v h))))
  | Put h pos a =>
      if (pos <? length (get v h))%nat
      then Some (upd v h (Some (firstn pos (get v h) ++ a :: skipn (S pos) (get v h)))) else None
  | Resize h n a =>
      Some (upd v h (Some (firstn n (get v h) ++ repeat a (n - length (get v h)))))
  | Reserve _ _ | Shrink _ => Some v
  end.

(* the elements a program sees through data() and size() *)
Fixpoint read_all (m : mem A) (s : nat) (l : list nat) : outcome (list A) :=
  match l with
  | [] => Ok []
  | i :: l => do a <- read_cell m s i; do t <- read_all m s l; Ok (a :: t)
  end.
Definition contents (m : mem A) (o : option nat) : outcome (list A) :=
  match o with
  | None => Ok []
  | Some s => do n <- size m o; read_all m s (seq 0 n)
  end.
Definition shows (m : mem A) (o : option (option nat)) (x : option (list A)) : Prop :=
  match o, x with
  | Some o, Some x => contents m o = Ok x
  | None, None => True
  | _, _ => False
  end.
Definition denotes (m : mem A) (v : values) : Prop := Forall2 (shows m) (objs m) v.

Definition owned (m : mem A) (s : nat) : Prop := In (Some (Some s)) (objs m).
(* a block is kept exactly as long as a vector uses it, and when it goes no
   element is left in it; a live one holds elements in its first slots only *)
Definition no_leak (m : mem A) : Prop :=
  (forall s, owned m s <-> exists b, nth_error (blocks m) s = Some (Live b)) /\
  (forall s d, nth_error (blocks m) s = Some (Gone d) -> forall c, In c d -> c = Raw) /\
  (forall s b i c, nth_error (blocks m) s = Some (Live b) -> nth_error (data b) i = Some c ->
     (i < nelem b)%nat <-> c <> Raw).

Variables elem_size block_size : Z.
Variable max_size : nat.
(* every size involved is far below the limit *)
Definition small (m : mem A) (v : values) (s : stmt A) : Prop :=
  let ok n := (8 * n <= max_size)%nat in
  ok 17%nat /\ 8 * block_size <= Z.of_nat max_size /\
  (forall b, In (Live b) (blocks m) -> ok (length (data b))) /\
  (forall h, ok (length (get v h))) /\
  match s with
  | Append _ x | Push _ x | Insert _ _ x | Insert1 _ _ x => ok (length (arg_vals v x))
  | Resize _ n _ | Reserve _ n => ok n
  | _ => True
  end.

(* the states an execution can be in, with the values its vectors should have;
   a statement that throws has no effect *)
Inductive reach : mem A -> values -> Prop :=
  | r_init : reach init []
  | r_step m v s m' v' :
      reach m v -> legal v s ->
      run1 elem_size block_size max_size m s = Ok m' -> deep v s = Some v' -> reach m' v'.
End Spec.
Arguments values A : clear implicits.
