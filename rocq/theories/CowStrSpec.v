(* Strings as plain values: what a program would do if every copy were deep. *)
From Verif Require Import Base CowStrModel.

(* the value of each object of the program; None for one that was destroyed *)
Definition values := list (option bytes).

Definition val (v : values) (h : nat) : option bytes :=
  match nth_error v h with Some (Some x) => Some x | _ => None end.
(* replace the h-th value *)
Definition upd (v : values) (h : nat) (x : option bytes) : values :=
  firstn h v ++ x :: skipn (S h) v.

(* the program may run the statement: the objects named exist and no more
   characters are popped than there are *)
Definition legal (v : values) (s : stmt) : Prop :=
  match s with
  | NewLit _ => True
  | NewCopy j | NewMove j | NewSub j _ _ | Drop j | Clear j => val v j <> None
  | SetLit h _ | Put h _ _ | Reserve h _ | Shrink h | AppendLit h _ => val v h <> None
  | Assign h j | MoveAssign h j | Swap h j | Append h j => val v h <> None /\ val v j <> None
  | Pop h n => exists x, val v h = Some x /\ (n <= length x)%nat
  end.

(* the values after the statement; None if a position is out of range *)
Definition deep (v : values) (s : stmt) : option values :=
  let get h := match val v h with Some x => x | None => [] end in
  match s with
  | NewLit l => Some (v ++ [Some l])
  | NewCopy j => Some (v ++ [Some (get j)])
  | NewMove j => Some (upd v j (Some []) ++ [Some (get j)])
  | NewSub j tpos tn =>
      if (tpos <=? length (get j))%nat
      then Some (v ++ [Some (firstn tn (skipn tpos (get j)))]) else None
  | Drop h => Some (upd v h None)
  | Assign h j => Some (upd v h (Some (get j)))
  | MoveAssign h j =>
      Some (if (h =? j)%nat then v else upd (upd v j (Some [])) h (Some (get j)))
  | Swap h j => Some (upd (upd v j (Some (get h))) h (Some (get j)))
  | SetLit h l => Some (upd v h (Some l))
  | Clear h => Some (upd v h (Some []))
  | Append h j => Some (upd v h (Some (get h ++ get j)))
  | AppendLit h l => Some (upd v h (Some (get h ++ l)))
  | Pop h n => Some (upd v h (Some (firstn (length (get h) - n) (get h))))
  | Put h pos c =>
      if (pos <? length (get h))%nat
      then Some (upd v h (Some (firstn pos (get h) ++ c :: skipn (S pos) (get h)))) else None
  | Reserve _ _ | Shrink _ => Some v
  end.

(* an object reads as a value, followed by a null character *)
Definition shows (m : mem) (o : option cstr) (x : option bytes) : Prop :=
  match o, x with
  | Some o, Some x => contents m o = Ok x /\ read m (ptr o) (S (len o)) = Ok (x ++ [0])
  | None, None => True
  | _, _ => False
  end.
(* the objects of a program read as some values *)
Definition denotes (m : mem) (v : values) : Prop := Forall2 (shows m) (objs m) v.

(* a block is in use by an object *)
Definition owned (m : mem) (s : nat) : Prop := exists o, In (Some o) (objs m) /\ sth o = Some s.
(* each block is kept as long as, and no longer than, an object uses it *)
Definition no_leak (m : mem) : Prop :=
  forall s, owned m s <-> exists b, nth_error (blocks m) s = Some (Some b).

(* every size involved is far below the limit *)
Definition limit : Z := max_size / 4.
Definition small (m : mem) (s : stmt) : Prop :=
  (forall b, In (Some b) (blocks m) -> Z.of_nat (length (cells b)) <= limit) /\
  (forall o, In (Some o) (objs m) -> Z.of_nat (len o) <= limit) /\
  match s with
  | NewLit l | SetLit _ l | AppendLit _ l => Z.of_nat (length l) <= limit
  | Reserve _ n => Z.of_nat n <= limit
  | _ => True
  end.
(* a statement that cannot leave an object in the middle of a block it owns:
   no assignment of a literal other than "", no proper tail of another string *)
Definition tame (m : mem) (v : values) (s : stmt) : Prop :=
  match s with
  | SetLit _ l => l = []
  | NewSub j tpos tn =>
      match val v j with
      | Some x => tpos = 0%nat \/ (length x <= tpos)%nat \/ (tpos + tn < length x)%nat
      | None => True
      end
  | _ => True
  end.
(* or: appending and popping is done only with objects that own nothing, are
   empty, or whose characters are at the start of their block *)
Definition at_start (m : mem) (v : values) (s : stmt) : Prop :=
  match s with
  | Append h _ | AppendLit h _ | Pop h _ =>
      match obj m h with
      | Ok o => sth o = None \/ len o = 0%nat \/ exists s, ptr o = InStor s 0
      | _ => True
      end
  | _ => True
  end.
Definition any (m : mem) (v : values) (s : stmt) : Prop := True.

(* the states an execution can be in, with the values its objects should have;
   a statement that throws has no effect *)
Inductive reach (fresh : nat -> nat -> Z) (ok : mem -> values -> stmt -> Prop) : mem -> values -> Prop :=
  | r_init : reach fresh ok init []
  | r_step m v s m' v' :
      reach fresh ok m v -> legal v s -> ok m v s ->
      run1 fresh m s = Ok m' -> deep v s = Some v' -> reach fresh ok m' v'.
