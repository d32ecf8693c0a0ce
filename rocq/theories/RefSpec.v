(* Statements about subscripts and references. *)
From Verif Require Import Base SeqModel ValueModel RefModel.
Open Scope Z_scope.

(* where subscript i of an array of n elements points, if anywhere *)
Definition elem_pos (n i : Z) : option Z :=
  if 0 <=? i then (if i <? n then Some i else None)
  else if 0 <=? n + i then Some (n + i) else None.

(* the array after storing v at subscript i *)
Definition written (l : list value) (i : Z) (v : value) : list value :=
  let n := zlen l in
  match elem_pos n i with
  | Some p => firstn (Z.to_nat p) l ++ v :: skipn (Z.to_nat p + 1) l
  | None =>
    if 0 <=? i then l ++ repeat VNull (Z.to_nat (i - n)) ++ [v]
    else v :: repeat VNull (Z.to_nat (- i - n - 1)) ++ l
  end.
(* how many elements have to be added for it *)
Definition growth (n i : Z) : Z :=
  if 0 <=? i then Z.max 0 (i + 1 - n) else Z.max 0 (- i - n).

(* growing never makes a vector longer than its size type *)
Definition room_ok (room : Z -> Z -> bool) : Prop := forall len n, room len n = true -> len + n <= int64_max.

(* arrays that fit in memory, objects with distinct keys *)
Fixpoint tree (v : value) : Prop :=
  match v with
  | VArr l => zlen l <= int64_max /\ fold_right (fun x P => tree x /\ P) True l
  | VObj o => NoDup (map fst o) /\ fold_right (fun kx P => tree (snd kx) /\ P) True o
  | _ => True
  end.

(* a subscript for which Wrapped_Index is always defined *)
Definition mild (s : subscript) : Prop :=
  match s with SIdx i => int64_min < i < int64_max | _ => True end.

(* subscripts that name an element independently of the others *)
Definition steady (s : subscript) : Prop := match s with SIdx _ | SKey _ => True | _ => False end.

(* two subscripts that name different elements of any array or object *)
Definition apart (s t : subscript) : Prop :=
  match s, t with
  | SKey j, SKey k => j <> k
  | SIdx i, SIdx j => i <> j /\ (0 <= i /\ 0 <= j \/ i < 0 /\ j < 0)
  | _, _ => False
  end.

Definition var_of (v : value) : variable := {| v_init := true; v_const := false; v_val := v |}.
Definition int_sub (s : subscript) : Prop := match s with SIdx i => is_int64 i | _ => True end.
