(* Slicing and rotation in terms of positions. *)
From Verif Require Import Base SeqModel.

Definition clamp (lo hi x : Z) : Z := Z.max lo (Z.min hi x).

(* the half-open range of positions denoted by a start and a length in a
   sequence of n elements *)
Definition range_start (n : Z) (from : option Z) : Z :=
  let f := match from with Some f => f | None => 0 end in
  if f <? 0 then f + n else f.
Definition range_low (n : Z) (from : option Z) : Z := clamp 0 n (range_start n from).
Definition range_high (n : Z) (from length : option Z) : Z :=
  match length with
  | None => n
  | Some len => clamp (range_low n from) n (range_start n from + len)
  end.

(* the elements of l, numbered from i, at positions lo <= p < hi *)
Fixpoint window {A} (lo hi i : Z) (l : list A) : list A :=
  match l with
  | [] => []
  | x :: t => if (lo <=? i) && (i <? hi) then x :: window lo hi (i + 1) t else window lo hi (i + 1) t
  end.

Definition opt_int64 (o : option Z) : Prop := match o with Some z => is_int64 z | None => True end.
Definition fits {A} (l : list A) : Prop := zlen l <= int64_max.

(* l with the range given by (from, len) replaced by the range of rep given by
   (rfrom, rlen) *)
Definition replaced {A} (l : list A) (from len : option Z) (rep : list A) (rfrom rlen : option Z) : list A :=
  let n := zlen l in
  let lo := range_low n from in
  let hi := range_high n from len in
  let m := zlen rep in
  window 0 lo 0 l ++ window (range_low m rfrom) (range_high m rfrom rlen) 0 rep ++ window hi n 0 l.

Fixpoint times {A} (n : nat) (l : list A) : list A :=
  match n with O => [] | S n => l ++ times n l end.
