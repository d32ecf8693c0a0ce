(* What is expected of the storage pool. *)
From Verif Require Import Base XmemModel.

(* the blocks that can be reached from [h] *)
Inductive list_at (c : config) : Z -> list Z -> Prop :=
  | at_null : list_at c 0 []
  | at_block b l : b <> 0 -> list_at c (nxt c b) l -> list_at c b (b :: l).

(* the block whose first word a thread reads or writes next, or deletes *)
Definition touches (q : pc) : option Z :=
  match q with
  | ANext _ b | ALink _ b _ | ARest _ b => Some b
  | Del _ p => if p =? 0 then None else Some p
  | Del2 _ p _ => Some p
  | FNull _ b _ | FStore _ b _ | FCas _ b | FLink _ b _ => Some b
  | _ => None
  end.

(* a block in the client's hands is as large as it was asked for *)
Definition enough (c : config) (f : info) : Prop :=
  (0 < i_size f -> i_wanted f <= i_count f)
  /\ exists s, sys c (i_data f) = Some s /\ i_size f * i_count f <= s.

(* requests that can be rounded up to a power of two *)
Definition sane (ch : choice) : Prop :=
  match ch with Call_alloc elem count _ => elem * count <= 2 ^ 63 \/ 2 ^ 64 <= elem * count | _ => True end.
