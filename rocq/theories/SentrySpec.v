(* A stack that grows downwards: frames are at least `f` bytes apart. *)
From Verif Require Import Base.

Inductive descends (f : Z) : Z -> list Z -> Prop :=
| D_nil a : descends f a []
| D_cons a b frames : 0 <= b <= a - f -> descends f b frames -> descends f a (b :: frames).
Definition address (a : Z) : Prop := 0 <= a < 2 ^ 63.
