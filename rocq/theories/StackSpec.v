(* The same programs on lists; the first element is at the bottom.  None if
   there are not enough elements. *)
From Verif Require Import Base StackModel.

Section Lists.
Variable A : Type.
Variable blank : A.
Definition replace (k : nat) (v : A) (l : list A) : list A := firstn k l ++ v :: skipn (S k) l.
Fixpoint plays (l : list A) (cmds : list (command A)) (out : list (output A)) : option (list (output A)) :=
  match cmds with
  | [] => Some out
  | Push _ :: cmds => plays (l ++ [blank]) cmds out
  | Pop _ n :: cmds => if (n <=? length l)%nat then plays (firstn (length l - n) l) cmds out else None
  | Clear _ :: cmds => plays [] cmds out
  | SetTop _ i v :: cmds => if (i <? length l)%nat then plays (rev (replace i v (rev l))) cmds out else None
  | SetBottom _ i v :: cmds => if (i <? length l)%nat then plays (replace i v l) cmds out else None
  | GetTop _ i :: cmds => match nth_error (rev l) i with Some v => plays l cmds (out ++ [Value _ v]) | None => None end
  | GetBottom _ i :: cmds => match nth_error l i with Some v => plays l cmds (out ++ [Value _ v]) | None => None end
  | GetSize _ :: cmds => plays l cmds (out ++ [Size _ (length l)])
  end.
End Lists.
