(* What is below a path, and which lists of paths are trees. *)
From Verif Require Import Base RemoveModel.

Definition below (p q : path) : Prop := exists r, q = p ++ r.
(* every path once, and in a directory that exists; the root need not be
   listed, but if it is it is a directory *)
Definition tree (t : fs) : Prop :=
  NoDup (map fst t) /\ (forall p n k, In (p ++ [n], k) t -> p = [] \/ In (p, Directory) t) /\
  ~ In ([], Plain) t.
(* t' is t without what is below p, in the same order *)
Inductive cut (p : path) : fs -> fs -> Prop :=
  | cut_nil : cut p [] []
  | cut_below q k t t' : below p q -> cut p t t' -> cut p ((q, k) :: t) t'
  | cut_else q k t t' : ~ below p q -> cut p t t' -> cut p ((q, k) :: t) ((q, k) :: t').
