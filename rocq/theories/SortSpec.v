(* Sorting and searching, stated on a comparison function. *)
From Coq Require Export Permutation Sorted.
From Verif Require Import Base SortModel.

Section Spec.
Context {A : Type}.
Variable c : A -> A -> compare.

Definition flip (r : compare) : compare :=
  match r with Less => Greater | Greater => Less | r => r end.

(* a consistent total preorder *)
Record total_preorder : Prop := {
  tp_total : forall x y, c x y <> Unordered;
  tp_flip : forall x y, c y x = flip (c x y);
  tp_trans : forall x y z, c x y <> Greater -> c y z <> Greater -> c x z <> Greater }.

Definition not_after (x y : A) : Prop := c x y <> Greater.
Definition before (x y : A) : Prop := c x y = Less.
Definition same (x y : A) : bool := cmp_eqb (c x y) Equal.

(* sorted, with elements that compare equal in their original order *)
Definition is_stable_sort (l out : list A) : Prop :=
  Permutation l out /\ StronglySorted not_after out /\
  forall x, filter (same x) out = filter (same x) l.

(* strictly sorted, with the first element of each class of equal elements *)
Definition is_unique_sort (l out : list A) : Prop :=
  StronglySorted before out /\
  forall x, filter (same x) out = firstn 1 (filter (same x) l).

Definition count (p : A -> bool) (l : list A) : nat := length (filter p l).
End Spec.

(* a comparator without state that never throws *)
Definition pure {A St} (c : A -> A -> compare) : St -> A -> A -> St * option compare :=
  fun st x y => (st, Some (c x y)).

(* a comparator that also notes whether any call failed or was unordered *)
Definition failed (r : option compare) : bool :=
  match r with None | Some Unordered => true | _ => false end.
Definition noting {A St} (comp : St -> A -> A -> St * option compare)
    : St * bool -> A -> A -> (St * bool) * option compare :=
  fun st x y => let '(s, r) := comp (fst st) x y in ((s, snd st || failed r), r).
