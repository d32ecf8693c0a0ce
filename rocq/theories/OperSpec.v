(* Sequences as numbered elements, for the operators on strings and arrays. *)
From Verif Require Import Base SortModel ValueModel OperModel.

Definition size {A} (l : list A) : Z := Z.of_nat (length l).
(* element i, and z where there is none *)
Definition item {A} (z : A) (l : list A) (i : Z) : A := if i <? 0 then z else nth (Z.to_nat i) l z.

(* the elements move n places to the front or to the back; what leaves is lost *)
Definition moved {A} (z : A) (v w : list A) (n : Z) : Prop :=
  size w = size v /\ forall i, 0 <= i < size v -> item z w i = item z v (i + n).
(* n elements z are added, or n elements are removed, at the back *)
Definition lengthened {A} (z : A) (v w : list A) (n : Z) : Prop :=
  size w = size v + n /\ forall i, item z w i = item z v i.
Definition shortened {A} (z : A) (v w : list A) (n : Z) : Prop :=
  size w = Z.max 0 (size v - n) /\ forall i, i < size w -> item z w i = item z v i.
(* element by element *)
Definition combined {A} (z : A) (f : A -> A -> A) (len : Z) (v w r : list A) : Prop :=
  size r = len /\ forall i, item z r i = f (item z v i) (item z w i).

Definition moved_value (l r : value) (n : Z) : Prop :=
  match l, r with
  | VStr v, VStr w => moved 0 v w n
  | VArr v, VArr w => moved VNull v w n
  | _, _ => False
  end.
Definition lengthened_value (l r : value) (n : Z) : Prop :=
  match l, r with
  | VStr v, VStr w => lengthened 0 v w n
  | VArr v, VArr w => lengthened VNull v w n
  | _, _ => False
  end.
Definition shortened_value (l r : value) (n : Z) : Prop :=
  match l, r with
  | VStr v, VStr w => shortened 0 v w n
  | VArr v, VArr w => shortened VNull v w n
  | _, _ => False
  end.

Definition is_seq (l : value) : Prop :=
  match l with VStr _ | VArr _ => True | _ => False end.
Definition is_shift (o : xop) : Prop :=
  match o with xo_sll | xo_srl | xo_sla | xo_sra => True | _ => False end.

(* A truth value as an integer of one bit. *)
Definition bit (b : bool) : Z := if b then 1 else 0.
