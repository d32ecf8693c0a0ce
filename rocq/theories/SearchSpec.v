(* Occurrences of a pattern in a text. *)
From Verif Require Import Base SeqModel.

(* p occurs in t at offset k *)
Definition occurs (p t : bytes) (k : Z) : Prop := exists a b, t = a ++ p ++ b /\ zlen a = k.

(* p occurs in t at offset k and lies in [lo, hi) *)
Definition occurs_in (p t : bytes) (lo hi k : Z) : Prop :=
  occurs p t k /\ lo <= k /\ k + zlen p <= hi.

Definition leftmost (P : Z -> Prop) (r : option Z) : Prop :=
  match r with
  | Some k => P k /\ forall j, P j -> k <= j
  | None => forall j, ~ P j
  end.
Definition rightmost (P : Z -> Prop) (r : option Z) : Prop :=
  match r with
  | Some k => P k /\ forall j, P j -> j <= k
  | None => forall j, ~ P j
  end.

(* t' is t with the occurrences of p replaced by r, taken from left to right
   without overlap *)
Inductive substituted (p r : bytes) : bytes -> bytes -> Prop :=
  | sub_none t : (forall k, ~ occurs p t k) -> substituted p r t t
  | sub_some a b b' : (forall j, occurs p (a ++ p ++ b) j -> zlen a <= j) ->
      substituted p r b b' -> substituted p r (a ++ p ++ b) (a ++ r ++ b').

(* t with r put before every byte and at the end *)
Fixpoint interleaved (r t : bytes) : bytes :=
  match t with [] => r | c :: t => r ++ c :: interleaved r t end.

(* the segments of t between occurrences of d, taken from left to right
   without overlap; at most n of them, the last one being the rest *)
Inductive segmented (d : bytes) : Z -> bytes -> list bytes -> Prop :=
  | seg_last n t : n = 1 \/ (forall k, ~ occurs d t k) -> segmented d n t [t]
  | seg_more n a b l : 1 < n -> (forall j, occurs d (a ++ d ++ b) j -> zlen a <= j) ->
      segmented d (n - 1) b l -> segmented d n (a ++ d ++ b) (a :: l).

(* strings joined by a separator *)
Fixpoint joined (d : bytes) (l : list bytes) : bytes :=
  match l with [] => [] | [s] => s | s :: l => s ++ d ++ joined d l end.
