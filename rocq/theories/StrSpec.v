(* What the string functions should return, in terms of single bytes. *)
From Verif Require Import Base SeqModel SeqSpec.

(* position k of t, within [lo, hi), holds a byte that is in the set (or is
   not, when want is false) *)
Definition holds_at (t : bytes) (set : bytes) (want : bool) (lo hi k : Z) : Prop :=
  lo <= k < hi /\ exists c, nth_error t (Z.to_nat k) = Some c /\ (In c set <-> want = true).

(* t = a ++ m ++ b where a and b consist of bytes of the set and m does not
   begin (or end) with one *)
Definition no_head (set m : bytes) : Prop := match m with [] => True | c :: _ => ~ In c set end.
Definition no_last (set m : bytes) : Prop := no_head set (rev m).

Definition upper (c : Z) : Z := if (0x61 <=? c) && (c <=? 0x7A) then c - 0x20 else c.
Definition lower (c : Z) : Z := if (0x41 <=? c) && (c <=? 0x5A) then c + 0x20 else c.

(* the position of the first occurrence of c in s *)
Definition first_at (c : Z) (s : bytes) (k : nat) : Prop :=
  nth_error s k = Some c /\ forall j, (j < k)%nat -> nth_error s j <> Some c.

(* what becomes of one byte under a translation *)
Inductive translated (inputs : bytes) (outputs : bytes) (c : Z) : bytes -> Prop :=
  | tr_keep : ~ In c inputs -> translated inputs outputs c [c]
  | tr_map k x : first_at c inputs k -> nth_error outputs k = Some x -> translated inputs outputs c [x]
  | tr_drop k : first_at c inputs k -> nth_error outputs k = None -> translated inputs outputs c [].

(* byte-wise lexicographic order *)
Fixpoint lexcmp (a b : bytes) : Z :=
  match a, b with
  | [], [] => 0
  | [], _ => -1
  | _, [] => 1
  | x :: a, y :: b => if x <? y then -1 else if y <? x then 1 else lexcmp a b
  end.
