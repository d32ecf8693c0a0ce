(* What it means to round a rational number, and to be an extreme. *)
From Verif Require Import Base SortModel ValueModel ValueSpec RoundModel.
Open Scope Z_scope.

(* n is the integer that q is rounded to; halfway cases go away from zero *)
Definition rounds (d : mode) (q : Q) (n : Z) : Prop :=
  match d with
  | Down => (inject_Z n <= q /\ q < inject_Z (n + 1))%Q
  | Up => (inject_Z (n - 1) < q /\ q <= inject_Z n)%Q
  | Toward_zero =>
    ((0 <= q)%Q -> (inject_Z n <= q /\ q < inject_Z (n + 1))%Q) /\
    ((q <= 0)%Q -> (inject_Z (n - 1) < q /\ q <= inject_Z n)%Q)
  | Nearest =>
    ((0 <= q)%Q -> (inject_Z (2 * n - 1) <= inject_Z 2 * q /\ inject_Z 2 * q < inject_Z (2 * n + 1))%Q) /\
    ((q <= 0)%Q -> (inject_Z (2 * n - 1) < inject_Z 2 * q /\ inject_Z 2 * q <= inject_Z (2 * n + 1))%Q)
  end.

(* the number of a real, if it is finite, and whether its sign bit is set *)
Definition finite (r : real) (q : Q) : Prop := num_of (VReal r) = Some (NQ q).
Definition negative (r : real) : option bool :=
  match r with RNan => None | RInf s => Some s | RFin s _ _ => Some s end.

(* arguments that are not null *)
Definition given (l : list value) : list value :=
  filter (fun v => match v with VNull => false | _ => true end) l.
Definition ordered (l : list value) : Prop := forall x y, In x l -> In y l -> vcmp x y <> Unordered.
(* the first of the arguments that no other exceeds *)
Definition first_extreme (better : value -> value -> Prop) (l : list value) (v : value) : Prop :=
  exists pre post, l = pre ++ v :: post /\
    (forall x, In x pre -> better v x) /\ (forall x, In x post -> ~ better x v).
Definition greater (x y : value) : Prop := vcmp x y = Greater.
Definition less (x y : value) : Prop := vcmp x y = Less.

Definition at_most (x y : value) : Prop := vcmp x y = Less \/ vcmp x y = Equal.
(* the result of clamping, or an exception *)
Definition clamped (v lower upper : value) (r : outcome value) : Prop :=
  (less v lower /\ r = Ok lower) \/
  (at_most lower v /\ at_most v upper /\ r = Ok v) \/
  (at_most lower v /\ greater v upper /\ r = Ok upper) \/
  (vcmp v lower = Unordered /\ r = Throw) \/
  (at_most lower v /\ vcmp v upper = Unordered /\ r = Throw).

(* a computation that finishes with r, whatever the fuel above some bound *)
Definition finishes {A} (f : nat -> option A) (r : A) : Prop :=
  exists n, forall fuel, (n <= fuel)%nat -> f fuel = Some r.
