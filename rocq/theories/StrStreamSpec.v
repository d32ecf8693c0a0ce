(* What reading and writing at an offset means, position by position. *)
From Verif Require Import Base StrStreamModel.

Definition good (max : Z) (s : stream) : Prop :=
  0 <= off s < 2 ^ 63 /\ size s <= max < 2 ^ 63 - 1 /\ Forall (fun c => -128 <= c <= 127) (text s).
Definition same_mode (s s' : stream) : Prop :=
  can_read s' = can_read s /\ can_write s' = can_write s /\ append_mode s' = append_mode s.
(* where characters are written *)
Definition start (s : stream) : Z := if append_mode s then size s else off s.
(* the character at a position after writing: what was written, what was there
   before, or zero in between; nothing after what was written *)
Definition written (old : list Z) (at_ : Z) (l : list Z) (new : list Z) : Prop :=
  Z.of_nat (length new) = at_ + Z.of_nat (length l) /\
  forall i : nat,
    (at_ <= Z.of_nat i -> nth_error new i = nth_error l (i - Z.to_nat at_)) /\
    (Z.of_nat i < at_ -> nth_error new i = match nth_error old i with Some c => Some c | None => Some 0 end).
(* what files and other streams do: the rest is kept *)
Definition keeps_rest (old : list Z) (at_ : Z) (l : list Z) (new : list Z) : Prop :=
  forall i : nat, at_ + Z.of_nat (length l) <= Z.of_nat i -> nth_error new i = nth_error old i.
(* what is read: as many characters as there are, but no more than n *)
Definition read_at (t : list Z) (at_ n : Z) (r : list Z) : Prop :=
  Z.of_nat (length r) <= n /\
  (forall i : nat, (i < length r)%nat -> nth_error r i = nth_error t (Z.to_nat at_ + i)) /\
  (Z.of_nat (length r) < n -> nth_error t (Z.to_nat at_ + length r) = None).
