(* What reading, writing and copying shall do, with the list functions of the
   standard library. *)
From Verif Require Import Base FileModel.

(* the bytes from an offset on, as many as there are but no more than a limit *)
Definition part (c : bytes) (offset limit : option Z) : bytes :=
  let l := match offset with Some o => skipn (Z.to_nat o) c | None => c end in
  match limit with Some n => firstn (Z.to_nat n) l | None => l end.
(* where it starts, and whether that is possible *)
Definition first (offset : option Z) : Z := match offset with Some o => o | None => 0 end.
Definition possible (offset : option Z) : Prop := 0 <= first offset.
(* blocks one after another, none of which is empty *)
Fixpoint blocks (from : Z) (calls : list (Z * bytes)) (data : bytes) : Prop :=
  match calls with
  | [] => data = []
  | (o, b) :: calls => o = from /\ b <> [] /\ exists rest, data = b ++ rest /\ blocks (from + Z.of_nat (length b)) calls rest
  end.
Definition same_elsewhere (f f' : files) (p : path) : Prop := forall q, q <> p -> f' q = f q.
(* contents cut or filled with zeroes to a length *)
Definition resized (n : Z) (c c' : bytes) : Prop :=
  Z.of_nat (length c') = n /\
  forall i, (i < length c')%nat -> nth i c' 0 = nth i c 0.
(* no call of read or write fails *)
Definition works (io : nat -> option Z) : Prop := forall k, io k <> None.
(* what a call that has to put [data] into a file has achieved: all, or a part
   from the beginning if there was an error *)
Definition wrote (io : nat -> option Z) (start data : bytes) (c : option bytes) (r : outcome unit) : Prop :=
  (r = Ok tt /\ c = Some (start ++ data)) \/
  (r = Throw /\ ~ works io /\ exists w rest, data = w ++ rest /\ c = Some (start ++ w)).
