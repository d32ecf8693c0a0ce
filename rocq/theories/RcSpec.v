(* What reference-counted storage is for. *)
From Verif Require Import Base RcModel.

(* what may refer to storage: a variable, or an assignment that a thread has
   begun *)
Inductive handle : Type := V (x : nat) | T (t : nat).

Definition given (p : pc) : option nat := match p with PReset _ h => h | _ => None end.

Definition refers (c : config) (h : handle) (b : nat) : Prop :=
  match h with V x => slot c x = Some b | T t => given (pcs c t) = Some b end.

(* a number of things *)
Definition number (P : handle -> Prop) (n : Z) : Prop :=
  exists l, NoDup l /\ (forall h, In h l <-> P h) /\ n = Z.of_nat (length l).

(* The value of a variable.  An operation on it takes effect at once; until
   it is finished the variable is locked. *)
Definition stored (c : config) (h : option nat) : option Z :=
  match h with
  | None => None
  | Some b => match heap c b with Some m => Some (data m) | None => None end
  end.

Definition due (c : config) (y : nat) (p : pc) : option Z :=
  match p with
  | PReset d h => if Nat.eqb d y then stored c h else stored c (slot c y)
  | PWrite x f | PClone x f | PMove x f | PCopy x f =>
      if Nat.eqb x y then option_map f (stored c (slot c y)) else stored c (slot c y)
  | _ => stored c (slot c y)
  end.

Definition val (c : config) (y : nat) : option Z :=
  if excl c y then
    match holders c y with [t] => due c y (pcs c t) | _ => stored c (slot c y) end
  else stored c (slot c y).

(* variables of plain values *)
Definition plain (a : action) (v : nat -> option Z) : nat -> option Z :=
  match a with
  | New d z _ => fun y => if Nat.eqb y d then Some z else v y
  | Copy d s => fun y => if Nat.eqb y d then v s else v y
  | Reset d => fun y => if Nat.eqb y d then None else v y
  | Swap p q => fun y => if Nat.eqb y p then v q else if Nat.eqb y q then v p else v y
  | Mutate x f => fun y => if Nat.eqb y x then option_map f (v x) else v y
  | _ => v
  end.
