(* Searching in arrays, with callbacks that have effects. *)
From Verif Require Import Base SortModel SortSpec SeqModel SeqSpec.

Local Open Scope Z_scope.

Section Find.
  Context {A St : Type}.
  Variable test : St -> A -> St * option bool.

  (* the elements are tested one after another, with these results *)
  Inductive tested : St -> list A -> list bool -> St -> Prop :=
    | T_nil st : tested st [] [] st
    | T_cons st x b st1 l bs st2 : test st x = (st1, Some b) -> tested st1 l bs st2 ->
      tested st (x :: l) (b :: bs) st2.

  (* they are tested until a test throws *)
  Inductive broken : St -> list A -> St -> Prop :=
    | B_here st x l st1 : test st x = (st1, None) -> broken st (x :: l) st1
    | B_later st x b st1 l st2 : test st x = (st1, Some b) -> broken st1 l st2 -> broken st (x :: l) st2.

  (* the first element that gives [m] is at [i]; nothing after it is tested *)
  Inductive finds (m : bool) (st : St) (l : list A) : St -> outcome (option Z) -> Prop :=
    | F_none bs st' : tested st l bs st' -> ~ In m bs -> finds m st l st' (Ok None)
    | F_found pre x post bs st1 st' : l = pre ++ x :: post -> tested st pre bs st1 -> ~ In m bs ->
      test st1 x = (st', Some m) -> finds m st l st' (Ok (Some (zlen pre)))
    | F_throw pre x post bs st1 st' : l = pre ++ x :: post -> tested st pre bs st1 -> ~ In m bs ->
      test st1 x = (st', None) -> finds m st l st' Throw.
End Find.

(* a position in a part, as a position in the whole *)
Definition at_offset (f : Z -> Z) (r : outcome (option Z)) : outcome (option Z) :=
  match r with Ok (Some i) => Ok (Some (f i)) | r => r end.

(* the elements whose results are not [m] *)
Fixpoint kept {A} (m : bool) (l : list A) (bs : list bool) : list A :=
  match l, bs with
  | x :: l, b :: bs => if Bool.eqb b m then kept m l bs else x :: kept m l bs
  | _, _ => []
  end.

(* a test without effects that never throws *)
Definition pure_test {A St} (p : A -> bool) : St -> A -> St * option bool := fun st x => (st, Some (p x)).

(* the elements that are not null *)
Definition present {A} (l : list (option A)) : list A :=
  flat_map (fun o => match o with Some x => [x] | None => [] end) l.

(* the first of the elements that none exceeds *)
Definition first_best {A} (better : A -> A -> Prop) (l : list A) (r : option A) : Prop :=
  match r with
  | None => l = []
  | Some x => exists pre post, l = pre ++ x :: post /\
      (forall y, In y pre -> better x y) /\ (forall y, In y post -> ~ better y x)
  end.

(* the last element *)
Definition last_of {A} (l : list A) : option A := match rev l with [] => None | x :: _ => Some x end.

Section Generate.
  Context {A St : Type}.
  Variable gen : St -> Z -> option A -> St * option A.
  (* [l] is generated from number [i] on, after [prev] *)
  Inductive generated : St -> Z -> option A -> list A -> St -> Prop :=
    | G_nil st i prev : generated st i prev [] st
    | G_cons st i prev x st1 l st2 : gen st i prev = (st1, Some x) ->
      generated st1 (i + 1) (Some x) l st2 -> generated st i prev (x :: l) st2.
End Generate.
