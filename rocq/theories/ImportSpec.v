(* What importing means, with the list of files that are being loaded passed
   down instead of kept in a table. *)
From Verif Require Import Base ImportModel.

Section Loads.
Variable id_of : path -> option Z.
Variable contents : Z -> script.

Inductive loads (A : list Z) : path -> list event -> outcome unit -> Prop :=
  | loads_missing p : id_of p = None -> loads A p [Refused p] Throw
  | loads_denied p i : id_of p = Some i -> In i A -> loads A p [Refused p] Throw
  | loads_file p i tr r : id_of p = Some i -> ~ In i A -> does (i :: A) (contents i) tr r ->
      loads A p (Began i :: tr ++ [Ended i]) r
with does (A : list Z) : script -> list event -> outcome unit -> Prop :=
  | does_nothing : does A [] [] (Ok tt)
  | does_say n s tr r : does A s tr r -> does A (Say n :: s) (Said n :: tr) r
  | does_raise s : does A (Raise :: s) [] Throw
  | does_import p c s t1 t2 r : loads A p t1 (Ok tt) -> does A s t2 r -> does A (Import p c :: s) (t1 ++ t2) r
  | does_catch p s t1 t2 r : loads A p t1 Throw -> does A s t2 r -> does A (Import p true :: s) (t1 ++ t2) r
  | does_throw p s t1 : loads A p t1 Throw -> does A (Import p false :: s) t1 Throw.
End Loads.

(* Files end in the reverse order of their beginning, and none begins while it
   is being loaded. *)
Inductive nested : list Z -> list event -> Prop :=
  | nested_nil A : nested A []
  | nested_said A n tr : nested A tr -> nested A (Said n :: tr)
  | nested_refused A p tr : nested A tr -> nested A (Refused p :: tr)
  | nested_file A i tr tr' : ~ In i A -> nested (i :: A) tr -> nested A tr' -> nested A (Began i :: tr ++ Ended i :: tr').
