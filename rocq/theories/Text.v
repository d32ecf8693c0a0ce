(* Byte strings written as Coq string literals. *)
From Coq Require String Ascii.
From Verif Require Import Base.
Export (notations) String.

Fixpoint str (s : String.string) : bytes :=
  match s with
  | String.EmptyString => []
  | String.String a t => Z.of_N (Ascii.N_of_ascii a) :: str t
  end.
Arguments str s%string_scope.
