(* Sequencing of outcomes. *)
From Verif Require Import Base.

Definition obind {A B} (m : outcome A) (f : A -> outcome B) : outcome B :=
  match m with Ok a => f a | Throw => Throw | UB => UB end.
Notation "'do' p <- m ; f" := (obind m (fun p => f))
  (at level 200, p pattern, m at level 100, f at level 200, right associativity).

Lemma obind_ok {A B} (m : outcome A) (f : A -> outcome B) b :
  obind m f = Ok b -> exists a, m = Ok a /\ f a = Ok b.
Proof. destruct m; cbn; intros H; try discriminate; eauto. Qed.

(* split an equation between outcomes of tuples, and no further *)
Ltac peq :=
  match goal with
  | |- Ok _ = Ok _ => f_equal; peq
  | |- (_, _) = (_, _) => f_equal; peq
  | |- _ => idtac
  end.
