(* C62: the garbage collector sees the references that the code of a function holds. *)
From Coq Require Import Permutation.
From Verif Require Import Base Monad ScopeModel ScopeProofs1 CollectModel CollectSpec CollectProofs.

(* The collector finds every reference that the code of a function holds, each
   as often as it is held, if no `for` inside a function or a deferred
   expression that is still to be created holds one in its body.  For those
   see C62_for_refuted. *)
Theorem C62_references_found_partial : forall c, plain_l false c -> Permutation (rod_l c) (held_l c).
Proof. exact (proj1 (proj2 (proj2 (proj2 rod_held)))). Qed.
Print Assumptions C62_references_found_partial.

(* That is so for what is made of a function whose source has no such `for`. *)
Theorem C62_sources_partial : forall b c, calm_l false b -> made b c -> Permutation (rod_l c) (held_l c).
Proof. exact made_held. Qed.
Print Assumptions C62_sources_partial.

(* Whatever the code is, nothing is found that is not held, nor more often: the
   collector cannot take a variable that is still in use for garbage. *)
Theorem C62_never_too_many : forall c, exists missed, Permutation (rod_l c ++ missed) (held_l c).
Proof. exact (proj1 (proj2 (proj2 (proj2 rod_sub)))). Qed.
Print Assumptions C62_never_too_many.

(* var f = func() { return func() { for(var i = 0;  i;  i) { return x; } }; };
   The function that f is holds the variable x, and the collector does not see
   that. *)
Definition hidden : stmts :=
  Cons (SVar false 1 ENull)
 (Cons (SReturn false (EFun [] (Cons (SReturn false (EFun [] (Cons
    (SFor false 2 (EInt 0) (EName 2) (EName 2) (Cons (SReturn false (EName 1)) Nil) Nil) Nil))) Nil))) Nil).
Theorem C62_for_refuted : exists glob n b w f, run glob n b = (w, ERef (RTemp (VFun (IFun [] f)))) /\
  held_l f = [RVar 0] /\ rod_l f = [].
Proof. exists (fun _ => None), 9%nat, hidden. eexists. eexists. vm_compute. auto. Qed.
Print Assumptions C62_for_refuted.

(* The same with `while` is found, and so is what the body of a `for` holds in a
   function that has been created. *)
Definition seen (b : stmts) : option (list (ref ifun) * list (ref ifun)) :=
  match run (fun _ => None) 9 b with
  | (_, ERef (RTemp (VFun (IFun [] f)))) => Some (held_l f, rod_l f)
  | _ => None
  end.
Example C62_example_while : seen (Cons (SVar false 1 ENull)
 (Cons (SReturn false (EFun [] (Cons (SReturn false (EFun [] (Cons
    (SWhile (EName 1) (Cons (SReturn false (EName 1)) Nil) Nil) Nil))) Nil))) Nil)) = Some ([RVar 0; RVar 0], [RVar 0; RVar 0]).
Proof. vm_compute. reflexivity. Qed.
Example C62_example_for : seen (Cons (SVar false 1 ENull)
 (Cons (SReturn false (EFun [] (Cons
    (SFor false 2 (EInt 0) (EName 2) (EName 2) (Cons (SReturn false (EName 1)) Nil) Nil) Nil))) Nil)) = Some ([RVar 0], [RVar 0]).
Proof. vm_compute. reflexivity. Qed.
