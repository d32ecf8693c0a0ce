(* C61: names mean what lexical scoping says, in closures too. *)
From Verif Require Import Base Monad Text ScopeModel ScopeSpec ScopeProofs1 ScopeProofs2 ScopeProofs3.

(* A compiled program has the outputs and the result that lexical scoping gives
   it, is unfinished after the same number of calls and rounds, and never uses
   a context that does not exist. *)
Theorem C61_names_mean_what_scoping_says : forall glob n b, fair_l b = true ->
  observe (run glob n b) = observe (meaning glob n b) /\ snd (observe (run glob n b)) <> Undefined.
Proof. intros glob n b H. destruct (observe_rel _ _ (run_meaning glob n b H)) as [E N]. auto. Qed.
Print Assumptions C61_names_mean_what_scoping_says.

(* ... and so does any function that the program makes, wherever it is called. *)
Theorem C61_functions : forall glob n f g xs ys w w', rfun f g -> Forall2 rref xs ys -> rworld w w' ->
  observe (invoke glob n g ys w') = observe (apply glob n f xs w).
Proof. intros. symmetry. apply observe_rel. apply invoke_rel; assumption. Qed.
Print Assumptions C61_functions.

Fixpoint seq (l : list stmt) : stmts := match l with [] => Nil | s :: l => Cons s (seq l) end.
Fixpoint vals (l : list expr) : args := match l with [] => ANil | e :: l => ACons false e (vals l) end.
Definition no_globals : name -> option Z := fun _ => None.
Definition show b := observe (run no_globals 50 b).

(* Two counters: each call of `make` has its own variable, which its functions
   share.
     func make(n) { return [ func() { return n = n + 1; }, func() { return n; } ]; }  *)
Example C61_example_counters : show (seq [
    SVar true 1 (EFun [2] (seq [SVar false 3 (EName 2); SReturn false (EFun [] (seq [SReturn false (ESet (EName 3) (EAdd (EName 3) (EInt 1)))]))]));
    SVar true 4 (ECall (EName 1) (vals [EInt 10]));
    SVar true 5 (ECall (EName 1) (vals [EInt 20]));
    SExpr (EOut (ECall (EName 4) ANil));
    SExpr (EOut (ECall (EName 5) ANil));
    SExpr (EOut (ECall (EName 4) ANil))]) = ([Int 11; Int 21; Int 12], Value None).
Proof. vm_compute. reflexivity. Qed.

(* A function has the name that was there when it was created, not a later one;
   a block hides the names outside of it, and they are back afterwards. *)
Example C61_example_shadowing : show (seq [
    SVar false 1 (EInt 1);
    SVar true 2 (EFun [] (seq [SReturn false (EName 1)]));
    SVar false 1 (EInt 2);
    SBlock (seq [SVar false 1 (EInt 3); SExpr (EOut (EName 1)); SExpr (EOut (ECall (EName 2) ANil))]);
    SExpr (EOut (EName 1))]) = ([Int 3; Int 1; Int 2], Value None).
Proof. vm_compute. reflexivity. Qed.

(* `switch` jumps over the declaration of 2; using it, even in a function that
   is not called, is an error. *)
Example C61_example_bypassed : show (seq [
    STry (seq [SSwitch (EInt 1) (KCase (EInt 0) (seq [SVar false 2 (EInt 5)])
                                (KCase (EInt 1) (seq [SExpr (EOut (EInt 1)); SExpr (EOut (EName 2))]) KNil))])
         3 (seq [SExpr (EOut (EName 3))]);
    STry (seq [SSwitch (EInt 1) (KCase (EInt 0) (seq [SVar false 2 (EInt 5)])
                                (KCase (EInt 1) (seq [SVar true 4 (EFun [] (seq [SReturn false (EName 2)])); SExpr (EOut (EInt 7))]) KNil))])
         3 (seq [SExpr (EOut (EName 3))])]) =
  ([Int 1; Str (str "bypassed"); Str (str "bypassed")], Value None).
Proof. vm_compute. reflexivity. Qed.

(* Deferred expressions run at the end of their scope, the last first, with the
   names of where they were deferred. *)
Example C61_example_defer : show (seq [
    SVar false 1 (EInt 1);
    SBlock (seq [SDefer (EOut (EName 1)); SVar false 1 (EInt 2); SDefer (EOut (EName 1)); SExpr (ESet (EName 1) (EInt 3))]);
    SExpr (EOut (EName 1))]) = ([Int 3; Int 1; Int 1], Value None).
Proof. vm_compute. reflexivity. Qed.

(* The functions made in the rounds of a loop share the variable of the loop, and
   each has its own of the variables in the body. *)
Example C61_example_loop : show (seq [
    SVar false 1 ENull; SVar false 2 ENull;
    SEach 3 4 (EList (vals [EInt 7; EInt 8]))
      (seq [SVar false 5 (EAdd (EName 4) (EInt 100));
            SIf (EName 3) (seq [SExpr (ESet (EName 2) (EFun [] (seq [SReturn false (EList (vals [EName 3; EName 4; EName 5]))])))])
                          (seq [SExpr (ESet (EName 1) (EFun [] (seq [SReturn false (EList (vals [EName 3; EName 4; EName 5]))])))])])
      Nil;
    SExpr (EOut (ECall (EName 1) ANil)); SExpr (EOut (ECall (EName 2) ANil))]) =
  ([Arr [Int 1; Int 7; Int 107]; Arr [Int 1; Int 8; Int 108]], Value None).
Proof. vm_compute. reflexivity. Qed.

(* `for each(x, x -> a)` overwrites the variable that it goes through, makes it
   immutable, and then fails. *)
Definition same_names_each : stmts := seq [
  SVar false 1 (EList (vals [EInt 7; EInt 8]));
  STry (seq [SEach 2 2 (EName 1) (seq [SExpr (EOut (EName 2))]) Nil]) 3 Nil;
  SExpr (EOut (EName 1));
  SExpr (ESet (EName 1) (EInt 5))].
Theorem C61_same_names_in_for_each_refuted :
  exists glob n b, fair_l b = false /\
    observe (meaning glob n b) = ([Int 7; Int 8; Arr [Int 7; Int 8]], Value None) /\
    observe (run glob n b) = ([Int 0], Exception (Str (str "assignment"))).
Proof. exists no_globals, 50%nat, same_names_each. vm_compute. auto. Qed.
Print Assumptions C61_same_names_in_for_each_refuted.
