(* Programs for the examples and the counterexamples in FlowProps.v.

   The world is a log, the latest entry first.  A reference is a temporary
   (inl) or a variable (inr); functions are numbers and get one number. *)
From Verif Require Import Base FlowModel FlowSpec.
From Coq Require Import Arith.
Local Open Scope nat_scope.

Definition eW := list nat.
Definition eR := (nat + nat)%type.
Definition estmt := @stmt eW nat eR nat nat nat nat.
Definition eexpr := @expr eW nat eR nat nat nat.
Definition emst := @mst eW nat eR nat nat nat nat.

Definition e_cmp (a b : nat) : cmp :=
  match Nat.compare a b with Lt => cmp_less | Eq => cmp_equal | Gt => cmp_greater end.
Definition e_ops : @ops eW nat eR nat nat nat nat nat := {|
  value := fun _ r => match r with inl v => inl v | inr v => inl v end;
  temp := fun v => inl v;
  test := fun v => negb (Nat.eqb v 0);
  compare := e_cmp;
  throwing := fun v => v;
  range := fun v => inl (Some (List.seq 0 v));
  binds := fun _ a w => (w, inl a);
  void_used := 90%nat;
  stray := 91%nat |}.

Definition lit (k : nat) : eexpr := EStep (fun _ w => (w, inl (inl k))).
Definition arg : eexpr := EStep (fun e w => (w, inl (inl e))).
Definition note (k : nat) : eexpr := EStep (fun _ w => (k :: w, inl (inl k))).
Definition var (k : nat) : eexpr := EStep (fun _ w => (w, inl (inr k))).
Definition fail (k : nat) : eexpr := EStep (fun _ w => (k :: w, inr k)).
Definition fcall (f : nat) (a : nat -> nat) : eexpr := ECall (fun e w => (w, inl (f, a e))).
Definition set_arg (g : nat -> nat) : estmt := SDecl (fun e w => (w, g e)) None.

Definition e_ctx : @ctx eW nat eR nat nat nat nat := mk_ctx 0%nat [].
Definition e_start : emst := mk_mst [] st_next [] 0 0.
Definition result_of (z : @res eW nat eR nat nat nat nat) : option (list nat * list (option eR) * nat) :=
  match z with
  | Go _ m => Some (rev (world m),
                    map (fun r => match r with RVal r => Some r | _ => None end) (stk m), peak m)
  | _ => None
  end.

(* func f() { defer A(); { defer B(); return g(); } } *)
Definition p_order (f : nat) : list estmt :=
  match f with
  | O => [SDefer (note 1); SBlock [SDefer (note 2); SReturn false (Some (fcall 1 (fun x => x)))]]
  | _ => [SReturn false (Some (note 3))]
  end.
(* func f() { g(); return; }  func g() { return h(); }  func h() { return 5; } *)
Definition p_void (f : nat) : list estmt :=
  match f with
  | O => [SExpr (fcall 1 (fun x => x)); SReturn true None]
  | S O => [SReturn false (Some (fcall 2 (fun x => x)))]
  | _ => [SReturn false (Some (lit 5))]
  end.
(* func f() { return g(); }  func g() { return ref h(); }  func h() { return ref x; } *)
Definition p_ref (f : nat) : list estmt :=
  match f with
  | O => [SReturn false (Some (fcall 1 (fun x => x)))]
  | S O => [SReturn true (Some (fcall 2 (fun x => x)))]
  | _ => [SReturn true (Some (var 7))]
  end.
(* func f(n) { defer A(); if(n) return f(n - 1); else return 8; } *)
Definition p_chain (_ : nat) : list estmt :=
  [SDefer (note 1);
   SIf false arg [SReturn false (Some (fcall 0 pred))] [SReturn false (Some (lit 8))]].

(* for(each k in 3) {
     defer note(10);
     switch(n) {
       case 1:  note(1);
       default: note(2); while(1) { defer note(20); break switch; } note(3);
       case 4:  note(4); continue for;
     }
     note(5);
   }
   note(6); *)
Definition p_switch (_ : nat) : list estmt :=
  [SForEach (fun e => e) (lit 3) (fun _ e => e) (fun _ e w => (w, inl e))
     [SDefer (note 10);
      SSwitch arg
        [(LCase (lit 1), fun e => e, [SExpr (note 1)]);
         (LDefault, fun e => e,
            [SExpr (note 2); SWhile false (lit 1) [SDefer (note 20); SBreak TSwitch] []; SExpr (note 3)]);
         (LCase (lit 4), fun e => e, [SExpr (note 4); SContinue TFor])];
      SExpr (note 5)] [];
   SExpr (note 6)].

(* try { defer fail(1); { defer fail(2); defer note(3); throw 9; } } catch(x) note(x + 50); *)
Definition p_throw (_ : nat) : list estmt :=
  [STry [SDefer (fail 1); SBlock [SDefer (fail 2); SDefer (note 3); SThrow (lit 9)]]
        (fun x _ w => (w, x)) [SExpr (EStep (fun e w => ((e + 50)%nat :: w, inl (inl e))))]].
