From Verif Require Import Base FlowModel FlowSpec.

Section Proofs.

Context {W E R V X A F It : Type}.
Notation ops := (@ops W E R V X A F It).
Notation expr := (@expr W E R X A F).
Notation stmt := (@stmt W E R X A F It).
Notation label := (@label W E R X A F).
Notation result := (@result R).
Notation node := (@node W E R X A F It).
Notation out := (@out R X).

(* ---- induction over statements ---- *)
Section StmtInd.
  Variable P : stmt -> Prop.
  Hypothesis H1 : forall e, P (SExpr e).
  Hypothesis H2 : forall l, Forall P l -> P (SBlock l).
  Hypothesis H3 : forall d i, P (SDecl d i).
  Hypothesis H4 : forall neg e t f, Forall P t -> Forall P f -> P (SIf neg e t f).
  Hypothesis H5 : forall e cl, Forall (fun c => Forall P (snd c)) cl -> P (SSwitch e cl).
  Hypothesis H6 : forall b neg e c, Forall P b -> Forall P c -> P (SDoWhile b neg e c).
  Hypothesis H7 : forall neg e b c, Forall P b -> Forall P c -> P (SWhile neg e b c).
  Hypothesis H8 : forall nm e st it b c, Forall P b -> Forall P c -> P (SForEach nm e st it b c).
  Hypothesis H9 : forall i cn sp b c,
      Forall P i -> Forall P b -> Forall P c -> P (SFor i cn sp b c).
  Hypothesis H10 : forall t k c, Forall P t -> Forall P c -> P (STry t k c).
  Hypothesis H11 : forall t, P (SBreak t).
  Hypothesis H12 : forall t, P (SContinue t).
  Hypothesis H13 : forall e, P (SThrow e).
  Hypothesis H14 : forall b e, P (SReturn b e).
  Hypothesis H15 : forall e x, P (SAssert e x).
  Hypothesis H16 : forall e, P (SDefer e).

  Fixpoint stmt_ind2 (s : stmt) : P s :=
    let all := fix all (l : list stmt) : Forall P l :=
      match l with
      | [] => Forall_nil P
      | x :: r => Forall_cons x (stmt_ind2 x) (all r)
      end in
    match s with
    | SExpr e => H1 e
    | SBlock l => H2 l (all l)
    | SDecl d i => H3 d i
    | SIf neg e t f => H4 neg e t f (all t) (all f)
    | SSwitch e cl =>
        H5 e cl ((fix each (c : list (label * (E -> E) * list stmt)) : Forall (fun c => Forall P (snd c)) c :=
                    match c with
                    | [] => Forall_nil _
                    | x :: r => Forall_cons x (all (snd x)) (each r)
                    end) cl)
    | SDoWhile b neg e c => H6 b neg e c (all b) (all c)
    | SWhile neg e b c => H7 neg e b c (all b) (all c)
    | SForEach nm e st it b c => H8 nm e st it b c (all b) (all c)
    | SFor i cn sp b c => H9 i cn sp b c (all i) (all b) (all c)
    | STry t k c => H10 t k c (all t) (all c)
    | SBreak t => H11 t
    | SContinue t => H12 t
    | SThrow e => H13 e
    | SReturn b e => H14 b e
    | SAssert e x => H15 e x
    | SDefer e => H16 e
    end.
End StmtInd.

(* ---- generated code ---- *)
Variable ptcf : bool.
Notation gen := (@gen W E R X A F It ptcf).

Definition nextq (p : ptc_aware) (r : list stmt) : ptc_aware :=
  match r with
  | [] => p
  | s' :: _ => if is_empty_return s' then ptc_void else ptc_none
  end.

Definition app_ok (s : stmt) : Prop := forall q code,
  gen q code s = if back_terminator code then code else code ++ gen q [] s.

Lemma back_app : forall (a b : list node), b <> [] -> back_terminator (a ++ b) = back_terminator b.
Proof.
  induction a as [|x a IH]; intros b Hb; [reflexivity|].
  simpl. destruct (a ++ b) eqn:Eab; [apply app_eq_nil in Eab; tauto|].
  rewrite <- Eab. apply IH; assumption.
Qed.

Lemma gen_list_app : forall l, Forall app_ok l -> forall p code,
  gen_list gen p code l = if back_terminator code then code else code ++ gen_list gen p [] l.
Proof.
  induction 1 as [|s r Hs Hr IH]; intros p code; simpl.
  - rewrite app_nil_r. destruct (back_terminator code); reflexivity.
  - fold (nextq p r). rewrite (IH _ (gen (nextq p r) [] s)), (IH _ (gen (nextq p r) code s)).
    rewrite (Hs _ code). destruct (back_terminator code) eqn:Hc; [rewrite Hc; reflexivity|].
    destruct (gen (nextq p r) [] s) as [|y l] eqn:Eg.
    + rewrite app_nil_r, Hc. reflexivity.
    + rewrite back_app by discriminate. destruct (back_terminator (y :: l)).
      * reflexivity.
      * rewrite app_assoc. reflexivity.
Qed.

Lemma gen_app : forall s, app_ok s.
Proof.
  apply stmt_ind2; intros; intros q code; cbn [FlowModel.gen];
    destruct (back_terminator code) eqn:Hc; try reflexivity;
    cbn [back_terminator]; rewrite ?app_nil_l; try reflexivity.
  - (* block *)
    destruct (flat (SBlock l)).
    + rewrite gen_list_app by assumption. rewrite Hc. reflexivity.
    + reflexivity.
  - (* declarations *) destruct i as [[? ?]|]; reflexivity.
  - (* return *) destruct e; reflexivity.
Qed.

Definition code (p : ptc_aware) (l : list stmt) : list node := gen_list gen p [] l.
Definition frag (q : ptc_aware) (s : stmt) : list node := gen q [] s.

Lemma code_cons : forall p s r,
  code p (s :: r) = frag (nextq p r) s
    ++ if back_terminator (frag (nextq p r) s) then [] else code p r.
Proof.
  intros p s r. unfold code, frag. simpl. fold (nextq p r).
  rewrite gen_list_app by (apply Forall_forall; intros; apply gen_app).
  destruct (back_terminator (gen (nextq p r) [] s)).
  - rewrite app_nil_r. reflexivity.
  - reflexivity.
Qed.

End Proofs.
