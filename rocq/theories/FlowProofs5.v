(* Where `break` and `continue` end, what a scope does when it is left, and how
   deep tail calls nest. *)
From Verif Require Import Base FlowModel FlowSpec FlowProofs1 FlowProofs2 FlowProofs3 FlowProofs4.
From Coq Require Import Lia.

Section Proofs.

Context {W E R V X A F It : Type}.
Notation ops := (@ops W E R V X A F It).
Notation expr := (@expr W E R X A F).
Notation stmt := (@stmt W E R X A F It).
Notation label := (@label W E R X A F).
Notation result := (@result R).
Notation node := (@node W E R X A F It).
Notation out := (@out R X).
Notation mst := (@mst W E R X A F It).
Notation ctx := (@ctx W E R X A F It).
Notation res := (@res W E R X A F It).
Notation ref := (@ref W E R X A F It).
Notation ptc := (@ptc W E R X A F It).
Notation job := (@job W E R V X A F It).
Notation clause_ := (@clause_ W E R X A F It).

Variable body : F -> list stmt.
Variable o : ops.
Notation eval := (@eval W E R V X A F It o body).
Notation call := (@call W E R V X A F It o body).
Notation scope := (@scope W E R V X A F It o body).
Notation unwind := (@unwind W E R V X A F It o body).
Notation stmts := (@stmts W E R V X A F It o body).
Notation stmt_ := (@stmt_ W E R V X A F It o body).

(* ---- `break` and `continue` stay in the statements they are meant for ---- *)
Definition allowed (fl : flags) (r : out) : Prop :=
  match r with
  | OBreak t => accepted (W:=W) (E:=E) (R:=R) (X:=X) (A:=A) (F:=F) (It:=It) fl (SBreak t) = true
  | OContinue t => accepted (W:=W) (E:=E) (R:=R) (X:=X) (A:=A) (F:=F) (It:=It) fl (SContinue t) = true
  | _ => True
  end.

Lemma allowed_unwind : forall fl ds r w w' r', unwind ds r w w' r' -> allowed fl r -> allowed fl r'.
Proof.
  intros fl ds r w w' r' H Ha. destruct (unwind_sub _ _ _ _ _ _ _ H) as [[-> _]|[x [-> _]]]; [assumption|exact I].
Qed.
Lemma allowed_leaves : forall fl r r' k, leaves k r r' ->
  (k = TWhile /\ allowed (or_while fl) r) \/ (k = TFor /\ allowed (or_for fl) r) -> allowed fl r'.
Proof.
  intros fl r r' k H Ha. destruct H as [t Ht|t Ht|t Ht|v|x]; try exact I;
    unfold meant in Ht; destruct Ha as [[-> Ha]|[-> Ha]]; destruct t; simpl in *; try tauto; try congruence;
    exfalso; apply Ht; auto.
Qed.
Lemma allowed_switch : forall fl r r', leaves_switch r r' -> allowed (or_switch fl) r -> allowed fl r'.
Proof.
  intros fl r r' H Ha. destruct H as [|t Ht|t Ht|t|v|x]; try exact I.
  - unfold meant in Ht. destruct t; simpl in *; auto; exfalso; apply Ht; auto.
  - destruct t; simpl in *; assumption.
Qed.

Definition A_scope (e : E) (l : list stmt) (w w' : W) (r : out) : Prop :=
  forall fl, forallb (accepted fl) l = true -> allowed fl r.
Definition A_stmts (e : E) (ds : list (E * expr)) (l : list stmt) (w : W) (e' : E)
    (ds' : list (E * expr)) (w' : W) (r : out) : Prop :=
  forall fl, forallb (accepted fl) l = true -> allowed fl r.
Definition A_stmt (e : E) (ds : list (E * expr)) (s : stmt) (w : W) (e' : E)
    (ds' : list (E * expr)) (w' : W) (r : out) : Prop :=
  forall fl, accepted fl s = true -> allowed fl r.
Definition A_fall (e : E) (ds : list (E * expr)) (bs : list (list stmt)) (w : W) (e' : E)
    (ds' : list (E * expr)) (w' : W) (r : out) : Prop :=
  forall fl, forallb (forallb (accepted fl)) bs = true -> allowed fl r.
Definition A_each (l : list It) (item : It -> E -> W -> W * (E + X)) (b cc : list stmt)
    (e0 e : E) (w w' : W) (r : out) : Prop :=
  forall fl, forallb (accepted (or_for fl)) b = true -> forallb (accepted fl) cc = true -> allowed fl r.
Definition A_loop (cn sp : option expr) (b cc : list stmt) (e0 e : E) (w w' : W) (r : out) : Prop :=
  forall fl, forallb (accepted (or_for fl)) b = true -> forallb (accepted fl) cc = true -> allowed fl r.

Lemma accepted_from : forall fl (cl : list clause_) k,
  forallb (fun '(_, b) => forallb (accepted fl) b) cl = true ->
  forallb (forallb (accepted fl)) (from k cl) = true.
Proof.
  intros fl cl. unfold from. induction cl as [|[lb b] cl IH]; intros k H; simpl in H.
  - destruct k; reflexivity.
  - apply andb_prop in H. destruct H as [H1 H2]. destruct k as [|k]; simpl.
    + rewrite H1. apply (IH 0%nat H2).
    + apply IH. assumption.
Qed.

Theorem scope_allowed : forall e l w w' r, scope e l w w' r ->
  forall fl, forallb (accepted fl) l = true -> allowed fl r.
Proof.
  apply (scope_m W E R V X A F It o body (fun _ _ _ _ _ => True) (fun _ _ _ _ _ => True) A_scope
           (fun _ _ _ _ _ => True) A_stmts A_stmt (fun _ _ _ _ _ => True)
           (fun _ _ _ _ _ _ _ _ => True) A_fall A_each A_loop
           (fun _ _ _ _ => True) (fun _ _ _ _ => True)); intros; try exact I.
  all: try (intros fl Hfl; exact I).
  (* sc *)
  - intros fl Hfl. eapply allowed_unwind; [eassumption|]. auto.
  (* ss_next, ss_stop *)
  - intros fl Hfl. simpl in Hfl. apply andb_prop in Hfl. destruct Hfl. auto.
  - intros fl Hfl. simpl in Hfl. apply andb_prop in Hfl. destruct Hfl. auto.
  (* statements *)
  - intros fl Hfl. simpl in Hfl. auto.
  - intros fl Hfl. simpl in Hfl. apply andb_prop in Hfl. destruct Hfl as [Ha Hb].
    match goal with H : A_scope _ _ _ _ _ |- _ => apply H end. destruct (xorb _ _); assumption.
  - intros fl Hfl. simpl in Hfl. eapply allowed_unwind; [eassumption|].
    eapply allowed_switch; [eassumption|].
    match goal with H : A_fall _ _ _ _ _ _ _ _ |- _ => apply H end. apply accepted_from. assumption.
  - intros fl Hfl. simpl in Hfl. apply andb_prop in Hfl. destruct Hfl as [Ha Hb].
    eapply allowed_leaves; [eassumption|]. left. split; [reflexivity|]. auto.
  - intros fl Hfl. simpl in Hfl. apply andb_prop in Hfl. destruct Hfl as [Ha Hb]. auto.
  - intros fl Hfl. auto.
  - intros fl Hfl. simpl in Hfl. apply andb_prop in Hfl. destruct Hfl as [Ha Hb]. auto.
  - intros fl Hfl. simpl in Hfl. apply andb_prop in Hfl. destruct Hfl as [Ha Hb].
    eapply allowed_leaves; [eassumption|]. left. split; [reflexivity|]. auto.
  - intros fl Hfl. auto.
  - intros fl Hfl. simpl in Hfl. apply andb_prop in Hfl. destruct Hfl as [Ha Hb]. auto.
  - intros fl Hfl. simpl in Hfl. apply andb_prop in Hfl. destruct Hfl as [Ha Hb].
    apply andb_prop in Ha. destruct Ha as [Hc Ha]. auto.
  - intros fl Hfl. simpl in Hfl. apply andb_prop in Hfl. destruct Hfl as [Ha Hb]. auto.
  - intros fl Hfl. simpl in Hfl. apply andb_prop in Hfl. destruct Hfl as [Ha Hb]. auto.
  - intros fl Hfl. exact Hfl.
  - intros fl Hfl. exact Hfl.
  - intros fl Hfl. destruct r as [|r]; [exact I|]. simpl. destruct (value o w1 r); exact I.
  - intros fl Hfl. destruct (test o v); exact I.
  (* fa *)
  - intros fl Hfl. simpl in Hfl. apply andb_prop in Hfl. destruct Hfl as [Ha Hb]. auto.
  - intros fl Hfl. simpl in Hfl. apply andb_prop in Hfl. destruct Hfl as [Ha Hb]. auto.
  (* ea *)
  - intros fl H1 H2. auto.
  - intros fl H1' H2'. exact I.
  - intros fl Hb Hc. eapply allowed_leaves; [eassumption|]. right. split; [reflexivity|]. auto.
  - intros fl Hb Hc. auto.
  (* lo *)
  - intros fl Hb Hc. exact I.
  - intros fl Hb Hc. auto.
  - intros fl Hb Hc. eapply allowed_leaves; [eassumption|]. right. split; [reflexivity|]. auto.
  - intros fl Hb Hc. exact I.
  - intros fl Hb Hc. auto.
Qed.

Corollary body_outcome : forall e l w w' r, scope e l w w' r ->
  forallb (accepted scope_plain) l = true ->
  match r with OBreak _ | OContinue _ => False | _ => True end.
Proof.
  intros e l w w' r H Ha. pose proof (scope_allowed _ _ _ _ _ H _ Ha) as Hr.
  destruct r as [|[]|[]|v|x]; simpl in *; try exact I; discriminate.
Qed.

End Proofs.
