(* C64: the parser of statements accepts exactly the grammar. *)
From Verif Require Import Base Text ExprModel ExprSpec ExprProofs ExprFullProofs ExprSoundProofs
  StmtModel StmtSpec StmtProofs1 StmtProofs2 StmtProofs3 StmtProofs4 StmtProofs5.

Lemma reload_sound ts l r : reload ts = Acc l r -> r = [] /\ Gscript l ts.
Proof.
  unfold reload. intros H.
  destruct (statements _ _ _ _) as [b [|t q]| | |] eqn:E; try discriminate. inversion H. subst.
  split; [reflexivity|]. change scope_plain with (flags []) in E.
  apply statements_inv in E as (pre & -> & G).
  - rewrite app_nil_r. exists b. auto.
  - intros a N. apply stmt_at_sound. assumption.
  - intros [].
Qed.
Lemma reload_complete ts l : Gscript l ts -> reload ts = Acc l [].
Proof.
  intros (b & G & ->). unfold reload. change scope_plain with (flags []).
  apply grammar_ok in G. rewrite <- (app_nil_r ts) at 3. rewrite G; [reflexivity | intros [] | lia | lia |].
  left. reflexivity.
Qed.
Lemma reload_exact ts l : reload ts = Acc l [] <-> Gscript l ts.
Proof. split; [apply reload_sound | apply reload_complete]. Qed.
Lemma reload_refuses ts : reload ts = Err <-> ~ exists l, Gscript l ts.
Proof.
  split.
  - intros H (l & G). apply reload_complete in G. congruence.
  - intros H. pose proof (reload_total ts) as T. destruct (reload ts) as [l r| | |] eqn:E; try congruence.
    + exfalso. apply H. exists l. apply reload_sound in E. tauto.
    + unfold reload in E. destruct (statements _ _ _ _) as [? [|]| | |]; discriminate.
Qed.
Lemma script_unique ts l l' : Gscript l ts -> Gscript l' ts -> l = l'.
Proof. intros A B. apply reload_complete in A, B. congruence. Qed.
Lemma oneline_exact ts l : reload_oneline ts = Acc l [] <-> exists e, Gexp 11 e ts /\ l = [SReturn true (units e)].
Proof.
  unfold reload_oneline. split.
  - destruct (parse ts) as [us [|]| | |] eqn:E; try discriminate. intros H. inversion H.
    apply parse_inv in E as (pre & -> & e & G & ->). rewrite app_nil_r. eauto.
  - intros (e & G & ->). rewrite (complete_nil _ _ G). reflexivity.
Qed.

(* ---- jumps ---- *)
Definition jumps_all (a : list target) (l : list stmt) : Prop := Forall (jumps_ok a) l.
Lemma all_Forall a l :
  (fix all (l : list stmt) : Prop := match l with [] => True | s :: l => jumps_ok a s /\ all l end) l
  <-> jumps_all a l.
Proof.
  induction l as [|s l IH]; split; intros H; [constructor | exact I | |].
  - destruct H as (A & B). constructor; [assumption | apply IH; assumption].
  - inversion H; subst. split; [assumption | apply IH; assumption].
Qed.
Lemma definition_jumps a s ts : Gdefinition s ts -> jumps_ok a s.
Proof. intros []; exact I. Qed.
Lemma first_jumps a s ts : Gfirst s ts -> jumps_ok a s.
Proof. intros [s' ts' G | | e ts' G]; [eapply definition_jumps; eassumption | exact I | exact I]. Qed.
Lemma grammar_jumps :
  (forall d a o s ts, Gst d a o s ts -> jumps_ok a s) /\
  (forall a o b ts, Gbl a o b ts -> jumps_all a b) /\
  (forall a o b ts o', Gcomplete a o b ts o' -> jumps_all a b) /\
  (forall a l ts, Gsts a l ts -> jumps_all a l) /\
  (forall a l ts, Gclauses a l ts -> Forall (fun c => jumps_all (ToSwitch :: a) (snd c)) l).
Proof.
  apply grammar_ind; intros; cbn [jumps_ok]; rewrite ?all_Forall;
    repeat match goal with |- _ /\ _ => split end; rewrite ?all_Forall; auto; try (constructor; assumption).
  - eapply definition_jumps; eassumption.
  - apply Forall_app. split; [assumption|]. repeat constructor.
  - match goal with F : Forall _ ?l |- _ => clear - F; induction F as [|[k b] l A F IH]; [exact I|] end.
    split; [apply all_Forall; assumption | assumption].
  - eapply first_jumps; eassumption.
  - destruct s; try (constructor; [assumption | constructor]). cbn [jumps_ok] in *. apply all_Forall. assumption.
Qed.
Lemma reload_jumps ts l r : reload ts = Acc l r -> Forall (jumps_ok []) l.
Proof.
  intros H. apply reload_sound in H as (_ & b & G & ->). apply Forall_app. split.
  - apply grammar_jumps in G. assumption.
  - repeat constructor.
Qed.
