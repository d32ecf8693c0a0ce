(* C64: whatever is accepted is a statement of the grammar. *)
From Verif Require Import Base Text ExprModel ExprSpec ExprProofs ExprFullProofs ExprSoundProofs
  StmtModel StmtSpec StmtProofs1.

Definition st_sound (f : list token -> res stmt) (d : bool) (a : list target) : Prop :=
  forall ts s t, f ts = Acc s t ->
    exists o pre, ts = pre ++ t /\ Gst d a o s pre /\ ~ begins_with o t.
Definition bl_sound (f : list token -> res (list stmt)) (a : list target) : Prop :=
  forall ts b t, f ts = Acc b t ->
    exists o pre, ts = pre ++ t /\ Gbl a o b pre /\ ~ begins_with o t.

Lemma not_begins_nil ts : ~ begins_with [] ts.
Proof. intros (t & r & _ & []). Qed.
Lemma not_begins_cons x o ts : ~ begins_with [x] ts -> ~ begins_with o ts -> ~ begins_with (x :: o) ts.
Proof.
  intros A B (t & r & E & [I | I]).
  - apply A. exists t, r. split; [assumption | left; assumption].
  - apply B. exists t, r. auto.
Qed.
Lemma kw_rej_begins s ts : kw s ts = Rej -> ~ begins_with [TKw s] ts.
Proof.
  intros H (t & r & -> & [E | []]). subst. apply kw_rej in H. congruence.
Qed.
Lemma not_begins_in x r o : ~ begins_with o (x :: r) -> ~ In x o.
Proof. intros H I. apply H. exists x, r. auto. Qed.

Section Sound.
Variable st : Z -> list token -> res stmt.
Variable bl : Z -> list token -> res (list stmt).
Hypothesis st_ok : forall a, plain_targets a -> st_sound (st (flags a)) true a.
Hypothesis bl_ok : forall a, plain_targets a -> bl_sound (bl (flags a)) a.

Lemma statements_inv n : forall a ts l t, plain_targets a -> statements st n (flags a) ts = Acc l t ->
  exists pre, ts = pre ++ t /\ Gsts a l pre.
Proof.
  induction n as [|n IH]; intros a ts l t N H; [discriminate|]. cbn [statements] in H.
  destruct (st (flags a) ts) as [s r| | |] eqn:E; try discriminate; inv.
  - apply (st_ok _ N) in E as (o & pre & -> & G & _).
    match goal with Q : statements _ _ _ _ = _ |- _ => apply (IH _ _ _ _ N) in Q as (pre' & -> & G') end.
    exists (pre ++ pre'). split; [same|]. econstructor; eassumption.
  - exists []. split; [reflexivity | constructor].
Qed.

Lemma statements_no_rej n sc : forall ts, statements st n sc ts <> Rej.
Proof.
  induction n as [|n IH]; intros ts; [discriminate|]. cbn [statements].
  destruct (st sc ts) as [s r| | |]; try discriminate.
  specialize (IH r). destruct (statements st n sc r); cbn [bind]; congruence.
Qed.
(* how the parts of a statement are found *)
Ltac body N p o G B :=
  match goal with
  | H : bl _ _ = Acc _ _ |- _ =>
      let E := fresh "E" in apply (bl_ok _ N) in H; destruct H as (o & p & E & G & B); subst
  end.
Ltac simple_end := split; [same | split; [econstructor; eassumption | apply not_begins_nil]].

Section One.
Variable a : list target.
Hypothesis N : plain_targets a.
Variable n : nat.

Lemma function_sound : st_sound (function_definition st n) true a.
Proof.
  intros ts s t H. unfold function_definition in H.
  destruct ts as [|x ts]; [inv; discriminate|]. destruct x; try discriminate; inv; try discriminate.
  match goal with Q : TKw _ :: _ = TKw _ :: _ |- _ => inversion Q; subst; clear Q end.
  match goal with Q : parameters _ _ _ = _ |- _ => apply params_inv in Q as (tp & -> & Gp) end.
  inv.
  match goal with Q : statements _ _ _ _ = _ |- _ =>
    apply (statements_inv _ []) in Q as (tb & -> & Gb); [|intros []] end.
  inv. exists []. eexists (_ :: _ :: _ :: tp ++ _ :: _ :: tb ++ [_]).
  split; [same|]. split; [constructor; eassumption | apply not_begins_nil].
Qed.
Lemma defer_sound : st_sound defer_statement true a.
Proof.
  intros ts s t H. unfold defer_statement in H. inv.
  exists []. eexists (_ :: te ++ [_]). simple_end.
Qed.
Lemma null_sound : st_sound null_statement true a.
Proof. intros ts s t H. unfold null_statement in H. inv. exists []. eexists [_]. simple_end. Qed.
Lemma definition_sound f :
  (forall ts s t, f ts = Acc s t -> exists pre, ts = pre ++ t /\ Gdefinition s pre) -> st_sound f true a.
Proof.
  intros D ts s t H. apply D in H as (pre & -> & G). exists [], pre. simple_end.
Qed.

Variable d : bool.
Lemma if_sound : st_sound (if_statement bl (flags a)) d a.
Proof.
  intros ts s t H. unfold if_statement in H. inv. rd negation_inv tn Gn. inv. rd condition_inv tc Gc. inv.
  body N tb o Gb B.
  match goal with Q : default _ _ _ = _ |- _ => apply default_inv in Q as [Q | (R & -> & ->)] end; inv.
  - body N tb' o' Gb' B'. exists o'. eexists (_ :: tn ++ _ :: tc ++ _ :: tb ++ _ :: tb').
    split; [same|]. split; [|assumption].
    eapply G_if_else; try eassumption. eapply not_begins_in. exact B.
  - exists (K "else" :: o). eexists (_ :: tn ++ _ :: tc ++ _ :: tb).
    split; [same|]. split; [constructor; assumption|]. apply not_begins_cons; [|assumption].
    apply kw_rej_begins. match goal with R : bind ?k _ = Rej |- _ => destruct k eqn:Q; cbn [bind] in R end;
      try discriminate; [|reflexivity].
    destruct (bl (flags a) rest); discriminate.
Qed.
Lemma one_of_kw_inv {A} (l : list (bytes * A)) ts x t : one_of kw l ts = Acc x t ->
  exists s, In (s, x) l /\ ts = TKw s :: t.
Proof.
  induction l as [|(s, y) l IH]; cbn [one_of]; intros H; [discriminate|].
  apply or_else_inv in H as [H | (_ & H)].
  - inv. exists s. split; [left|]; reflexivity.
  - destruct (IH H) as (s' & I & E). exists s'. split; [right|]; assumption.
Qed.
Lemma one_of_pu_inv {A} (l : list (bytes * A)) ts x t : one_of pu l ts = Acc x t ->
  exists s, In (s, x) l /\ ts = TPunct s :: t.
Proof.
  induction l as [|(s, y) l IH]; cbn [one_of]; intros H; [discriminate|].
  apply or_else_inv in H as [H | (_ & H)].
  - inv. exists s. split; [left|]; reflexivity.
  - destruct (IH H) as (s' & I & E). exists s'. split; [right|]; assumption.
Qed.
Ltac which H :=
  let s := fresh "s" in let I := fresh "I" in let E := fresh "E" in
  destruct H as (s & I & E); cbn [In] in I;
  repeat (destruct I as [I | I]; [inversion I; subst; clear I|]); [.. | contradiction].

Lemma clauses_inv m : forall hd ts l t, clauses st m (flags a) hd ts = Acc l t ->
  exists pre, ts = pre ++ t /\ Gclauses a l pre /\
    (length (filter is_default (map fst l)) <= if hd then 0 else 1)%nat.
Proof.
  induction m as [|m IH]; intros hd ts l t H; [discriminate|]. cbn [clauses] in H.
  destruct (one_of kw _ ts) as [k r| | |] eqn:E; try (inv; exists []; repeat split; [constructor | cbn; lia]).
  destruct (is_default k && hd) eqn:D; [discriminate|]. inv.
  apply one_of_kw_inv in E.
  assert (L : exists tk, ts = tk ++ P ":" :: t1 /\ Glabel a0 tk /\ is_default a0 = is_default k).
  { which E; cbn [one_label] in H0; inv.
    - exists [K "default"]. repeat split. constructor.
    - eexists (_ :: te). split; [same | split; [constructor; assumption | reflexivity]].
    - repeat match goal with Q : one_of pu _ _ = _ |- _ => apply one_of_pu_inv in Q; which Q end; subst;
      match goal with |- exists tk, _ :: TPunct _ :: ?x ++ _ :: ?y ++ TPunct _ :: _ = _ /\ Glabel (LEach ?lc ?uc _ _) _ /\ _ =>
        exists (K "each" :: (if lc then P "[" else P "(") :: x ++ P "," :: y ++ [if uc then P "]" else P ")"]) end;
      (split; [same | split; [constructor; assumption | reflexivity]]). }
  clear E H0. destruct L as (tk & -> & G & L).
  match goal with Q : statements _ _ _ _ = _ |- _ =>
    apply (statements_inv _ (ToSwitch :: a)) in Q as (tb & -> & Gb);
      [|apply plain_cons; [assumption | discriminate]] end.
  match goal with Q : clauses _ _ _ _ _ = _ |- _ => apply IH in Q as (tl & -> & Gl & C) end.
  exists (tk ++ P ":" :: tb ++ tl). split; [same|]. split; [constructor; assumption|].
  cbn [map fst filter]. rewrite L in *. destruct (is_default k), hd; cbn in *; try discriminate; lia.
Qed.
Lemma switch_sound : st_sound (switch_statement st n (flags a)) d a.
Proof.
  intros ts s t H. unfold switch_statement in H. inv. rd condition_inv tc Gc. inv.
  match goal with Q : clauses _ _ _ _ _ = _ |- _ => apply clauses_inv in Q as (tl & -> & Gl & C) end. inv.
  exists []. eexists (_ :: _ :: tc ++ _ :: _ :: tl ++ [_]). simple_end.
Qed.
Lemma rej_complete ts : if_complete bl (flags a) ts = Rej -> ~ begins_with [K "__ifcomplete"] ts.
Proof.
  intros H. apply kw_rej_begins. unfold if_complete in H.
  match goal with R : bind ?k _ = Rej |- _ => destruct k eqn:Q; cbn [bind] in R end;
    try discriminate; [|reflexivity].
  destruct (bl (flags a) rest); discriminate.
Qed.
Lemma complete_inv ts o b t : ~ begins_with o ts -> default [] ts (if_complete bl (flags a) ts) = Acc b t ->
  exists pre o', ts = pre ++ t /\ Gcomplete a o b pre o' /\ ~ begins_with o' t.
Proof.
  intros B H. apply default_inv in H as [H | (H & -> & ->)].
  - unfold if_complete in H. inv. body N tb o' Gb B'. eexists (_ :: tb), o'. split; [reflexivity|].
    split; [|assumption]. constructor; [|assumption]. eapply not_begins_in. exact B.
  - exists [], (K "__ifcomplete" :: o). split; [reflexivity|]. split; [constructor|].
    apply not_begins_cons; [|assumption]. apply rej_complete. assumption.
Qed.
Ltac finish :=
  match goal with Q : default [] _ (if_complete _ _ _) = _, B : ~ begins_with _ _ |- _ =>
    apply (complete_inv _ _ _ _ B) in Q; destruct Q as (tb' & o' & ? & Gb' & B'); subst end.
Lemma N_while : plain_targets (ToWhile :: a). Proof. apply plain_cons; [assumption | discriminate]. Qed.
Lemma N_for : plain_targets (ToFor :: a). Proof. apply plain_cons; [assumption | discriminate]. Qed.
Lemma do_sound : st_sound (do_statement bl (flags a)) d a.
Proof.
  intros ts s t H. unfold do_statement in H. inv. body N_while tb o Gb B. inv. rd negation_inv tn Gn.
  inv. rd condition_inv tc Gc. inv.
  match goal with Q : or_else _ _ = _ |- _ => apply or_else_inv in Q as [Q | (_ & Q)] end.
  - unfold if_complete in *. inv. body N tb' o' Gb' B'. exists o'.
    eexists (_ :: tb ++ _ :: tn ++ _ :: tc ++ _ :: _ :: tb'). split; [same|]. split; [|assumption].
    eapply G_do_complete; eassumption.
  - inv. exists []. eexists (_ :: tb ++ _ :: tn ++ _ :: tc ++ [_; _]). split; [same|].
    split; [eapply G_do; eassumption | apply not_begins_nil].
Qed.
Lemma while_sound : st_sound (while_statement bl (flags a)) d a.
Proof.
  intros ts s t H. unfold while_statement in H. inv. rd negation_inv tn Gn. inv. rd condition_inv tc Gc. inv.
  body N_while tb o Gb B. finish. exists o'. eexists (_ :: tn ++ _ :: tc ++ _ :: tb ++ tb').
  split; [same|]. split; [|assumption]. eapply G_while; eassumption.
Qed.
Lemma first_inv ts s t : for_initializer n ts = Acc s t -> exists pre, ts = pre ++ t /\ Gfirst s pre.
Proof.
  unfold for_initializer. intros H.
  repeat (apply or_else_inv in H as [H | (_ & H)]).
  - apply definition_var_inv in H as (pre & -> & G). exists pre. split; [|constructor]; auto.
  - apply definition_const_inv in H as (pre & -> & G). exists pre. split; [|constructor]; auto.
  - apply reference_inv in H as (pre & -> & G). exists pre. split; [|constructor]; auto.
  - unfold null_statement in H. inv. eexists [_]. split; [reflexivity | apply C_null].
  - unfold expression_statement in H. inv. eexists (te ++ [_]). split; [same | apply C_expr; assumption].
Qed.
Lemma for_sound : st_sound (for_statement bl n (flags a)) d a.
Proof.
  intros ts s t H. unfold for_statement in H. inv. apply or_else_inv in H as [H | (_ & H)].
  - unfold for_range in H. inv.
    match goal with Q : default (_, _) ?r _ = Acc ?kx ?t', U : user_name ?x |- _ =>
      assert (X : exists tx, TId x :: r = tx ++ t' /\
        ((fst kx = [] /\ user_name (snd kx) /\ tx = [TId (snd kx)]) \/
         (user_name (fst kx) /\ user_name (snd kx) /\
          exists q, (q = P "," \/ q = P ":" \/ q = P "=") /\ tx = [TId (fst kx); q; TId (snd kx)])));
      [apply default_inv in Q as [Q | (_ & -> & ->)]|]
    end.
    + inv. match goal with Q : one_of pu _ _ = _ |- _ => apply one_of_pu_inv in Q; which Q end; subst;
      (eexists [_; _; _]; split; [reflexivity|]; right; cbn [fst snd]; split; [assumption|]; split; [assumption|];
       eexists; split; [|reflexivity]; auto).
    + eexists [_]. split; [reflexivity|]. left. cbn [fst snd]. auto.
    + destruct X as (tx & X1 & X2). inv. body N_for tb o Gb B.
      finish. exists o'. eexists (_ :: _ :: _ :: tx ++ _ :: te ++ _ :: tb ++ tb').
      split; [|split; [eapply G_each; eassumption | assumption]].
      cbn [app]. do 3 f_equal. transitivity (tx ++ (P "->" :: te ++ P ")" :: tb ++ tb' ++ t)); [|same].
      exact X1.
  - unfold for_triplet in H. inv. rd first_inv ti Gi.
    match goal with Q : default [] ?r (rvalue _) = Acc ?c ?t' |- _ =>
      assert (X : exists tc, r = tc ++ t' /\ optional Gval c tc);
      [apply default_inv in Q as [Q | (_ & -> & ->)]; [inv; eexists; split; [reflexivity | right; assumption]
        | exists []; split; [reflexivity | left; auto]]
      | clear Q; destruct X as (tc & -> & Gc)] end.
    inv.
    match goal with Q : default [] ?r (parse _) = Acc ?c ?t' |- _ =>
      assert (X : exists tp, r = tp ++ t' /\ optional Gex c tp);
      [apply default_inv in Q as [Q | (_ & -> & ->)]; [inv; eexists; split; [reflexivity | right; assumption]
        | exists []; split; [reflexivity | left; auto]]
      | clear Q; destruct X as (tp & X & Gp)] end.
    subst. inv. body N_for tb o Gb B. finish. exists o'.
    eexists (_ :: _ :: ti ++ tc ++ _ :: tp ++ _ :: tb ++ tb').
    split; [same|]. split; [eapply G_for; eassumption | assumption].
Qed.
Lemma break_sound : st_sound (break_statement (flags a)) d a.
Proof.
  intros ts s t H. unfold break_statement in H. inv.
  match goal with Q : default ToNone ?r _ = Acc ?g ?t' |- _ =>
    assert (X : exists tt, r = tt ++ t' /\ Gtarget g tt);
    [apply default_inv in Q as [Q | (_ & -> & ->)];
       [apply one_of_kw_inv in Q; which Q; subst; eexists [_]; (split; [reflexivity | constructor])
       | exists []; split; [reflexivity | constructor]]
    | clear Q; destruct X as (tt & -> & G)] end.
  match type of H with (if ?b then _ else _) = _ => destruct b eqn:F; [discriminate|] end.
  apply break_flag in F; [|assumption]. inv. exists []. eexists (_ :: tt ++ [_]). simple_end.
Qed.
Lemma continue_sound : st_sound (continue_statement (flags a)) d a.
Proof.
  intros ts s t H. unfold continue_statement in H. inv.
  match goal with Q : default ToNone ?r _ = Acc ?g ?t' |- _ =>
    assert (X : exists tt, r = tt ++ t' /\ Gtarget g tt /\ g <> ToSwitch);
    [apply default_inv in Q as [Q | (_ & -> & ->)];
       [apply one_of_kw_inv in Q; which Q; subst; eexists [_]; (split; [reflexivity | split; [constructor | discriminate]])
       | exists []; split; [reflexivity | split; [constructor | discriminate]]]
    | clear Q; destruct X as (tt & -> & G & NS)] end.
  match type of H with (if ?b then _ else _) = _ => destruct b eqn:F; [discriminate|] end.
  apply continue_flag in F; [|assumption..]. inv. exists []. eexists (_ :: tt ++ [_]). simple_end.
Qed.
Lemma throw_sound : st_sound throw_statement d a.
Proof. intros ts s t H. unfold throw_statement in H. inv. exists []. eexists (_ :: te ++ [_]). simple_end. Qed.
Lemma return_sound : st_sound return_statement d a.
Proof.
  intros ts s t H. unfold return_statement in H. inv.
  destruct (accept_ref _) as [r t1] eqn:E. apply accept_ref_inv in E as (tr & -> & G). cbv beta iota in H. inv.
  destruct r; cbv iota in *.
  - inv. exists []. eexists (_ :: tr ++ te ++ [_]). split; [same | split; [apply G_return_value; assumption | apply not_begins_nil]].
  - match goal with Q : default _ _ _ = _ |- _ => apply default_inv in Q as [Q | (_ & E1 & E2)] end; subst; inv.
    + exists []. eexists (_ :: tr ++ te ++ [_]). split; [same | split; [apply G_return_value; assumption | apply not_begins_nil]].
    + exists []. inversion G. subst. eexists [_; _]. simple_end.
Qed.
Lemma assert_sound : st_sound assert_statement d a.
Proof.
  intros ts s t H. unfold assert_statement in H. inv.
  match goal with Q : default _ _ _ = _ |- _ => apply default_inv in Q as [Q | (_ & E1 & E2)] end; subst; inv.
  - exists []. eexists (_ :: te ++ [P ":"; TStr _] ++ [_]). split; [same|].
    split; [apply G_assert; [eassumption | right; reflexivity] | apply not_begins_nil].
  - exists []. eexists (_ :: te ++ [] ++ [_]). split; [same|].
    split; [apply G_assert; [eassumption | left; auto] | apply not_begins_nil].
Qed.
Lemma try_sound : st_sound (try_statement bl (flags a)) d a.
Proof.
  intros ts s t H. unfold try_statement in H. inv. body N th o' Gh B'. body N tb o Gb B.
  exists o'. eexists (_ :: tb ++ _ :: _ :: _ :: _ :: th). split; [same|].
  split; [eapply G_try; eassumption | assumption].
Qed.
Lemma block_sound : st_sound (statement_block st n (flags a)) d a.
Proof.
  intros ts s t H. unfold statement_block in H. inv.
  match goal with Q : statements _ _ _ _ = _ |- _ => apply (statements_inv _ _ _ _ _ N) in Q as (tb & -> & Gb) end.
  inv. exists []. eexists (_ :: tb ++ [_]). simple_end.
Qed.
Lemma expression_sound ts s t : ~ block_or_function d ts -> expression_statement ts = Acc s t ->
  exists o pre, ts = pre ++ t /\ Gst d a o s pre /\ ~ begins_with o t.
Proof.
  intros B H. unfold expression_statement in H. inv. exists []. eexists (te ++ [_]).
  split; [same|]. split; [|apply not_begins_nil]. constructor; [assumption|].
  intros (x & r & E & C). apply B. exists x. subst te. eexists. split; [reflexivity | assumption].
Qed.
End One.

Lemma nondeclarative_sound a n d ts s t : plain_targets a -> (d = true -> forall i r, ts <> TFunc i :: r) ->
  nondeclarative st bl n (flags a) ts = Acc s t ->
  exists o pre, ts = pre ++ t /\ Gst d a o s pre /\ ~ begins_with o t.
Proof.
  intros N F H. unfold nondeclarative in H.
  apply or_else_inv in H as [H | (_ & H)]; [eapply if_sound; eassumption|].
  apply or_else_inv in H as [H | (_ & H)]; [eapply switch_sound; eassumption|].
  apply or_else_inv in H as [H | (_ & H)]; [eapply do_sound; eassumption|].
  apply or_else_inv in H as [H | (_ & H)]; [eapply while_sound; eassumption|].
  apply or_else_inv in H as [H | (_ & H)]; [eapply for_sound; eassumption|].
  apply or_else_inv in H as [H | (_ & H)]; [eapply break_sound; eassumption|].
  apply or_else_inv in H as [H | (_ & H)]; [eapply continue_sound; eassumption|].
  apply or_else_inv in H as [H | (_ & H)]; [eapply throw_sound; eassumption|].
  apply or_else_inv in H as [H | (_ & H)]; [eapply return_sound; eassumption|].
  apply or_else_inv in H as [H | (_ & H)]; [eapply assert_sound; eassumption|].
  apply or_else_inv in H as [H | (_ & H)]; [eapply try_sound; eassumption|].
  apply or_else_inv in H as [H | (B & H)]; [eapply block_sound; eassumption|].
  eapply expression_sound; [|eassumption].
  intros (x & r & -> & [-> | (D & i & ->)]).
  - unfold statement_block in B. change (pu (str "{") (P "{" :: r)) with (Acc tt r) in B. cbn [bind] in B.
    destruct (statements st n (flags a) r) eqn:Q; cbn [bind] in B; try discriminate.
    + destruct (pu (str "}") rest); discriminate.
    + eapply statements_no_rej. eassumption.
  - eapply F; [assumption | reflexivity].
Qed.
End Sound.

Lemma stmt_at_sound n : forall d a, plain_targets a -> st_sound (stmt_at n d (flags a)) d a.
Proof.
  induction n as [|n IH]; intros d a N ts s t H; [discriminate|]. cbn [stmt_at] in H.
  set (st := stmt_at n true) in *.
  set (bl := fun sc ts => bind (stmt_at n false sc ts) (fun s t => Acc (blockify s) t)) in *.
  assert (ST : forall a, plain_targets a -> st_sound (st (flags a)) true a) by (intros; apply IH; assumption).
  assert (BL : forall a, plain_targets a -> bl_sound (bl (flags a)) a).
  { intros a' N' ts' b t' H'. unfold bl in H'. inv.
    match goal with Q : stmt_at _ _ _ _ = _ |- _ => apply (IH false _ N') in Q as (o & pre & -> & G & B) end.
    exists o, pre. split; [reflexivity|]. split; [constructor; assumption | assumption]. }
  destruct d.
  - unfold any_statement in H.
    apply or_else_inv in H as [H | (_ & H)]; [eapply definition_sound; [|exact H]; apply definition_var_inv|].
    apply or_else_inv in H as [H | (_ & H)]; [eapply definition_sound; [|exact H]; apply definition_const_inv|].
    apply or_else_inv in H as [H | (_ & H)]; [eapply definition_sound; [|exact H]; apply reference_inv|].
    apply or_else_inv in H as [H | (F & H)]; [eapply function_sound; eassumption|].
    apply or_else_inv in H as [H | (_ & H)]; [eapply defer_sound; eassumption|].
    apply or_else_inv in H as [H | (_ & H)]; [eapply null_sound; eassumption|].
    eapply nondeclarative_sound; try eassumption. intros _ i r ->. discriminate.
  - eapply nondeclarative_sound; try eassumption. discriminate.
Qed.
