(* C64: acceptors of terminals and expressions; whatever the parser of
   statements accepts is in the grammar. *)
From Verif Require Import Base Text ExprModel ExprSpec ExprProofs ExprFullProofs ExprSoundProofs
  StmtModel StmtSpec.

(* ---- combinators ---- *)
Lemma bind_inv {A B} (r : res A) (k : A -> list token -> res B) b t :
  bind r k = Acc b t -> exists a t', r = Acc a t' /\ k a t' = Acc b t.
Proof. destruct r; try discriminate. eauto. Qed.
Lemma need_inv {A} (r : res A) a t : need r = Acc a t -> r = Acc a t.
Proof. destruct r; try discriminate; auto. Qed.
Lemma default_inv {A} (a : A) ts r b t :
  default a ts r = Acc b t -> r = Acc b t \/ (r = Rej /\ b = a /\ t = ts).
Proof. destruct r; try discriminate; cbn; auto. intros H. inversion H. auto. Qed.
Lemma or_else_inv {A} (r s : res A) a t :
  or_else r s = Acc a t -> r = Acc a t \/ (r = Rej /\ s = Acc a t).
Proof. destruct r; try discriminate; cbn; auto. Qed.
Lemma acc_inv {A} (a b : A) s t : Acc a s = Acc b t -> a = b /\ s = t.
Proof. intros H. inversion H. auto. Qed.

Lemma kw_inv s ts u t : kw s ts = Acc u t -> ts = TKw s :: t.
Proof.
  destruct ts as [|x r]; [discriminate|]. cbn [kw]. destruct (is_kw s x) eqn:E; [|discriminate].
  apply is_kw_inv in E. intros H. inversion H. subst. reflexivity.
Qed.
Lemma pu_inv s ts u t : pu s ts = Acc u t -> ts = TPunct s :: t.
Proof.
  destruct ts as [|x r]; [discriminate|]. cbn [pu]. destruct (is_punct s x) eqn:E; [|discriminate].
  apply is_punct_inv in E. intros H. inversion H. subst. reflexivity.
Qed.
Lemma kw_rej s x r : kw s (x :: r) = Rej -> x <> TKw s.
Proof.
  cbn [kw]. destruct (is_kw s x) eqn:E; [discriminate|]. intros _ ->.
  cbn in E. rewrite (proj2 (beq_eq s s) eq_refl) in E. discriminate.
Qed.
Lemma ident_inv ts x t : ident ts = Acc x t -> ts = TId x :: t /\ user_name x.
Proof.
  destruct ts as [|[] r]; try discriminate. cbn [ident].
  destruct ((nth 0 s 0 =? 95) && (nth 1 s 0 =? 95)) eqn:E; [discriminate|].
  intros H. inversion H. subst. split; [reflexivity|]. intros (q & ->). discriminate.
Qed.
Lemma text_inv ts x t : text ts = Acc x t -> ts = TStr x :: t.
Proof. destruct ts as [|[] r]; try discriminate. cbn. intros H. inversion H. reflexivity. Qed.
Lemma parse_inv ts us t : parse ts = Acc us t -> exists pre, ts = pre ++ t /\ Gex us pre.
Proof.
  intros H. destruct (parse_sound _ _ _ H) as (e & pre & E & G & U & _).
  exists pre. split; [assumption|]. exists e. auto.
Qed.
Lemma rvalue_inv ts us t : rvalue ts = Acc us t -> exists pre, ts = pre ++ t /\ Gval us pre.
Proof.
  unfold rvalue, expr_and_check. destruct (parse ts) eqn:E; try discriminate. intros H.
  destruct (parse_sound _ _ _ E) as (e & pre & E1 & G & U & _). inversion H. subst.
  exists pre. split; [reflexivity|]. exists e. split; [assumption|].
  rewrite units_void. destruct (voidable e); [reflexivity|]. rewrite app_nil_r. reflexivity.
Qed.
Lemma accept_ref_inv ts b t : accept_ref ts = (b, t) -> exists pre, ts = pre ++ t /\ Gref b pre.
Proof.
  destruct ts as [|x r]; cbn [accept_ref].
  - intros H. inversion H. exists []. split; constructor.
  - destruct (is_kw (str "ref") x) eqn:E; cbn [orb].
    + apply is_kw_inv in E. intros H. inversion H. exists [x]. split; [reflexivity|].
      constructor. left. assumption.
    + destruct (is_punct (str "->") x) eqn:E'; intros H; inversion H.
      * apply is_punct_inv in E'. exists [x]. split; [reflexivity|]. constructor. right. assumption.
      * exists []. split; constructor.
Qed.

(* take an acceptance apart *)
Ltac inv1 :=
  match goal with
  | H : bind _ _ = Acc _ _ |- _ =>
      let a := fresh "a" in let t := fresh "t" in let H' := fresh "H" in
      apply bind_inv in H; destruct H as (a & t & H' & H); cbv beta in H
  | H : need _ = Acc _ _ |- _ => apply need_inv in H
  | H : Acc _ _ = Acc _ _ |- _ => apply acc_inv in H; destruct H; subst
  | H : kw _ _ = Acc _ _ |- _ => apply kw_inv in H; subst
  | H : pu _ _ = Acc _ _ |- _ => apply pu_inv in H; subst
  | H : ident _ = Acc _ _ |- _ =>
      let E := fresh "U" in apply ident_inv in H; destruct H as (H & E); subst
  | H : text _ = Acc _ _ |- _ => apply text_inv in H; subst
  | H : parse _ = Acc _ _ |- _ =>
      let E := fresh "E" in let te := fresh "te" in
      apply parse_inv in H; destruct H as (te & E & H); subst
  | H : rvalue _ = Acc _ _ |- _ =>
      let E := fresh "E" in let te := fresh "te" in
      apply rvalue_inv in H; destruct H as (te & E & H); subst
  | H : Rej = Acc _ _ |- _ => discriminate H
  | H : Err = Acc _ _ |- _ => discriminate H
  | H : Fuel = Acc _ _ |- _ => discriminate H
  end.
Ltac inv := repeat inv1.
(* two lists are equal up to the way they are put together *)
Ltac same := repeat (progress (rewrite <- ?app_assoc; cbn [app])); reflexivity.

Lemma negation_inv ts b t : negation ts = Acc b t -> exists pre, ts = pre ++ t /\ Gneg b pre.
Proof.
  unfold negation. intros H. apply default_inv in H as [H | (_ & -> & ->)].
  - apply or_else_inv in H as [H | (_ & H)]; inv; eexists; (split; [|constructor]); reflexivity.
  - exists []. split; constructor.
Qed.
Lemma condition_inv ts c t : condition ts = Acc c t ->
  exists te, ts = P "(" :: te ++ P ")" :: t /\ Gval c te.
Proof. unfold condition. intros H. inv. eexists. split; [reflexivity | assumption]. Qed.

Lemma existsb_beq x l : existsb (beq x) l = false -> ~ In x l.
Proof.
  intros H I. apply Bool.not_true_iff_false in H. apply H. apply existsb_exists.
  exists x. split; [assumption | apply beq_eq; reflexivity].
Qed.
Lemma NoDup_snoc {A} (l : list A) x r : NoDup (l ++ x :: r) -> NoDup ((l ++ [x]) ++ r).
Proof. rewrite <- app_assoc. auto. Qed.
Lemma NoDup_one {A} (l : list A) x : NoDup l -> ~ In x l -> NoDup (l ++ [x]).
Proof.
  intros N I. apply NoDup_rev in N. rewrite <- (rev_involutive (l ++ [x])). apply NoDup_rev.
  rewrite rev_app_distr. cbn. constructor; [|assumption]. rewrite <- in_rev. assumption.
Qed.

Lemma names_inv n : forall seen ts l t, NoDup seen -> names n seen ts = Acc l t ->
  exists pre, ts = pre ++ t /\ Gnames l pre /\ NoDup (seen ++ l).
Proof.
  induction n as [|n IH]; intros seen ts l t N H; [discriminate|]. cbn [names] in H.
  destruct (ident ts) as [x r| | |] eqn:E; try discriminate.
  - destruct (existsb (beq x) seen) eqn:D; [discriminate|].
    apply existsb_beq in D. pose proof (NoDup_one _ _ N D) as N1.
    apply ident_inv in E as (-> & U).
    destruct (pu (str ",") r) eqn:Q; inv.
    + apply (IH _ _ _ _ N1) in H0 as (pre & -> & G & N2).
      exists (TId x :: P "," :: pre). split; [reflexivity|]. split; [constructor; assumption|].
      rewrite <- app_assoc in N2. exact N2.
    + exists [TId x]. split; [reflexivity|]. split; [constructor; assumption | assumption].
    + exists [TId x]. split; [reflexivity|]. split; [constructor; assumption | assumption].
    + exists [TId x]. split; [reflexivity|]. split; [constructor; assumption | assumption].
  - inv. exists []. rewrite app_nil_r. repeat split; [constructor | assumption].
Qed.
Lemma declarator_inv n ts d t : declarator n ts = Acc d t ->
  exists pre, ts = pre ++ t /\ Gdeclarator d pre.
Proof.
  unfold declarator. intros H. apply or_else_inv in H as [H | (_ & H)].
  - inv. eexists [_]. split; [reflexivity|]. constructor. assumption.
  - assert (N1 : forall x : bytes, NoDup [x]) by (intros; constructor; [cbn; auto | constructor]).
    apply or_else_inv in H as [H | (_ & H)]; unfold binding in H; inv.
    + match goal with Q : names _ _ _ = Acc ?l _ |- _ =>
        apply (names_inv _ _ _ _ _ (N1 _)) in Q as (pre & -> & G & N); destruct l as [|x l]; [discriminate|] end.
      inv. exists (P "[" :: pre ++ [P "]"]). split; [same|]. constructor; [assumption | discriminate | exact N].
    + match goal with Q : names _ _ _ = Acc ?l _ |- _ =>
        apply (names_inv _ _ _ _ _ (N1 _)) in Q as (pre & -> & G & N); destruct l as [|x l]; [discriminate|] end.
      inv. exists (P "{" :: pre ++ [P "}"]). split; [same|]. constructor; [assumption | discriminate | exact N].
Qed.
Lemma initializer_inv s ts e t : initializer s ts = Acc e t ->
  exists pre, ts = pre ++ t /\ Ginit (TPunct s) e pre.
Proof. unfold initializer. intros H. inv. eexists (_ :: _). split; [reflexivity|]. constructor. assumption. Qed.

(* read one part with its lemma *)
Ltac rd L p G :=
  match goal with
  | H : _ = Acc _ _ |- _ => let E := fresh "E" in apply L in H; destruct H as (p & E & G); subst
  end.

Lemma declarations_inv n : forall im ts l t, declarations n im ts = Acc l t ->
  exists pre, ts = pre ++ t /\ Gseq (Gdecl im) l pre.
Proof.
  induction n as [|n IH]; intros im ts l t H; [discriminate|]. cbn [declarations] in H. inv.
  apply declarator_inv in H0 as (pd & -> & G).
  assert (D : exists pi, t0 = pi ++ t1 /\ Gdecl im (a, a0) (pd ++ pi)).
  { destruct im.
    - inv. apply initializer_inv in H1 as (pi & -> & I). exists pi. split; [reflexivity|]. constructor; assumption.
    - apply default_inv in H1 as [H1 | (_ & -> & ->)].
      + apply initializer_inv in H1 as (pi & -> & I). exists pi. split; [reflexivity|]. constructor; assumption.
      + exists []. split; [reflexivity|]. rewrite app_nil_r. constructor. assumption. }
  destruct D as (pi & -> & D). clear H1.
  destruct (pu (str ",") t1) eqn:Q; inv; try (exists (pd ++ pi); split; [same|]; constructor; assumption).
  apply IH in H0 as (pre & -> & S). exists ((pd ++ pi) ++ P "," :: pre). split; [same|].
  constructor; assumption.
Qed.
Lemma references_inv n : forall ts l t, references n ts = Acc l t ->
  exists pre, ts = pre ++ t /\ Gseq Gref_decl l pre.
Proof.
  induction n as [|n IH]; intros ts l t H; [discriminate|]. cbn [references] in H. inv.
  rd initializer_inv pi J.
  assert (D : Gref_decl (a, a0) (TId a :: pi)) by (constructor; assumption).
  match goal with |- exists pre, TId _ :: (pi ++ ?r) = _ /\ _ => destruct (pu (str ",") r) eqn:Q end;
    inv; try (exists (TId a :: pi); split; [same|]; constructor; assumption).
  rd IH pre R. exists ((TId a :: pi) ++ P "," :: pre). split; [same|].
  constructor; assumption.
Qed.
Lemma definition_var_inv n ts s t : definition n (str "var") false ts = Acc s t ->
  exists pre, ts = pre ++ t /\ Gdefinition s pre.
Proof.
  unfold definition. intros H. inv. rd declarations_inv pre G.
  eexists (_ :: pre ++ [_]). split; [|constructor; eassumption]. same.
Qed.
Lemma definition_const_inv n ts s t : definition n (str "const") true ts = Acc s t ->
  exists pre, ts = pre ++ t /\ Gdefinition s pre.
Proof.
  unfold definition. intros H. inv. rd declarations_inv pre G.
  eexists (_ :: pre ++ [_]). split; [|constructor; eassumption]. same.
Qed.
Lemma reference_inv n ts s t : reference_definition n ts = Acc s t ->
  exists pre, ts = pre ++ t /\ Gdefinition s pre.
Proof.
  unfold reference_definition. intros H. inv. rd references_inv pre G.
  eexists (_ :: pre ++ [_]). split; [|constructor; eassumption]. same.
Qed.
Lemma parameters_inv n : forall seen ts l t, NoDup seen -> parameters n seen ts = Acc l t ->
  exists pre m, ts = pre ++ t /\ NoDup (seen ++ m) /\
    ((Gnames m pre /\ l = m) \/
     exists pre', Gnames m pre' /\ (pre' = [] \/ exists r, pre' = r ++ [P ","]) /\
       pre = pre' ++ [P "..."] /\ l = m ++ [str "..."]).
Proof.
  induction n as [|n IH]; intros seen ts l t N H; [discriminate|]. cbn [parameters] in H.
  destruct (pu (str "...") ts) eqn:V.
  { inv. exists [P "..."], []. rewrite app_nil_r. split; [reflexivity|]. split; [assumption|].
    right. exists []. split; [constructor|]. auto. }
  all: destruct (ident ts) as [x r| | |] eqn:E; try discriminate.
  all: try (inv; exists [], []; rewrite app_nil_r; split; [reflexivity|]; split; [assumption|];
            left; split; [constructor | reflexivity]).
  all: destruct (existsb (beq x) seen) eqn:D; [discriminate|].
  all: apply existsb_beq in D; pose proof (NoDup_one _ _ N D) as N1.
  all: apply ident_inv in E as (-> & U).
  all: destruct (pu (str ",") r) eqn:Q; inv;
    try (exists [TId x], [x]; split; [reflexivity|]; split; [assumption|]; left; split; [constructor; assumption | reflexivity]).
  all: match goal with H : parameters _ _ _ = Acc _ _ |- _ => apply (IH _ _ _ _ N1) in H as (pre & m & -> & N2 & C) end.
  all: rewrite <- app_assoc in N2.
  all: exists (TId x :: P "," :: pre), (x :: m); split; [reflexivity|]; split; [exact N2|].
  all: destruct C as [(G & ->) | (pre' & G & W & -> & ->)].
  1, 3, 5: left; split; [constructor; assumption | reflexivity].
  all: right; exists (TId x :: P "," :: pre'); split; [constructor; assumption|].
  all: split; [|split; reflexivity]; right.
  all: destruct W as [-> | (q & ->)]; [exists [TId x]; reflexivity | exists (TId x :: P "," :: q); reflexivity].
Qed.
Lemma params_inv n ts l t : parameters n [] ts = Acc l t -> exists pre, ts = pre ++ t /\ Gparams l pre.
Proof.
  intros H. apply parameters_inv in H as (pre & m & -> & N & C); [|constructor].
  exists pre. split; [reflexivity|]. destruct C as [(G & ->) | (pre' & G & W & -> & ->)].
  - apply A_names; assumption.
  - apply A_variadic; assumption.
Qed.

(* ---- scopes ---- *)
Fixpoint flags (a : list target) : Z :=
  match a with
  | [] => 0
  | t :: a => Z.lor (flags a) (target_flag t 0)
  end.
Definition plain_targets (a : list target) : Prop := ~ In ToNone a.
Lemma flags_bits a : plain_targets a ->
  exists p q r : bool, flags a = (if p then 1 else 0) + (if q then 2 else 0) + (if r then 4 else 0) /\
    (p = true <-> In ToSwitch a) /\ (q = true <-> In ToWhile a) /\ (r = true <-> In ToFor a).
Proof.
  induction a as [|t a IH]; intros N.
  - exists false, false, false. cbn. intuition discriminate.
  - assert (N' : plain_targets a) by (intros I; apply N; right; assumption).
    destruct (IH N') as (p & q & r & E & A & B & C). cbn [flags]. rewrite E.
    destruct t.
    + exfalso. apply N. left. reflexivity.
    + exists true, q, r. split; [destruct p, q, r; reflexivity|]. cbn [In].
      repeat split; intros; intuition discriminate.
    + exists p, true, r. split; [destruct p, q, r; reflexivity|]. cbn [In].
      repeat split; intros; intuition discriminate.
    + exists p, q, true. split; [destruct p, q, r; reflexivity|]. cbn [In].
      repeat split; intros; intuition discriminate.
Qed.
Lemma nonempty_target a : plain_targets a -> a <> [] -> In ToSwitch a \/ In ToWhile a \/ In ToFor a.
Proof.
  destruct a as [|[] a]; cbn; intros N H; try tauto.
  exfalso. apply N. left. reflexivity.
Qed.
Lemma break_flag a t : plain_targets a ->
  ((Z.land (flags a) (target_flag t (Z.lor scope_switch (Z.lor scope_while scope_for))) =? 0) = false <-> may_break a t).
Proof.
  intros N. destruct (flags_bits a N) as (p & q & r & E & A & B & C). rewrite E.
  assert (NE : a <> [] <-> p = true \/ q = true \/ r = true).
  { split.
    - intros H. apply nonempty_target in H; [|assumption]. tauto.
    - intros H ->. cbn in *. destruct H as [H | [H | H]]; tauto. }
  destruct t; cbn [may_break]; rewrite ?NE, <- ?A, <- ?B, <- ?C;
    destruct p, q, r; vm_compute; intuition discriminate.
Qed.
Lemma continue_flag a t : plain_targets a -> t <> ToSwitch ->
  ((Z.land (flags a) (target_flag t (Z.lor scope_while scope_for)) =? 0) = false <-> may_continue a t).
Proof.
  intros N T. destruct (flags_bits a N) as (p & q & r & E & A & B & C). rewrite E.
  destruct t; cbn [may_continue]; try congruence; rewrite <- ?A, <- ?B, <- ?C;
    destruct p, q, r; vm_compute; intuition discriminate.
Qed.
Lemma plain_cons a t : plain_targets a -> t <> ToNone -> plain_targets (t :: a).
Proof. intros N T [E | I]; [congruence | auto]. Qed.
