(* C64: every statement of the grammar is accepted. *)
From Verif Require Import Base Text ExprModel ExprSpec ExprProofs ExprFullProofs ExprSoundProofs
  StmtModel StmtSpec StmtProofs1 StmtProofs2.

(* ---- terminals and expressions ---- *)
Lemma kw_acc s r : kw (str s) (K s :: r) = Acc tt r.
Proof. cbn [kw K is_kw]. rewrite (proj2 (beq_eq _ _) eq_refl). reflexivity. Qed.
Lemma pu_acc s r : pu (str s) (P s :: r) = Acc tt r.
Proof. cbn [pu P is_punct]. rewrite (proj2 (beq_eq _ _) eq_refl). reflexivity. Qed.
Lemma kw_rej_of s ts : ~ begins_with [K s] ts -> kw (str s) ts = Rej.
Proof.
  intros H. destruct ts as [|t r]; [reflexivity|]. cbn [kw]. destruct (is_kw (str s) t) eqn:E; [|reflexivity].
  apply is_kw_inv in E. exfalso. apply H. exists t, r. split; [reflexivity | left; symmetry; exact E].
Qed.
Lemma ident_acc x r : user_name x -> ident (TId x :: r) = Acc x r.
Proof.
  intros U. cbn [ident]. destruct ((nth 0 x 0 =? 95) && (nth 1 x 0 =? 95)) eqn:E; [|reflexivity].
  exfalso. apply U. apply andb_prop in E as (A & B). apply Z.eqb_eq in A, B.
  destruct x as [|a [|b x]]; cbn in A, B; try lia. subst. exists x. reflexivity.
Qed.
Lemma parse_acc e te r : Gex e te -> stops r -> parse (te ++ r) = Acc e r.
Proof. intros (x & G & ->) ((A & B) & C). apply complete_stops; assumption. Qed.
Lemma rvalue_acc e te r : Gval e te -> stops r -> rvalue (te ++ r) = Acc e r.
Proof.
  intros (x & G & ->) ((A & B) & C). unfold rvalue, expr_and_check.
  rewrite (complete_stops _ _ _ G); [|assumption..]. rewrite units_void.
  destruct (voidable x); [reflexivity|]. rewrite app_nil_r. reflexivity.
Qed.
Lemma negation_acc b tn r : Gneg b tn -> negation (tn ++ P "(" :: r) = Acc b (P "(" :: r).
Proof. intros []; reflexivity. Qed.
Lemma condition_acc c tc r : Gval c tc -> condition (P "(" :: tc ++ P ")" :: r) = Acc c r.
Proof.
  intros G. unfold condition. rewrite pu_acc. cbn [need bind].
  rewrite (rvalue_acc _ _ _ G) by closer. cbn [need bind]. rewrite pu_acc. reflexivity.
Qed.

(* ---- names ---- *)
Definition ends (ts : list token) : Prop := exists s r, ts = P s :: r /\ str s <> str "," /\ str s <> str "...".
Lemma existsb_no x l : ~ In x l -> existsb (beq x) l = false.
Proof.
  intros H. apply Bool.not_true_iff_false. intros E. apply existsb_exists in E as (y & I & E).
  apply beq_eq in E. subst. auto.
Qed.
Lemma NoDup_mid {A} (l : list A) x r : NoDup (l ++ x :: r) -> ~ In x l.
Proof. intros H I. apply NoDup_remove_2 in H. apply H. apply in_or_app. left. assumption. Qed.
Lemma pu_no s ts : ends ts -> s = ","%string \/ s = "..."%string -> pu (str s) ts = Rej.
Proof.
  intros (q & r & -> & A & B) C. cbn [pu P is_punct].
  destruct (beq (str s) (str q)) eqn:E; [|reflexivity]. apply beq_eq in E. exfalso. destruct C; subst; congruence.
Qed.
Lemma names_acc l ts : Gnames l ts -> forall n seen r, NoDup (seen ++ l) -> (length ts < n)%nat -> ends r ->
  names n seen (ts ++ r) = Acc l r.
Proof.
  induction 1; intros n seen r N L E; (destruct n as [|n]; [cbn in L; lia|]); cbn [names app].
  - destruct E as (s & q & -> & _). reflexivity.
  - rewrite ident_acc by assumption. rewrite (existsb_no _ _ (NoDup_mid _ _ _ N)).
    rewrite (pu_no "," r); auto.
  - rewrite ident_acc by assumption. rewrite (existsb_no _ _ (NoDup_mid _ _ _ N)).
    rewrite pu_acc. rewrite IHGnames; [reflexivity | rewrite <- app_assoc; exact N | cbn in L; lia | assumption].
Qed.
Lemma parameters_acc l ts : Gnames l ts -> forall n seen r, NoDup (seen ++ l) -> (length ts < n)%nat -> ends r ->
  parameters n seen (ts ++ r) = Acc l r.
Proof.
  induction 1; intros n seen r N L E; (destruct n as [|n]; [cbn in L; lia|]); cbn [parameters app].
  - rewrite (pu_no "..." r); auto. destruct E as (s & q & -> & _). reflexivity.
  - change (pu (str "...") (TId x :: r)) with (@Rej unit).
    rewrite ident_acc by assumption. rewrite (existsb_no _ _ (NoDup_mid _ _ _ N)).
    rewrite (pu_no "," r); auto.
  - change (pu (str "...") (TId x :: P "," :: ts ++ r)) with (@Rej unit).
    rewrite ident_acc by assumption. rewrite (existsb_no _ _ (NoDup_mid _ _ _ N)).
    rewrite pu_acc. rewrite IHGnames; [reflexivity | rewrite <- app_assoc; exact N | cbn in L; lia | assumption].
Qed.
Lemma variadic_acc l ts : Gnames l ts -> forall n seen r, NoDup (seen ++ l) -> (length ts < n)%nat ->
  ts = [] \/ (exists q, ts = q ++ [P ","]) ->
  parameters n seen (ts ++ P "..." :: r) = Acc (l ++ [str "..."]) r.
Proof.
  induction 1; intros n seen r N L E; (destruct n as [|n]; [cbn in L; lia|]); cbn [parameters app].
  - rewrite pu_acc. reflexivity.
  - exfalso. destruct E as [E | ([|t q] & E)]; try discriminate. destruct q; discriminate.
  - change (pu (str "...") (TId x :: P "," :: ts ++ P "..." :: r)) with (@Rej unit).
    rewrite ident_acc by assumption. rewrite (existsb_no _ _ (NoDup_mid _ _ _ N)).
    rewrite pu_acc. rewrite IHGnames; [reflexivity | rewrite <- app_assoc; exact N | cbn in L; lia |].
    destruct ts as [|t ts]; [left; reflexivity|]. right.
    destruct E as [E | (q & E)]; [discriminate|].
    destruct q as [|t1 [|t2 q]]; try discriminate. exists q. cbn in E. congruence.
Qed.
Lemma params_acc l ts : Gparams l ts -> forall n r, (length ts < n)%nat ->
  parameters n [] (ts ++ P ")" :: r) = Acc l (P ")" :: r).
Proof.
  intros [l' ts' G N | l' ts' G N E] n r L.
  - apply parameters_acc; auto. exists ")"%string, r. repeat split; discriminate.
  - rewrite app_length in L. cbn in L. rewrite <- app_assoc. cbn [app]. apply variadic_acc; auto. lia.
Qed.

(* ---- definitions ---- *)
Definition after (ts : list token) : Prop := exists r, ts = P ";" :: r \/ ts = P "," :: r.
Lemma after_stops ts : after ts -> stops ts.
Proof. intros (r & [-> | ->]); closer. Qed.
Lemma bracket_acc n l ts (p q : String.string) r :
  Gnames l ts -> l <> [] -> NoDup (str p :: l) -> (length ts < n)%nat ->
  str q <> str "," -> str q <> str "..." ->
  binding n (str p) (str q) (P p :: ts ++ P q :: r) = Acc (str p :: l ++ [str q]) r.
Proof.
  intros G X N L Q1 Q2. unfold binding. rewrite pu_acc. cbn [bind].
  rewrite (names_acc _ _ G n [str p]); [|assumption | assumption | exists q, r; auto].
  cbn [bind]. destruct l as [|x l]; [congruence|]. rewrite pu_acc. reflexivity.
Qed.
Lemma declarator_acc d td n r : Gdeclarator d td -> (length td <= n)%nat -> declarator n (td ++ r) = Acc d r.
Proof.
  intros [x U | l ts G X N | l ts G X N] L; unfold declarator; cbn [app].
  - rewrite ident_acc by assumption. reflexivity.
  - change (ident _) with (@Rej bytes). cbn [bind or_else]. rewrite <- app_assoc. cbn [app].
    cbn in L. rewrite app_length in L. cbn in L.
    rewrite (bracket_acc n l ts); auto; [lia | discriminate | discriminate].
  - change (ident _) with (@Rej bytes). cbn [bind or_else]. rewrite <- app_assoc. cbn [app].
    change (binding n (str "[") (str "]") _) with (@Rej (list bytes)). cbn [or_else].
    cbn in L. rewrite app_length in L. cbn in L.
    rewrite (bracket_acc n l ts); auto; [lia | discriminate | discriminate].
Qed.
Lemma initializer_acc s e te r : Ginit (P s) e te -> stops r -> initializer (str s) (te ++ r) = Acc e r.
Proof.
  intros [ts G] S. unfold initializer. cbn [app]. rewrite pu_acc. cbn [bind]. rewrite (parse_acc e ts); auto.
Qed.
Lemma declarator_nonempty d td : Gdeclarator d td -> (0 < length td)%nat.
Proof. intros []; cbn; lia. Qed.
Lemma one_declaration im d td n r : Gdecl im d td -> (length td <= n)%nat -> after r ->
  (get x, ts <- need (declarator n (td ++ r));
   get e, ts <- (if im then need (initializer (str "=") ts) else default [] ts (initializer (str "=") ts));
   Acc (x, e) ts) = Acc d r.
Proof.
  intros [im' d' e td' te G J | d' td' G] L A.
  - rewrite app_length in L. rewrite <- app_assoc. rewrite (declarator_acc _ _ _ _ G); [|lia]. cbn [need bind].
    rewrite (initializer_acc "=" e te r J (after_stops _ A)). destruct im'; reflexivity.
  - rewrite (declarator_acc _ _ _ _ G); [|lia]. cbn [need bind].
    destruct A as (q & [-> | ->]); reflexivity.
Qed.
Lemma decl_nonempty im d td : Gdecl im d td -> (0 < length td)%nat.
Proof. intros [? ? ? ? ? G J | ? ? G]; apply declarator_nonempty in G; rewrite ?app_length; lia. Qed.
Lemma declarations_acc im ds ts : Gseq (Gdecl im) ds ts -> forall n r, (length ts <= n)%nat ->
  (0 < length ts)%nat /\ declarations n im (ts ++ P ";" :: r) = Acc ds (P ";" :: r).
Proof.
  induction 1 as [d ts G | d ts l tl G S IH]; intros n r L; pose proof (decl_nonempty _ _ _ G) as Z.
  - split; [assumption|]. destruct n as [|n]; [lia|]. cbn [declarations].
    assert (A : after (P ";" :: r)) by (exists r; auto).
    pose proof (one_declaration _ _ _ _ _ G L A) as E.
    apply bind_inv in E as (x & t1 & E1 & E). apply bind_inv in E as (e & t2 & E2 & E).
    inversion E. subst. rewrite E1. cbn [bind]. rewrite E2. reflexivity.
  - rewrite app_length in *. cbn [length] in *. split; [lia|]. destruct n as [|n]; [lia|]. cbn [declarations].
    rewrite <- app_assoc. cbn [app].
    assert (A : after (P "," :: tl ++ P ";" :: r)) by (eexists; auto).
    assert (L' : (length ts <= Datatypes.S n)%nat) by lia.
    pose proof (one_declaration _ _ _ _ _ G L' A) as E.
    apply bind_inv in E as (x & t1 & E1 & E). apply bind_inv in E as (e & t2 & E2 & E).
    inversion E. subst. rewrite E1. cbn [bind]. rewrite E2. cbn [bind]. rewrite pu_acc.
    destruct (IH n r) as (_ & ->); [lia|]. reflexivity.
Qed.
Lemma references_acc ds ts : Gseq Gref_decl ds ts -> forall n r, (length ts <= n)%nat ->
  (0 < length ts)%nat /\ references n (ts ++ P ";" :: r) = Acc ds (P ";" :: r).
Proof.
  induction 1 as [d ts G | d ts l tl G S IH]; intros n r L; destruct G as [x e te U J].
  - cbn [length] in *. split; [lia|]. destruct n as [|n]; [lia|]. cbn [references app].
    rewrite ident_acc by assumption. cbn [need bind].
    rewrite (initializer_acc "->" e te _ J) by closer. reflexivity.
  - rewrite app_length in *. cbn [length] in *. split; [lia|]. destruct n as [|n]; [lia|]. cbn [references app].
    rewrite ident_acc by assumption. cbn [need bind]. rewrite <- app_assoc. cbn [app].
    rewrite (initializer_acc "->" e te _ J) by closer. cbn [need bind]. rewrite pu_acc.
    destruct (IH n r) as (_ & ->); [lia|]. reflexivity.
Qed.
Lemma or_else_acc {A} (r s : res A) a t : r = Acc a t -> or_else r s = Acc a t.
Proof. intros ->. reflexivity. Qed.
Definition definitions (n : nat) (s : res stmt) (ts : list token) : res stmt :=
  or_else (definition n (str "var") false ts)
  (or_else (definition n (str "const") true ts)
  (or_else (reference_definition n ts) s)).
Lemma definition_acc s ts n x r : Gdefinition s ts -> (length ts < n)%nat ->
  definitions n x (ts ++ r) = Acc s r.
Proof.
  intros [ds td G | ds td G | ds td G] L; cbn [length] in L; rewrite app_length in L; cbn in L;
    unfold definitions; cbn [app]; rewrite <- app_assoc; cbn [app].
  - apply or_else_acc. unfold definition. rewrite kw_acc. cbn [bind].
    destruct (declarations_acc _ _ _ G n r) as (_ & ->); [lia|]. cbn [bind]. rewrite pu_acc. reflexivity.
  - change (definition n (str "var") false _) with (@Rej stmt). cbn [or_else].
    apply or_else_acc. unfold definition. rewrite kw_acc. cbn [bind].
    destruct (declarations_acc _ _ _ G n r) as (_ & ->); [lia|]. cbn [bind]. rewrite pu_acc. reflexivity.
  - change (definition n (str "var") false _) with (@Rej stmt).
    change (definition n (str "const") true _) with (@Rej stmt). cbn [or_else].
    apply or_else_acc. unfold reference_definition. rewrite kw_acc. cbn [bind].
    destruct (references_acc _ _ G n r) as (_ & ->); [lia|]. cbn [bind]. rewrite pu_acc. reflexivity.
Qed.

(* ---- expression statements ---- *)
(* by cases on the first token of an expression *)
Ltac first_tokens H :=
  let t := fresh "t" in let r := fresh "r" in
  destruct H as (t & r & -> & H); unfold start in H; apply orb_prop in H as [H | H];
  destruct t; cbn [pstart] in H; try discriminate H; try (apply existsb_in in H;
    cbn [In map fst prefix_keywords prefix_punctuators] in H;
    repeat (destruct H as [H | H]; [subst|]); try contradiction H).
Lemma gex_start e ts r : Gex e ts -> heads start (ts ++ r).
Proof. intros (x & G & _). apply heads_app. eapply exp_head. eassumption. Qed.
Lemma start_definitions n x ts : heads start ts -> definitions n x ts = x.
Proof. intros H. first_tokens H; reflexivity. Qed.
Lemma start_null ts : heads start ts -> null_statement ts = Rej.
Proof. intros H. first_tokens H; reflexivity. Qed.
Lemma start_range bl sc ts : heads start ts -> for_range bl sc ts = Rej.
Proof. intros H. first_tokens H; reflexivity. Qed.
Lemma start_nondeclarative st bl n sc ts : heads start ts -> (forall r, ts <> P "{" :: r) ->
  nondeclarative st bl n sc ts = expression_statement ts.
Proof. intros H N. first_tokens H; try reflexivity; exfalso; eapply N; reflexivity. Qed.
Lemma start_any st bl n sc ts : heads start ts -> (forall i r, ts <> TFunc i :: r) ->
  any_statement st bl n sc ts = nondeclarative st bl n sc ts.
Proof. intros H N. first_tokens H; try reflexivity; exfalso; eapply N; reflexivity. Qed.
Lemma expression_acc e ts r : Gex e ts -> expression_statement (ts ++ P ";" :: r) = Acc (SExpr e) r.
Proof. intros G. unfold expression_statement. rewrite (parse_acc _ _ _ G) by closer. cbn [bind]. rewrite pu_acc. reflexivity. Qed.
Lemma first_acc i ti n r : Gfirst i ti -> (length ti < n)%nat -> for_initializer n (ti ++ r) = Acc i r.
Proof.
  intros [s ts G | | e ts G] L.
  - exact (definition_acc s ts n _ r G L).
  - reflexivity.
  - pose proof (gex_start _ _ (P ";" :: r) G) as H. rewrite <- app_assoc. cbn [app].
    change (for_initializer n ?q) with (definitions n (or_else (null_statement q) (expression_statement q)) q).
    rewrite start_definitions by assumption. rewrite start_null by assumption. apply expression_acc. assumption.
Qed.
Lemma first_range bl sc i ti r : Gfirst i ti -> for_range bl sc (ti ++ r) = Rej.
Proof.
  intros [s ts [] | | e ts G]; try reflexivity.
  rewrite <- app_assoc. apply start_range. eapply gex_start. eassumption.
Qed.
