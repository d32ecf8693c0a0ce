(* C64: every statement of the grammar is accepted, by induction on the grammar. *)
From Verif Require Import Base Text ExprModel ExprSpec ExprProofs ExprFullProofs ExprSoundProofs
  StmtModel StmtSpec StmtProofs1 StmtProofs2 StmtProofs3.

Scheme Gst_m := Minimality for Gst Sort Prop
  with Gbl_m := Minimality for Gbl Sort Prop
  with Gcomplete_m := Minimality for Gcomplete Sort Prop
  with Gsts_m := Minimality for Gsts Sort Prop
  with Gclauses_m := Minimality for Gclauses Sort Prop.
Combined Scheme grammar_ind from Gst_m, Gbl_m, Gcomplete_m, Gsts_m, Gclauses_m.

(* ---- what may be open, and what statements begin with ---- *)
Definition late (o : list token) : Prop := forall t, In t o -> t = K "else" \/ t = K "__ifcomplete".
Lemma late_nil : late []. Proof. intros t []. Qed.
Lemma late_cons x o : x = K "else" \/ x = K "__ifcomplete" -> late o -> late (x :: o).
Proof. intros A B t [<- | I]; auto. Qed.
Lemma grammar_late :
  (forall d a o s ts, Gst d a o s ts -> late o) /\
  (forall a o b ts, Gbl a o b ts -> late o) /\
  (forall a o b ts o', Gcomplete a o b ts o' -> late o -> late o') /\
  (forall a l ts, Gsts a l ts -> True) /\
  (forall a l ts, Gclauses a l ts -> True).
Proof.
  apply grammar_ind; intros; auto using late_nil, late_cons.
Qed.
Lemma late_no o t r : late o -> t <> K "else" -> t <> K "__ifcomplete" -> ~ begins_with o (t :: r).
Proof. intros L A B (x & q & E & I). inversion E. subst. apply L in I as [-> | ->]; auto. Qed.
Lemma late_nil_ts o : ~ begins_with o [].
Proof. intros (x & q & E & _). discriminate. Qed.

Definition leads (t : token) : Prop := t <> K "else" /\ t <> K "__ifcomplete".
Lemma st_head d a o s ts : Gst d a o s ts -> exists t r, ts = t :: r /\ leads t.
Proof.
  intros H. inversion H; subst;
    try (eexists; eexists; split; [reflexivity | split; discriminate]).
  - match goal with D : Gdefinition _ _ |- _ => inversion D; subst end;
      (eexists; eexists; split; [reflexivity | split; discriminate]).
  - match goal with G : Gex _ _ |- _ => apply (fun e t => gex_start e t [P ";"]) in G as (t & r & -> & S) end.
    exists t, r. split; [reflexivity|]. split; intros ->; discriminate.
Qed.
Definition stop (ts : list token) : Prop :=
  ts = [] \/ exists t r, ts = t :: r /\ In t [P "}"; K "case"; K "default"; K "each"].
Lemma stop_rej ts m sc : stop ts -> stmt_at (S m) true sc ts = Rej.
Proof.
  intros [-> | (t & r & -> & I)]; [reflexivity|]. cbn [In] in I.
  repeat (destruct I as [<- | I]; [reflexivity|]). contradiction.
Qed.
Lemma stop_late o ts : late o -> stop ts -> ~ begins_with o ts.
Proof.
  intros L [-> | (t & r & -> & I)]; [apply late_nil_ts|]. cbn [In] in I.
  repeat (destruct I as [<- | I]; [apply late_no; [assumption | discriminate | discriminate]|]). contradiction.
Qed.
Lemma sts_late o a l ts r : late o -> Gsts a l ts -> stop r -> ~ begins_with o (ts ++ r).
Proof.
  intros L G S. destruct G as [a | a o' s ts l tl G _].
  - apply stop_late; assumption.
  - apply st_head in G as (t & q & -> & A & B). cbn [app]. apply late_no; assumption.
Qed.
Lemma clauses_stop a l tl r : Gclauses a l tl -> stop (tl ++ P "}" :: r).
Proof.
  intros [a' | a' k tk b tb l' tl' K' _ _]; right.
  - eexists _, _. split; [reflexivity|]. left. reflexivity.
  - destruct K'; eexists _, _; (split; [reflexivity|]); cbn [In]; auto.
Qed.

(* ---- parts ---- *)
Definition bl_at (m : nat) (sc : Z) (ts : list token) : res (list stmt) :=
  get s, t <- stmt_at m false sc ts; Acc (blockify s) t.
Lemma stmt_at_S m d sc ts : stmt_at (S m) d sc ts =
  if d then any_statement (stmt_at m true) (bl_at m) (S m) sc ts
  else nondeclarative (stmt_at m true) (bl_at m) (S m) sc ts.
Proof. reflexivity. Qed.
Lemma not_begins_split x o ts : ~ begins_with (x :: o) ts -> ~ begins_with [x] ts /\ ~ begins_with o ts.
Proof.
  intros H. split; intros (t & r & E & I); apply H; exists t, r; (split; [assumption|]).
  - destruct I as [I | []]. left. assumption.
  - right. assumption.
Qed.
Lemma else_rej (bl : Z -> list token -> res (list stmt)) sc ts : ~ begins_with [K "else"] ts ->
  default [] ts (get u, ts <- kw (str "else") ts; need (bl sc ts)) = Acc (@nil stmt) ts.
Proof. intros H. rewrite (kw_rej_of "else") by assumption. reflexivity. Qed.
Lemma complete_rej bl sc ts : ~ begins_with [K "__ifcomplete"] ts -> if_complete bl sc ts = Rej.
Proof. intros H. unfold if_complete. rewrite (kw_rej_of "__ifcomplete") by assumption. reflexivity. Qed.
Lemma target_acc t tt r : Gtarget t tt ->
  default ToNone (tt ++ P ";" :: r)
    (one_of kw [(str "switch", ToSwitch); (str "while", ToWhile); (str "for", ToFor)] (tt ++ P ";" :: r))
  = Acc t (P ";" :: r).
Proof. intros []; reflexivity. Qed.
Lemma target_acc' t tt r : Gtarget t tt -> t <> ToSwitch ->
  default ToNone (tt ++ P ";" :: r) (one_of kw [(str "while", ToWhile); (str "for", ToFor)] (tt ++ P ";" :: r))
  = Acc t (P ";" :: r).
Proof. intros [] N; try reflexivity. congruence. Qed.
Lemma ref_acc b tr e te r : Gref b tr -> Gex e te -> accept_ref (tr ++ te ++ r) = (b, te ++ r).
Proof.
  intros G E. apply (gex_start _ _ r) in E. destruct G as [|t B].
  - destruct E as (t & q & -> & S). apply start_ref. assumption.
  - destruct B as [-> | ->]; reflexivity.
Qed.

(* ---- the induction ---- *)
Definition st_ok d a o s ts : Prop := plain_targets a -> forall n rest,
  (length ts < n)%nat -> ~ begins_with o rest -> stmt_at n d (flags a) (ts ++ rest) = Acc s rest.
Definition bl_ok a o b ts : Prop := plain_targets a -> forall n rest,
  (length ts < n)%nat -> ~ begins_with o rest -> bl_at n (flags a) (ts ++ rest) = Acc b rest.
Definition complete_ok a (o : list token) b ts o' : Prop := plain_targets a -> forall n rest,
  (length ts < n)%nat -> ~ begins_with o' rest ->
  default [] (ts ++ rest) (if_complete (bl_at n) (flags a) (ts ++ rest)) = Acc b rest /\
  ~ begins_with o (ts ++ rest).
Definition sts_ok a l ts : Prop := plain_targets a -> forall m n rest,
  (length ts < m)%nat -> (length ts < n)%nat -> stop rest ->
  statements (stmt_at m true) n (flags a) (ts ++ rest) = Acc l rest.
Definition clauses_ok a l ts : Prop := plain_targets a -> forall hd m n rest,
  (length ts < m)%nat -> (length ts < n)%nat ->
  (length (filter is_default (map fst l)) <= if hd : bool then 0 else 1)%nat ->
  clauses (stmt_at m true) n (flags a) hd (ts ++ P "}" :: rest) = Acc l (P "}" :: rest).

Ltac len := cbn [length] in *; repeat (rewrite app_length in *; cbn [length] in *); lia.
(* put the input in order and look at the first token *)
Ltac ordered := repeat (progress (rewrite <- ?app_assoc; cbn [app])).
Ltac skip :=
  match goal with
  | |- or_else ?r ?s = _ => change r with (@Rej stmt); change (or_else Rej s) with s
  end.
Ltac dispatch :=
  intros N n rest L B; destruct n as [|n]; [lia|]; rewrite stmt_at_S;
  match goal with |- (if ?d then _ else _) = _ => destruct d | _ => idtac end; cbv iota;
  [unfold any_statement|..]; unfold nondeclarative; ordered; repeat skip.
Ltac here f := try apply or_else_acc; unfold f.
Ltac w := cbn [bind need default].
Ltac k := rewrite kw_acc; w.
Ltac p := rewrite pu_acc; w.
Lemma plain_while a : plain_targets a -> plain_targets (ToWhile :: a).
Proof. intros; apply plain_cons; [assumption | discriminate]. Qed.
Lemma plain_for a : plain_targets a -> plain_targets (ToFor :: a).
Proof. intros; apply plain_cons; [assumption | discriminate]. Qed.
Lemma plain_switch a : plain_targets a -> plain_targets (ToSwitch :: a).
Proof. intros; apply plain_cons; [assumption | discriminate]. Qed.

Lemma if_ok d a neg tn c tc o b tb : Gneg neg tn -> Gval c tc -> Gbl a o b tb -> bl_ok a o b tb ->
  st_ok d a (K "else" :: o) (SIf neg c b []) (K "if" :: tn ++ P "(" :: tc ++ P ")" :: tb).
Proof.
  intros G1 G2 _ IH. dispatch; (here if_statement; k; rewrite (negation_acc _ _ _ G1); w;
    rewrite (condition_acc _ _ _ G2); w; apply not_begins_split in B as (B1 & B2);
    rewrite (IH N n rest) by (assumption || len); w; rewrite else_rej by assumption; reflexivity).
Qed.
Lemma if_else_ok d a neg tn c tc o b tb o' b' tb' : Gneg neg tn -> Gval c tc ->
  bl_ok a o b tb -> ~ In (K "else") o -> bl_ok a o' b' tb' ->
  st_ok d a o' (SIf neg c b b') (K "if" :: tn ++ P "(" :: tc ++ P ")" :: tb ++ K "else" :: tb').
Proof.
  intros G1 G2 IH E IH'.
  assert (B1 : forall r, ~ begins_with o (K "else" :: r)) by (intros r (x & q & Q & I); inversion Q; subst; auto).
  dispatch; (here if_statement; k; rewrite (negation_acc _ _ _ G1); w;
    rewrite (condition_acc _ _ _ G2); w;
    rewrite (IH N n (K "else" :: tb' ++ rest)) by (auto || len); w; k;
    rewrite (IH' N n rest) by (assumption || len); reflexivity).
Qed.
Lemma switch_ok d a c tc l tl : Gval c tc -> clauses_ok a l tl ->
  (length (filter is_default (map fst l)) <= 1)%nat ->
  st_ok d a [] (SSwitch c l) (K "switch" :: P "(" :: tc ++ P ")" :: P "{" :: tl ++ [P "}"]).
Proof.
  intros G IH C. dispatch; (here switch_statement; k; rewrite (condition_acc _ _ _ G); w; p;
    rewrite (IH N false n (S n) rest) by (assumption || len); w; p; reflexivity).
Qed.
Lemma do_ok d a o b tb neg tn c tc : Gbl (ToWhile :: a) o b tb -> bl_ok (ToWhile :: a) o b tb ->
  Gneg neg tn -> Gval c tc ->
  st_ok d a [] (SDo b neg c []) (K "do" :: tb ++ K "while" :: tn ++ P "(" :: tc ++ [P ")"; P ";"]).
Proof.
  intros G IH G1 G2. apply grammar_late in G.
  dispatch; (here do_statement; k;
    change (Z.lor (flags a) scope_while) with (flags (ToWhile :: a));
    rewrite (IH (plain_while _ N)) by (len || (apply late_no; [assumption | discriminate | discriminate]));
    w; k; rewrite (negation_acc _ _ _ G1); w; rewrite (condition_acc _ _ _ G2); w; reflexivity).
Qed.
Lemma do_complete_ok d a o b tb neg tn c tc o' b' tb' : Gbl (ToWhile :: a) o b tb ->
  bl_ok (ToWhile :: a) o b tb -> Gneg neg tn -> Gval c tc -> bl_ok a o' b' tb' ->
  st_ok d a o' (SDo b neg c b')
    (K "do" :: tb ++ K "while" :: tn ++ P "(" :: tc ++ P ")" :: K "__ifcomplete" :: tb').
Proof.
  intros G IH G1 G2 IH'. apply grammar_late in G.
  dispatch; (here do_statement; k;
    change (Z.lor (flags a) scope_while) with (flags (ToWhile :: a));
    rewrite (IH (plain_while _ N)) by (len || (apply late_no; [assumption | discriminate | discriminate]));
    w; k; rewrite (negation_acc _ _ _ G1); w; rewrite (condition_acc _ _ _ G2); w;
    unfold if_complete; k; rewrite (IH' N n rest) by (assumption || len); reflexivity).
Qed.
Lemma while_ok d a neg tn c tc o b tb o' b' tb' : Gneg neg tn -> Gval c tc ->
  bl_ok (ToWhile :: a) o b tb -> complete_ok a o b' tb' o' ->
  st_ok d a o' (SWhile neg c b b') (K "while" :: tn ++ P "(" :: tc ++ P ")" :: tb ++ tb').
Proof.
  intros G1 G2 IH IH'.
  dispatch; (here while_statement; k;
    change (Z.lor (flags a) scope_while) with (flags (ToWhile :: a));
    rewrite (negation_acc _ _ _ G1); w; rewrite (condition_acc _ _ _ G2); w;
    destruct (IH' N n rest) as (E & B'); [len | assumption|];
    rewrite (IH (plain_while _ N)) by (assumption || len); w; rewrite E; reflexivity).
Qed.
Lemma each_ok d a k x tx e te o b tb o' b' tb' :
  (k = [] /\ user_name x /\ tx = [TId x]) \/
  (user_name k /\ user_name x /\
   exists t, (t = P "," \/ t = P ":" \/ t = P "=") /\ tx = [TId k; t; TId x]) ->
  Gex e te -> bl_ok (ToFor :: a) o b tb -> complete_ok a o b' tb' o' ->
  st_ok d a o' (SEach k x e b b') (K "for" :: P "(" :: K "each" :: tx ++ P "->" :: te ++ P ")" :: tb ++ tb').
Proof.
  intros V G IH IH'.
  assert (X : forall r, exists y t, ident (tx ++ P "->" :: r) = Acc y t /\
    default ([], y) t (get u, ts <- one_of pu [(str ",", tt); (str ":", tt); (str "=", tt)] t;
                       get z, ts <- need (ident ts); Acc (y, z) ts) = Acc (k, x) (P "->" :: r)).
  { intros r. destruct V as [(-> & U & ->) | (U & U' & t & C & ->)].
    - exists x, (P "->" :: r). split; [apply ident_acc; assumption | reflexivity].
    - exists k, (t :: TId x :: P "->" :: r). split; [apply ident_acc; assumption|].
      assert (E : one_of pu [(str ",", tt); (str ":", tt); (str "=", tt)] (t :: TId x :: P "->" :: r)
                  = Acc tt (TId x :: P "->" :: r)) by (destruct C as [-> | [-> | ->]]; reflexivity).
      rewrite E. cbn [bind]. rewrite ident_acc by assumption. reflexivity. }
  dispatch; (here for_statement; rewrite kw_acc; w; p; unfold for_range; rewrite kw_acc; w;
    destruct (X (te ++ P ")" :: tb ++ tb' ++ rest)) as (y & t & -> & E1); w; rewrite E1; w; p;
    rewrite (parse_acc _ _ _ G) by closer; w; p;
    change (Z.lor (flags a) scope_for) with (flags (ToFor :: a));
    destruct (IH' N n rest) as (E & B'); [len | assumption|];
    rewrite (IH (plain_for _ N)) by (assumption || len); w; rewrite E; reflexivity).
Qed.
Lemma for_ok d a i ti c tc q tq o b tb o' b' tb' :
  Gfirst i ti -> optional Gval c tc -> optional Gex q tq ->
  bl_ok (ToFor :: a) o b tb -> complete_ok a o b' tb' o' ->
  st_ok d a o' (SFor [i] c q b b') (K "for" :: P "(" :: ti ++ tc ++ P ";" :: tq ++ P ")" :: tb ++ tb').
Proof.
  intros G1 G2 G3 IH IH'.
  assert (X : forall r, default [] (tc ++ P ";" :: r) (rvalue (tc ++ P ";" :: r)) = Acc c (P ";" :: r)).
  { intros r. destruct G2 as [(-> & ->) | G2]; [reflexivity|]. rewrite (rvalue_acc _ _ _ G2) by closer. reflexivity. }
  assert (Y : forall r, default [] (tq ++ P ")" :: r) (parse (tq ++ P ")" :: r)) = Acc q (P ")" :: r)).
  { intros r. destruct G3 as [(-> & ->) | G3]; [reflexivity|]. rewrite (parse_acc _ _ _ G3) by closer. reflexivity. }
  dispatch; (here for_statement; k; p; rewrite (first_range _ _ _ _ _ G1); cbn [or_else];
    unfold for_triplet; rewrite (first_acc _ _ (S n) _ G1) by len; w; rewrite X; w; p; rewrite Y; w; p;
    change (Z.lor (flags a) scope_for) with (flags (ToFor :: a));
    destruct (IH' N n rest) as (E & B'); [len | assumption|];
    rewrite (IH (plain_for _ N)) by (assumption || len); w; rewrite E; reflexivity).
Qed.
Lemma break_ok d a t tt : Gtarget t tt -> may_break a t ->
  st_ok d a [] (SBreak t) (K "break" :: tt ++ [P ";"]).
Proof.
  intros G M. dispatch; (here break_statement; k; rewrite (target_acc _ _ _ G); w;
    rewrite (proj2 (break_flag a t N) M); p; reflexivity).
Qed.
Lemma continue_ok d a t tt : Gtarget t tt -> may_continue a t ->
  st_ok d a [] (SContinue t) (K "continue" :: tt ++ [P ";"]).
Proof.
  intros G M. assert (T : t <> ToSwitch) by (intros ->; exact M).
  dispatch; (here continue_statement; k; rewrite (target_acc' _ _ _ G T); w;
    rewrite (proj2 (continue_flag a t N T) M); p; reflexivity).
Qed.
Lemma throw_ok d a e ts : Gval e ts -> st_ok d a [] (SThrow e) (K "throw" :: ts ++ [P ";"]).
Proof.
  intros G. dispatch; (here throw_statement; k; rewrite (rvalue_acc _ _ _ G) by closer; w; p; reflexivity).
Qed.
Lemma return_ok d a : st_ok d a [] (SReturn false []) [K "return"; P ";"].
Proof. dispatch; reflexivity. Qed.
Lemma return_value_ok d a r tr e ts : Gref r tr -> Gex e ts ->
  st_ok d a [] (SReturn r e) (K "return" :: tr ++ ts ++ [P ";"]).
Proof.
  intros G1 G2. dispatch; (here return_statement; k; rewrite (ref_acc _ _ _ _ _ G1 G2);
    rewrite (parse_acc _ _ _ G2) by closer; destruct r; w; p; reflexivity).
Qed.
Lemma assert_ok d a e ts m tm : Gval e ts ->
  (m = str "[no message]" /\ tm = []) \/ tm = [P ":"; TStr m] ->
  st_ok d a [] (SAssert e m) (K "assert" :: ts ++ tm ++ [P ";"]).
Proof.
  intros G M. dispatch; (here assert_statement; k; destruct M as [(-> & ->) | ->]; cbn [app];
    rewrite (rvalue_acc _ _ _ G) by closer; reflexivity).
Qed.
Lemma try_ok d a o b tb x o' h th : Gbl a o b tb -> bl_ok a o b tb -> user_name x -> bl_ok a o' h th ->
  st_ok d a o' (STry b x h) (K "try" :: tb ++ K "catch" :: P "(" :: TId x :: P ")" :: th).
Proof.
  intros G IH U IH'. apply grammar_late in G.
  dispatch; (here try_statement; k;
    rewrite (IH N) by (len || (apply late_no; [assumption | discriminate | discriminate])); w; k; p;
    rewrite ident_acc by assumption; w; p; rewrite (IH' N n rest) by (assumption || len); reflexivity).
Qed.
Lemma stop_brace r : stop (P "}" :: r).
Proof. right. eexists _, _. split; [reflexivity | left; reflexivity]. Qed.
Lemma block_ok d a b tb : sts_ok a b tb -> st_ok d a [] (SBlock b) (P "{" :: tb ++ [P "}"]).
Proof.
  intros IH. dispatch; (here statement_block; p;
    rewrite (IH N) by (len || apply stop_brace); w; p; reflexivity).
Qed.
Lemma expr_ok d a e ts : Gex e ts -> ~ block_or_function d ts -> st_ok d a [] (SExpr e) (ts ++ [P ";"]).
Proof.
  intros G X N n rest L B. destruct n as [|n]; [lia|]. rewrite stmt_at_S. ordered.
  pose proof (gex_start _ _ (P ";" :: rest) G) as H.
  assert (T : exists t q, ts = t :: q)
    by (destruct G as (x & G & _); destruct (exp_head _ _ _ G) as (t & q & E & _); eauto).
  destruct T as (t & q & E).
  assert (A1 : forall r, ts ++ P ";" :: rest <> P "{" :: r).
  { intros r Q. subst ts. inversion Q. subst. apply X. eexists _, _. split; [reflexivity | auto]. }
  assert (A2 : nondeclarative (stmt_at n true) (bl_at n) (S n) (flags a) (ts ++ P ";" :: rest) = Acc (SExpr e) rest).
  { rewrite start_nondeclarative by assumption. apply expression_acc. assumption. }
  destruct d; [|assumption]. rewrite start_any; [assumption | assumption|].
  intros i r Q. subst ts. inversion Q. subst. apply X. eexists _, _. split; [reflexivity | eauto].
Qed.
Lemma def_ok a s ts : Gdefinition s ts -> st_ok true a [] s ts.
Proof.
  intros G N n rest L B. destruct n as [|n]; [lia|]. rewrite stmt_at_S. cbv iota.
  eapply (definition_acc s ts (S n)); [assumption | len].
Qed.
Lemma func_ok a x ps tp b tb : user_name x -> Gparams ps tp -> sts_ok [] b tb ->
  st_ok true a [] (SFunc x ps (b ++ [SReturn true []]))
    (K "func" :: TId x :: P "(" :: tp ++ P ")" :: P "{" :: tb ++ [P "}"]).
Proof.
  intros U G IH. dispatch. here function_definition. cbv beta iota.
  change (match ?t with TFunc _ :: _ => Err | _ => ?q end) with q. k.
  rewrite ident_acc by assumption. w. p. rewrite (params_acc _ _ G) by len. w. p. p.
  change scope_plain with (flags []). rewrite IH by (len || apply stop_brace || intros []). w. p. reflexivity.
Qed.
Lemma defer_ok a e ts : Gex e ts -> st_ok true a [] (SDefer e) (K "defer" :: ts ++ [P ";"]).
Proof.
  intros G. dispatch. here defer_statement. k. rewrite (parse_acc _ _ _ G) by closer. w. p. reflexivity.
Qed.
Lemma null_ok a : st_ok true a [] (SBlock []) [P ";"].
Proof. dispatch. reflexivity. Qed.

Lemma grammar_ok :
  (forall d a o s ts, Gst d a o s ts -> st_ok d a o s ts) /\
  (forall a o b ts, Gbl a o b ts -> bl_ok a o b ts) /\
  (forall a o b ts o', Gcomplete a o b ts o' -> complete_ok a o b ts o') /\
  (forall a l ts, Gsts a l ts -> sts_ok a l ts) /\
  (forall a l ts, Gclauses a l ts -> clauses_ok a l ts).
Proof.
  apply grammar_ind; intros.
  - apply def_ok; assumption.
  - apply func_ok; assumption.
  - apply defer_ok; assumption.
  - apply null_ok.
  - eapply if_ok; eassumption.
  - eapply if_else_ok; eassumption.
  - eapply switch_ok; eassumption.
  - eapply do_ok; eassumption.
  - eapply do_complete_ok; eassumption.
  - eapply while_ok; eassumption.
  - eapply each_ok; eassumption.
  - eapply for_ok; eassumption.
  - eapply break_ok; eassumption.
  - eapply continue_ok; eassumption.
  - eapply throw_ok; eassumption.
  - eapply return_ok; eassumption.
  - eapply return_value_ok; eassumption.
  - eapply assert_ok; eassumption.
  - eapply try_ok; eassumption.
  - eapply block_ok; eassumption.
  - eapply expr_ok; eassumption.
  - intros N n rest L B. unfold bl_at. rewrite (H0 N) by assumption. reflexivity.
  - intros N n rest L B. apply not_begins_split in B as (B1 & B2). cbn [app].
    rewrite complete_rej by assumption. split; [reflexivity | assumption].
  - intros N n rest L B. cbn [app]. split.
    + unfold if_complete. rewrite kw_acc. cbn [bind]. rewrite (H1 N) by (assumption || len). reflexivity.
    + intros (x & q & Q & I). inversion Q. subst. auto.
  - intros N m n rest L1 L2 S. destruct n as [|n]; [lia|]. destruct m as [|m]; [lia|]. cbn [statements app].
    rewrite stop_rej by assumption. reflexivity.
  - intros N m n rest L1 L2 S. destruct n as [|n]; [lia|]. cbn [statements]. rewrite <- app_assoc.
    pose proof (st_head _ _ _ _ _ H) as (t & r & E & _).
    rewrite app_length in *. assert (0 < length ts)%nat by (subst ts; cbn; lia).
    rewrite (H0 N); [|lia|].
    + rewrite (H2 N) by (assumption || lia). reflexivity.
    + eapply sts_late; [|eassumption | assumption]. apply grammar_late in H. assumption.
  - intros N hd m n rest L1 L2 C. destruct n as [|n]; [lia|]. reflexivity.
  - intros N hd m n rest L1 L2 C. destruct n as [|n]; [lia|]. rewrite app_length in *. cbn [length] in *.
    rewrite app_length in *.
    assert (T : stop (tl ++ P "}" :: rest)) by (eapply clauses_stop; eassumption).
    assert (S1 : statements (stmt_at m true) (S n) (flags (ToSwitch :: a)) (tb ++ tl ++ P "}" :: rest)
                 = Acc b (tl ++ P "}" :: rest)).
    { apply H1; [apply plain_switch; assumption | lia | lia | assumption]. }
    assert (K1 : is_default k && hd = false).
    { cbn in C. destruct (is_default k), hd; cbn in *; try reflexivity; lia. }
    assert (S2 : clauses (stmt_at m true) n (flags a) (hd || is_default k) (tl ++ P "}" :: rest)
                 = Acc l (P "}" :: rest)).
    { apply H3; [assumption | destruct H; cbn in *; lia | destruct H; cbn in *; lia |].
      cbn in C. destruct (is_default k), hd; cbn in *; lia. }
    ordered. destruct H; cbn [app clauses one_of].
    + rewrite kw_acc. cbn [bind or_else]. cbn [is_default andb] in K1. cbn [is_default andb]. rewrite K1.
      cbn [one_label bind]. rewrite pu_acc. cbn [need bind].
      change (Z.lor (flags a) scope_switch) with (flags (ToSwitch :: a)). rewrite S1. cbn [bind].
      rewrite K1 in S2. rewrite S2. reflexivity.
    + change (kw (str "default") _) with (@Rej unit). cbn [bind or_else]. rewrite kw_acc. cbn [bind or_else].
      cbn [is_default andb one_label]. rewrite (rvalue_acc _ _ _ H) by closer. cbn [need bind]. rewrite pu_acc.
      cbn [need bind].
      change (Z.lor (flags a) scope_switch) with (flags (ToSwitch :: a)). rewrite S1. cbn [bind].
      rewrite S2. reflexivity.
    + change (kw (str "default") _) with (@Rej unit). change (kw (str "case") _) with (@Rej unit).
      cbn [bind or_else]. rewrite kw_acc. cbn [bind or_else].
      cbn [is_default andb one_label].
      assert (Q : forall r, one_of pu [(str "(", false); (str "[", true)] ((if lc then P "[" else P "(") :: r) = Acc lc r)
        by (intros; destruct lc; reflexivity).
      assert (Q' : forall r, one_of pu [(str ")", false); (str "]", true)] ((if uc then P "]" else P ")") :: r) = Acc uc r)
        by (intros; destruct uc; reflexivity).
      rewrite Q. cbn [need bind]. ordered. rewrite (rvalue_acc _ _ _ H) by closer. cbn [need bind]. rewrite pu_acc.
      cbn [need bind]. rewrite (rvalue_acc _ _ _ H4) by (destruct uc; closer). cbn [need bind]. rewrite Q'.
      cbn [need bind]. rewrite pu_acc. cbn [need bind].
      change (Z.lor (flags a) scope_switch) with (flags (ToSwitch :: a)). rewrite S1. cbn [bind].
      rewrite S2. reflexivity.
Qed.
