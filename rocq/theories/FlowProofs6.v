(* Deferred expressions as a list, and the depth of tail calls. *)
From Verif Require Import Base FlowModel FlowSpec FlowProofs1 FlowProofs2 FlowProofs3.
From Coq Require Import Lia.

Section Proofs.

Context {W E R V X A F It : Type}.
Notation ops := (@ops W E R V X A F It).
Notation expr := (@expr W E R X A F).
Notation stmt := (@stmt W E R X A F It).
Notation label := (@label W E R X A F).
Notation result := (@result R).
Notation node := (@node W E R X A F It).
Notation out := (@out R X).
Notation mst := (@mst W E R X A F It).
Notation ctx := (@ctx W E R X A F It).
Notation res := (@res W E R X A F It).
Notation ref := (@ref W E R X A F It).
Notation ptc := (@ptc W E R X A F It).
Notation job := (@job W E R V X A F It).
Notation clause := (@clause W E R X A F It).

Variable body : F -> list stmt.
Variable o : ops.
Notation unwind := (@unwind W E R V X A F It o body).
Notation evaluated := (@evaluated W E R V X A F It o body).
Notation scope := (@scope W E R V X A F It o body).
Notation stmts := (@stmts W E R V X A F It o body).

(* ---- deferred expressions ---- *)
Lemma last_map : forall (x : X) xs (r : out), last (map (@OThrow R X) (x :: xs)) r = last (map (@OThrow R X) xs) (OThrow x).
Proof.
  intros x xs. revert x. induction xs as [|y xs IH]; intros x r; [reflexivity|].
  change (last (map OThrow (x :: y :: xs)) r) with (last (map (@OThrow R X) (y :: xs)) r).
  rewrite !IH. reflexivity.
Qed.
Lemma unwind_evaluated : forall ds r w w' r', unwind ds r w w' r' <->
  exists xs, evaluated ds w w' xs /\ r' = last (map (@OThrow R X) xs) r.
Proof.
  induction ds as [|[e x] ds IH]; intros r w w' r'; split.
  - intros H. inversion H; subst. exists []. split; [apply each_nil|reflexivity].
  - intros [xs [H ->]]. inversion H; subst. apply un_nil.
  - intros H. inversion H; subst.
    + match goal with U : unwind ds _ _ _ _ |- _ => apply IH in U; destruct U as [xs [Hx ->]] end.
      exists xs. split; [eapply each_ok; eassumption|reflexivity].
    + match goal with U : unwind ds _ _ _ _ |- _ => apply IH in U; destruct U as [xs [Hx ->]] end.
      exists (y :: xs). split; [eapply each_throw; eassumption|rewrite last_map; reflexivity].
  - intros [xs [H ->]]. inversion H; subst.
    + eapply un_ok; [eassumption|]. apply IH. eauto.
    + eapply un_throw; [eassumption|]. apply IH. exists xs0. split; [assumption|apply last_map].
Qed.
Lemma scope_evaluated : forall e l w w' r, scope e l w w' r <->
  exists e' ds w1 r0 xs, stmts e [] l w e' ds w1 r0 /\ evaluated ds w1 w' xs
    /\ r = last (map (@OThrow R X) xs) r0.
Proof.
  intros e l w w' r. split.
  - intros H. inversion H; subst.
    match goal with U : unwind _ _ _ _ _ |- _ => apply unwind_evaluated in U; destruct U as [xs [Hx ->]] end.
    eexists _, _, _, _, xs. split; [eassumption|]. auto.
  - intros [e' [ds [w1 [r0 [xs [H1 [H2 ->]]]]]]]. eapply sc; [eassumption|].
    apply unwind_evaluated. eauto.
Qed.

(* ---- depth ---- *)
Inductive okn : bool -> node -> Prop :=
  | on_clear b : okn b NClear
  | on_expr b p e : quiet e -> okn b (NExpr p e)
  | on_tail p e : p <> ptc_none -> last_call e -> okn true (NExpr p e)
  | on_declare b d : okn b (NDeclare d)
  | on_init b i : okn b (NInit i)
  | on_block b l : Forall (okn b) l -> okn b (NBlock l)
  | on_if b neg t f : Forall (okn b) t -> Forall (okn b) f -> okn b (NIf neg t f)
  | on_switch b cl :
      Forall (fun c => Forall (okn false) (snd (fst (fst c))) /\ Forall (okn b) (snd c)) cl ->
      okn b (NSwitch cl)
  | on_do b x neg cn c :
      Forall (okn b) x -> Forall (okn false) cn -> Forall (okn b) c -> okn b (NDoWhile x neg cn c)
  | on_while b x neg cn c :
      Forall (okn b) x -> Forall (okn false) cn -> Forall (okn b) c -> okn b (NWhile neg cn x c)
  | on_each b nm i st it x c :
      Forall (okn false) i -> Forall (okn b) x -> Forall (okn b) c -> okn b (NForEach nm i st it x c)
  | on_for b i cn sp x c :
      Forall (okn b) i -> Forall (okn false) cn -> Forall (okn false) sp ->
      Forall (okn b) x -> Forall (okn b) c -> okn b (NFor i cn sp x c)
  | on_try b t k c : Forall (okn false) t -> Forall (okn b) c -> okn b (NTry t k c)
  | on_status b s : okn b (NStatus s)
  | on_throw b : okn b NThrow
  | on_return b x y : okn b (NReturn x y)
  | on_assert b x : okn b (NAssert x)
  | on_defer b l : Forall (okn false) l -> okn b (NDefer l).

Notation run := (@run W E R V X A F It true body o).
Hypothesis Hcode : forall f, Forall (okn true) (code_of true body f).

Definition nop (r : ref) : Prop := match r with RPtc _ => False | _ => True end.
Definition calm (d : E * list node) : Prop := Forall (okn false) (snd d).
Definition good (c : ctx) : Prop := Forall calm (dfr c).
Definition gp (p : ptc) : Prop := Forall calm (p_defer p).
Definition noptc (m : mst) : Prop := Forall nop (stk m).
Definition pend (b : bool) (m : mst) : Prop :=
  b = true /\ stat m = st_return /\ exists p s, stk m = RPtc p :: s /\ gp p /\ Forall nop s.

Section Level.
Variables d k : nat.
Definition lev (m : mst) : Prop := depth m = d /\ peak m = k.
Definition inv (m : mst) : Prop := lev m /\ noptc m.
Definition Post (b : bool) (z : res) : Prop :=
  match z with
  | Go c m => good c /\ lev m /\ (noptc m \/ pend b m)
  | Exn _ c m => good c /\ inv m
  | _ => True
  end.
Definition clause_ok (b : bool) (c : clause) : Prop :=
  Forall (okn false) (snd (fst (fst c))) /\ Forall (okn b) (snd c).

Record quiets (n : nat) : Prop := {
  q_rod : forall b cd c m, Forall (okn b) cd -> good c -> inv m -> Post b (run n (JRod cd c) m);
  q_seq : forall b cd c m, Forall (okn b) cd -> good c -> inv m -> Post b (run n (JSeq cd c) m);
  q_node : forall b x c m, okn b x -> good c -> inv m -> Post b (run n (JNode x c) m);
  q_expr : forall p e c m, quiet e -> good c -> inv m -> Post false (run n (JExpr p e c) m);
  q_tail : forall p e c m, p <> ptc_none -> last_call e -> good c -> inv m -> Post true (run n (JExpr p e c) m);
  q_block : forall b cd c m, Forall (okn b) cd -> good c -> inv m -> Post b (run n (JBlock cd c) m);
  q_exit : forall b c m, good c -> lev m -> (noptc m \/ pend b m) -> Post b (run n (JExit c) m);
  q_loop : forall c saved s m, good c -> inv m -> match saved with Some r => nop r | None => True end ->
      Post false (run n (JExitLoop c saved s) m);
  q_exn : forall x c m, good c -> inv m -> Post false (run n (JExitExn x c) m);
  q_find : forall b v i f rest cl c m, Forall (clause_ok b) rest -> Forall (clause_ok b) cl ->
      good c -> inv m -> Post b (run n (JFind v i f rest cl c) m);
  q_clauses : forall b i cl c m, Forall (clause_ok b) cl -> good c -> inv m ->
      Post b (run n (JClauses i cl c) m);
  q_do : forall b x neg cn co c m, Forall (okn b) x -> Forall (okn false) cn -> Forall (okn b) co ->
      good c -> inv m -> Post b (run n (JDoWhile x neg cn co c) m);
  q_while : forall b x neg cn co c m, Forall (okn b) x -> Forall (okn false) cn -> Forall (okn b) co ->
      good c -> inv m -> Post b (run n (JWhile neg cn x co c) m);
  q_each : forall b l item x co outer c m, Forall (okn b) x -> Forall (okn b) co ->
      good outer -> good c -> inv m -> Post b (run n (JForEach l item x co outer c) m);
  q_for : forall b cn sp x co outer c m, Forall (okn false) cn -> Forall (okn false) sp ->
      Forall (okn b) x -> Forall (okn b) co -> good outer -> good c -> inv m ->
      Post b (run n (JFor cn sp x co outer c) m)
}.

Lemma Post_weaken : forall b z, Post false z -> Post b z.
Proof.
  intros b [c m|x c m| |] H; simpl in *; auto.
  destruct H as [H1 [H2 [H3|[H3 _]]]]; [auto|discriminate].
Qed.
(* code that cannot leave a tail call *)
Lemma seq_false : forall b z c f, Post false z -> good c -> (forall m, inv m -> Post b (f m)) ->
  Post b (seq z c f).
Proof.
  intros b [c' m|x c' m| |] c f H Hc Hf; simpl in *; auto.
  - destruct H as [H1 [H2 [H3|[H3 _]]]]; [|discriminate]. apply Hf. split; assumption.
  - destruct H. auto.
Qed.
Lemma seq_next_false : forall b z c f, Post false z -> good c -> (forall m, inv m -> Post b (f m)) ->
  Post b (seq_next z c f).
Proof.
  intros b z c f H Hc Hf. apply seq_false; try assumption. intros m Hm.
  destruct (is_next (stat m)); [auto|exact I].
Qed.
(* code after which the context is restored *)
Lemma seq_end : forall b z c, Post b z -> good c -> Post b (seq z c (Go c)).
Proof.
  intros b [c' m|x c' m| |] c H Hc; simpl in *; auto.
  - destruct H as [_ H]. auto.
  - destruct H. auto.
Qed.
Lemma leave_q : forall n b c z, quiets n -> Post b z -> good c ->
  Post b (match z with
          | Go c' m' => seq (run n (JExit c') m') c (Go c)
          | Exn x c' m' => seq (run n (JExitExn x c') m') c (Go c)
          | r => r
          end).
Proof.
  intros n b c [c' m|x c' m| |] Hn H Hc; simpl in H; try exact I.
  - destruct H as [H1 [H2 H3]]. apply seq_end; [|assumption]. apply (q_exit _ Hn); assumption.
  - destruct H as [H1 H2]. apply seq_end; [|assumption]. apply Post_weaken. apply (q_exn _ Hn); assumption.
Qed.
Lemma deref_q : forall b m c r f, inv m -> good c -> (forall v, Post b (f v)) -> Post b (deref o m c r f).
Proof.
  intros b m c [| |r|p] f Hm Hc Hf; simpl; try exact I.
  - split; assumption.
  - destruct (value o (world m) r); [apply Hf|split; assumption].
Qed.
Lemma top_q : forall b m c f, inv m -> good c -> (forall v, Post b (f v)) -> Post b (with_top o m c f).
Proof.
  intros b m c f Hm Hc Hf. unfold with_top. destruct (stk m); [exact I|]. apply deref_q; assumption.
Qed.
Lemma after_q : forall b k0 c z f, Post b z -> good c -> (forall m, inv m -> Post b (f m)) ->
  Post b (seq z c (fun m => after_body k0 c m f)).
Proof.
  intros b k0 c [c' m|x c' m| |] f H Hc Hf; simpl in *; auto.
  - destruct H as [H1 [H2 H3]]. unfold after_body.
    destruct (is_continue k0 (stat m)) eqn:Ec.
    + destruct H3 as [H3|[_ [H3 _]]]; [|rewrite H3 in Ec; discriminate].
      apply Hf. split; [exact H2|exact H3].
    + destruct (is_next (stat m)) eqn:En.
      * destruct H3 as [H3|[_ [H3 _]]]; [|rewrite H3 in En; discriminate].
        apply Hf. split; [exact H2|exact H3].
      * destruct (is_break k0 (stat m)) eqn:Eb.
        -- destruct H3 as [H3|[_ [H3 _]]]; [|rewrite H3 in Eb; discriminate].
           simpl. split; [assumption|]. split; [exact H2|left; exact H3].
        -- simpl. auto.
  - destruct H. auto.
Qed.
Lemma good_nil : forall e, good (mk_ctx e []).
Proof. intros e. apply Forall_nil. Qed.
Lemma good_names : forall c e, good c -> good (mk_ctx e (dfr c)).
Proof. intros c e H. exact H. Qed.
Lemma inv_stat : forall m s, inv m -> inv (set_stat m s).
Proof. intros m s H. exact H. Qed.
Lemma inv_world : forall m w, inv m -> inv (set_world m w).
Proof. intros m w H. exact H. Qed.
Lemma inv_push : forall m r, inv m -> nop r -> inv (push m r).
Proof. intros m r [H1 H2] Hr. split; [exact H1|apply Forall_cons; assumption]. Qed.
Lemma inv_clear : forall m, inv m -> inv (set_stk m []).
Proof. intros m [H1 H2]. split; [exact H1|apply Forall_nil]. Qed.
Lemma inv_pop : forall m r s, inv m -> stk m = r :: s -> nop r /\ Forall nop s.
Proof. intros m r s [H1 H2] Hs. unfold noptc in H2. rewrite Hs in H2. inversion H2; subst; auto. Qed.
Lemma Post_go : forall b c m, good c -> inv m -> Post b (Go c m).
Proof. intros b c m Hc [H1 H2]. simpl. auto. Qed.

Lemma quiets_ok : forall n, quiets n.
Proof.
  induction n as [|n IH]; [split; intros; exact I|]. split.
  - (* rod *) intros b cd c m Hcd Hc Hm. cbn [FlowModel.run]. apply (q_seq _ IH); auto.
  - (* seq *)
    intros b cd c m Hcd Hc Hm. destruct cd as [|x cd]; cbn [FlowModel.run].
    + apply Post_go; assumption.
    + inversion Hcd as [|? ? Hx Hcd']; subst.
      pose proof (q_node _ IH b x c m Hx Hc Hm) as Hq.
      destruct (run n (JNode x c) m) as [c' m'|y c' m'| |]; simpl in Hq; auto.
      destruct Hq as [Hc' [Hl Hp]]. destruct (is_next (stat m')) eqn:En; [|simpl; auto].
      destruct Hp as [Hp|[_ [Hp _]]]; [|rewrite Hp in En; discriminate].
      apply (q_seq _ IH); try assumption. split; assumption.
  - (* node *)
    intros b x c m Hx Hc Hm. destruct Hx; cbn [FlowModel.run].
    + apply Post_go; [assumption|apply inv_clear; assumption].
    + apply Post_weaken. apply (q_expr _ IH); assumption.
    + apply (q_tail _ IH); assumption.
    + destruct (d0 (names c) (world m)) as [w e]. apply Post_go; assumption.
    + destruct (stk m) as [|[| |r|p] s] eqn:Es; try exact I.
      * destruct (inv_pop _ _ _ Hm Es) as [_ Hs]. destruct (i Void (names c) (world m)) as [w [e|y]].
        -- apply Post_go; [assumption|]. destruct Hm as [Hm _]. split; [exact Hm|exact Hs].
        -- split; assumption.
      * destruct (inv_pop _ _ _ Hm Es) as [_ Hs]. destruct (i (Val r) (names c) (world m)) as [w [e|y]].
        -- apply Post_go; [assumption|]. destruct Hm as [Hm _]. split; [exact Hm|exact Hs].
        -- split; assumption.
    + apply (q_block _ IH); assumption.
    + apply top_q; try assumption. intros v. destruct (xorb (test o v) neg); apply (q_block _ IH); assumption.
    + apply top_q; try assumption. intros v. apply (q_find _ IH); assumption.
    + apply (q_do _ IH); assumption.
    + apply (q_while _ IH); assumption.
    + (* for each *)
      apply leave_q; [assumption| |assumption].
      apply seq_next_false; [apply (q_rod _ IH); [assumption|apply good_nil|assumption]|apply good_nil|].
      intros m1 Hm1. destruct (stk m1) as [|[| |r|p] s] eqn:Es; try exact I.
      * simpl. split; [apply good_nil|assumption].
      * destruct (inv_pop _ _ _ Hm1 Es) as [_ Hs].
        assert (Hm2 : inv (set_stk m1 (RBad :: s))).
        { destruct Hm1 as [Hm1 _]. split; [exact Hm1|apply Forall_cons; [exact I|assumption]]. }
        apply deref_q; [assumption|apply good_nil|]. intros v.
        destruct (range o v) as [[l|]|y].
        -- apply (q_each _ IH); try assumption. apply good_nil.
        -- apply Post_go; [apply good_nil|assumption].
        -- split; [apply good_nil|assumption].
    + (* for *)
      apply leave_q; [assumption| |assumption].
      match goal with Hi : Forall (okn b) i |- _ => pose proof (q_rod _ IH b i (mk_ctx (names c) []) m Hi (good_nil _) Hm) as Hq end.
      destruct (run n (JRod i (mk_ctx (names c) [])) m) as [c' m'|y c' m'| |]; try exact Hq.
      destruct Hq as [Hc' [Hl Hp]]. destruct (is_next (stat m')) eqn:En; [|exact I].
      destruct Hp as [Hp|[_ [Hp _]]]; [|rewrite Hp in En; discriminate].
      apply (q_for _ IH); try assumption. split; assumption.
    + (* try *)
      match goal with Ht : Forall (okn false) t |- _ => pose proof (q_block _ IH false t c m Ht Hc Hm) as Hq end.
      destruct (run n (JBlock t c) m) as [c' m'|y c' m'| |]; cbn [seq]; try exact I.
      * destruct Hq as [Hc' [Hl [Hp|[Hp _]]]]; [|discriminate].
        destruct (stat m') eqn:Es; try (apply Post_go; [assumption|split; assumption]).
        destruct (stk m') as [|[| |r|p] s] eqn:Ek; try (apply Post_go; [assumption|split; assumption]).
        unfold noptc in Hp. rewrite Ek in Hp. inversion Hp; subst. contradiction.
      * destruct Hq as [Hc' Hi]. destruct (k0 y (names c) (world m')) as [w e].
        apply leave_q; [assumption| |assumption].
        apply (q_rod _ IH); [assumption|apply good_nil|assumption].
    + apply Post_go; [assumption|apply inv_stat; assumption].
    + apply top_q; try assumption. intros v. split; assumption.
    + (* return *)
      destruct y; [apply Post_go; [assumption|apply inv_stat; assumption]|].
      destruct (stk m) as [|[| |r|p] s] eqn:Es; try exact I.
      * apply Post_go; [assumption|apply inv_stat; assumption].
      * apply deref_q; try assumption. intros v. destruct x.
        -- apply Post_go; [assumption|apply inv_stat; assumption].
        -- apply Post_go; [assumption|]. destruct (inv_pop _ _ _ Hm Es) as [_ Hs]. destruct Hm as [Hm _].
           split; [exact Hm|apply Forall_cons; [exact I|assumption]].
    + apply top_q; try assumption. intros v. destruct (test o v); [apply Post_go; assumption|split; assumption].
    + apply Post_go; [|assumption]. apply Forall_cons; assumption.
  - (* expr *)
    intros p e c m He Hc Hm. destruct He as [a|e k1 He Hk|e k1 He Hk]; cbn [FlowModel.run].
    + destruct (a (names c) (world m)) as [w [r|y]].
      * apply Post_go; [assumption|]. apply inv_push; [assumption|exact I].
      * split; assumption.
    + apply seq_next_false; [apply (q_expr _ IH); assumption|assumption|].
      intros m1 Hm1. destruct (stk m1) as [|[| |r|p1] s] eqn:Es; try exact I.
      * destruct (inv_pop _ _ _ Hm1 Es) as [_ Hs]. apply (q_expr _ IH); auto.
        destruct Hm1 as [Hm1 _]. split; [exact Hm1|exact Hs].
      * destruct (inv_pop _ _ _ Hm1 Es) as [_ Hs]. apply (q_expr _ IH); auto.
        destruct Hm1 as [Hm1 _]. split; [exact Hm1|exact Hs].
    + pose proof (q_expr _ IH ptc_none e c (set_stk m []) He Hc (inv_clear _ Hm)) as Hq.
      destruct (run n (JExpr ptc_none e c) (set_stk m [])) as [c' m'|y c' m'| |]; try exact I.
      * destruct Hq as [Hc' [Hl _]]. apply (q_expr _ IH); auto. destruct Hm as [_ Hm]. split; [exact Hl|exact Hm].
      * destruct Hq as [Hc' [Hl _]]. apply (q_expr _ IH); auto. destruct Hm as [_ Hm]. split; [exact Hl|exact Hm].
  - (* tail *)
    intros p e c m Hp He Hc Hm. destruct He as [e He|pr|e k1 He Hk|e k1 He Hk].
    + assert (Hq : quiets (S n) -> Post true (run (S n) (JExpr p e c) m)).
      { intros Hq. apply Post_weaken. apply (q_expr _ Hq); assumption. }
      (* the case above, again *)
      clear Hq. apply Post_weaken.
      destruct He as [a|e k1 He Hk|e k1 He Hk]; cbn [FlowModel.run].
      * destruct (a (names c) (world m)) as [w [r|y]].
        -- apply Post_go; [assumption|]. apply inv_push; [assumption|exact I].
        -- split; assumption.
      * apply seq_next_false; [apply (q_expr _ IH); assumption|assumption|].
        intros m1 Hm1. destruct (stk m1) as [|[| |r|p1] s] eqn:Es; try exact I.
        -- destruct (inv_pop _ _ _ Hm1 Es) as [_ Hs]. apply (q_expr _ IH); auto.
           destruct Hm1 as [Hm1 _]. split; [exact Hm1|exact Hs].
        -- destruct (inv_pop _ _ _ Hm1 Es) as [_ Hs]. apply (q_expr _ IH); auto.
           destruct Hm1 as [Hm1 _]. split; [exact Hm1|exact Hs].
      * pose proof (q_expr _ IH ptc_none e c (set_stk m []) He Hc (inv_clear _ Hm)) as Hq.
        destruct (run n (JExpr ptc_none e c) (set_stk m [])) as [c' m'|y c' m'| |]; try exact I.
        -- destruct Hq as [Hc' [Hl _]]. apply (q_expr _ IH); auto. destruct Hm as [_ Hm]. split; [exact Hl|exact Hm].
        -- destruct Hq as [Hc' [Hl _]]. apply (q_expr _ IH); auto. destruct Hm as [_ Hm]. split; [exact Hl|exact Hm].
    + cbn [FlowModel.run]. destruct (pr (names c) (world m)) as [w [[f a]|y]]; [|split; assumption].
      destruct p; [congruence| | |]; (split; [assumption|]; destruct Hm as [Hl Hm]; split; [exact Hl|right];
        split; [reflexivity|]; split; [reflexivity|]; eexists _, (stk m); split; [reflexivity|];
        split; [apply Forall_nil|exact Hm]).
    + cbn [FlowModel.run]. apply seq_next_false; [apply (q_expr _ IH); assumption|assumption|].
      intros m1 Hm1. destruct (stk m1) as [|[| |r|p1] s] eqn:Es; try exact I.
      * destruct (inv_pop _ _ _ Hm1 Es) as [_ Hs]. apply (q_tail _ IH); auto.
        destruct Hm1 as [Hm1 _]. split; [exact Hm1|exact Hs].
      * destruct (inv_pop _ _ _ Hm1 Es) as [_ Hs]. apply (q_tail _ IH); auto.
        destruct Hm1 as [Hm1 _]. split; [exact Hm1|exact Hs].
    + cbn [FlowModel.run]. pose proof (q_expr _ IH ptc_none e c (set_stk m []) He Hc (inv_clear _ Hm)) as Hq.
      destruct (run n (JExpr ptc_none e c) (set_stk m [])) as [c' m'|y c' m'| |]; try exact I.
      * destruct Hq as [Hc' [Hl _]]. apply (q_tail _ IH); auto. destruct Hm as [_ Hm]. split; [exact Hl|exact Hm].
      * destruct Hq as [Hc' [Hl _]]. apply (q_tail _ IH); auto. destruct Hm as [_ Hm]. split; [exact Hl|exact Hm].
  - (* block *)
    intros b cd c m Hcd Hc Hm. cbn [FlowModel.run]. apply leave_q; [assumption| |assumption].
    apply (q_rod _ IH); [assumption|apply good_nil|assumption].
  - (* exit *)
    intros b c m Hc Hl Hp. cbn [FlowModel.run]. destruct (dfr c) as [|d0 ds] eqn:Ed.
    + simpl. auto.
    + destruct Hp as [Hp|Hp].
      * assert (Hl0 : forall s, Post b (run n (JExitLoop c None s) m)).
        { intros s. apply Post_weaken. apply (q_loop _ IH); auto. split; assumption. }
        destruct (stat m); try apply Hl0.
        destruct (stk m) as [|[| |r|p] s] eqn:Es; try exact I.
        -- apply Post_weaken. apply (q_loop _ IH); [assumption| |exact I]. split; [exact Hl|].
           unfold noptc in Hp. rewrite Es in Hp. inversion Hp; subst. apply Forall_cons; [exact I|assumption].
        -- apply Post_weaken. apply (q_loop _ IH); [assumption| |exact I]. split; [exact Hl|].
           unfold noptc in Hp. rewrite Es in Hp. inversion Hp; subst. apply Forall_cons; [exact I|assumption].
        -- unfold noptc in Hp. rewrite Es in Hp. inversion Hp; subst. contradiction.
      * destruct Hp as [-> [Hs [p [s [Es [Hg Hn]]]]]]. rewrite Hs, Es. simpl.
        split; [apply good_nil|]. split; [exact Hl|]. right. split; [reflexivity|]. split; [exact Hs|].
        eexists _, s. split; [reflexivity|]. split; [|assumption]. unfold gp. cbn [p_defer].
        unfold good in Hc. rewrite Ed in Hc.
        change (d0 :: ds ++ p_defer p) with ((d0 :: ds) ++ p_defer p). apply Forall_app. split; assumption.
  - (* exit loop *)
    intros c saved s m Hc Hm Hs. cbn [FlowModel.run]. destruct (dfr c) as [|[e cd] ds] eqn:Ed.
    + apply Post_go; [assumption|]. apply inv_stat. destruct saved; [apply inv_push; assumption|assumption].
    + unfold good in Hc. rewrite Ed in Hc. inversion Hc as [|? ? Hd Hds]; subst.
      pose proof (q_rod _ IH false cd (mk_ctx e []) m Hd (good_nil _) Hm) as Hq.
      destruct (run n (JRod cd (mk_ctx e [])) m) as [c' m'|y c' m'| |]; try exact I.
      * destruct Hq as [_ [Hl [Hn|[Hn _]]]]; [|discriminate].
        destruct (is_next (stat m')); [|exact I]. apply (q_loop _ IH); auto. split; assumption.
      * destruct Hq as [_ Hi]. apply (q_exn _ IH); assumption.
  - (* exit exception *)
    intros x c m Hc Hm. cbn [FlowModel.run]. destruct (dfr c) as [|[e cd] ds] eqn:Ed.
    + split; assumption.
    + unfold good in Hc. rewrite Ed in Hc. inversion Hc as [|? ? Hd Hds]; subst.
      pose proof (q_rod _ IH false cd (mk_ctx e []) m Hd (good_nil _) Hm) as Hq.
      destruct (run n (JRod cd (mk_ctx e [])) m) as [c' m'|y c' m'| |]; try exact I.
      * destruct Hq as [_ [Hl [Hn|[Hn _]]]]; [|discriminate].
        destruct (is_next (stat m')); [|exact I]. apply (q_exn _ IH); auto. split; assumption.
      * destruct Hq as [_ Hi]. apply (q_exn _ IH); assumption.
  - (* find *)
    intros b v i f rest cl c m Hr Hcl Hc Hm. destruct rest as [|[[[lb labels] sk] bd] rest]; cbn [FlowModel.run].
    + destruct f as [t|]; [|apply Post_go; assumption].
      apply leave_q; [assumption| |assumption]. apply (q_clauses _ IH); [assumption|apply good_nil|assumption].
    + inversion Hr as [|? ? [Hlab _] Hr']; subst. cbn in Hlab. destruct lb.
      * apply (q_find _ IH); assumption.
      * apply seq_next_false; [apply (q_rod _ IH); assumption|assumption|]. intros m1 Hm1.
        apply top_q; try assumption. intros a. destruct (cmp_eqb (compare o v a) cmp_equal).
        -- apply (q_find _ IH); auto.
        -- apply (q_find _ IH); auto.
      * apply seq_next_false; [apply (q_rod _ IH); assumption|assumption|]. intros m1 Hm1.
        destruct (stk m1) as [|up [|lo s]]; try exact I.
        apply deref_q; try assumption. intros lo'. apply deref_q; try assumption. intros up'.
        destruct (in_interval _ _ _ _); apply (q_find _ IH); auto.
  - (* clauses *)
    intros b i cl c m Hcl Hc Hm. destruct cl as [|[[[lb labels] sk] bd] cl]; cbn [FlowModel.run].
    + destruct i; apply Post_go; assumption.
    + inversion Hcl as [|? ? [_ Hbd] Hcl']; subst. cbn in Hbd. destruct i as [|i].
      * pose proof (q_rod _ IH b bd c m Hbd Hc Hm) as Hq.
        destruct (run n (JRod bd c) m) as [c' m'|y c' m'| |]; try exact Hq.
        destruct Hq as [Hc' [Hl Hp]]. destruct (is_next (stat m')) eqn:En.
        -- destruct Hp as [Hp|[_ [Hp _]]]; [|rewrite Hp in En; discriminate].
           apply (q_clauses _ IH); auto. split; assumption.
        -- destruct (is_break TSwitch (stat m')) eqn:Eb.
           ++ destruct Hp as [Hp|[_ [Hp _]]]; [|rewrite Hp in Eb; discriminate].
              apply Post_go; [assumption|]. split; assumption.
           ++ simpl. auto.
      * apply (q_clauses _ IH); auto.
  - (* do *)
    intros b x neg cn co c m Hx Hcn Hco Hc Hm. cbn [FlowModel.run].
    apply after_q; [apply (q_block _ IH); assumption|assumption|]. intros m1 Hm1.
    apply seq_next_false; [apply (q_rod _ IH); assumption|assumption|]. intros m2 Hm2.
    apply top_q; try assumption. intros v. destruct (Bool.eqb (test o v) neg).
    + apply seq_end; [apply (q_block _ IH); assumption|assumption].
    + apply (q_do _ IH); assumption.
  - (* while *)
    intros b x neg cn co c m Hx Hcn Hco Hc Hm. cbn [FlowModel.run].
    apply seq_next_false; [apply (q_rod _ IH); assumption|assumption|]. intros m2 Hm2.
    apply top_q; try assumption. intros v. destruct (Bool.eqb (test o v) neg).
    + apply seq_end; [apply (q_block _ IH); assumption|assumption].
    + apply after_q; [apply (q_block _ IH); assumption|assumption|]. intros m1 Hm1.
      apply (q_while _ IH); assumption.
  - (* each *)
    intros b l item x co outer c m Hx Hco Ho Hc Hm. cbn [FlowModel.run]. destruct l as [|i l].
    + apply seq_end; [apply (q_block _ IH); assumption|assumption].
    + destruct (item i (names c) (world m)) as [w [e|y]]; [|split; assumption].
      apply after_q; [apply (q_block _ IH); try assumption; apply inv_world; assumption|assumption|].
      intros m1 Hm1. apply (q_each _ IH); assumption.
  - (* for *)
    intros b cn sp x co outer c m Hcn Hsp Hx Hco Ho Hc Hm. cbn [FlowModel.run].
    assert (Hloop : forall m1, inv m1 -> Post b
        (seq (run n (JBlock x c) m1) c (fun m2 => after_body TFor c m2 (fun m3 =>
            seq_next (run n (JRod sp c) m3) c (run n (JFor cn sp x co outer c)))))).
    { intros m1 Hm1. apply after_q; [apply (q_block _ IH); assumption|assumption|]. intros m3 Hm3.
      apply seq_next_false; [apply (q_rod _ IH); assumption|assumption|]. intros m4 Hm4.
      apply (q_for _ IH); assumption. }
    apply seq_next_false; [apply (q_rod _ IH); assumption|assumption|]. intros m1 Hm1.
    destruct (stk m1) as [|r s]; [apply Hloop; assumption|].
    apply deref_q; try assumption. intros v. destruct (test o v); [apply Hloop; assumption|].
    apply seq_end; [apply (q_block _ IH); assumption|assumption].
Qed.

End Level.

(* ---- calls ---- *)
Definition gref (r : ref) : Prop := match r with RPtc p => gp p | _ => True end.
Definition Up (m : mst) (z : res) : Prop :=
  match z with
  | Go _ m' => depth m' = depth m /\ (peak m' <= Nat.max (peak m) (S (depth m)))%nat
               /\ Forall gref (stk m')
  | Exn _ _ m' => depth m' = depth m /\ (peak m' <= Nat.max (peak m) (S (depth m)))%nat
  | _ => True
  end.

Lemma Up_trans : forall m m' z, depth m' = depth m ->
  (peak m' <= Nat.max (peak m) (S (depth m)))%nat -> Up m' z -> Up m z.
Proof.
  intros m m' [c2 m2|y2 c2 m2| |] Hd Hk H; simpl in *; auto.
  - destruct H as [H1 [H2 H3]]. split; [congruence|]. split; [rewrite Hd in H2; lia|assumption].
  - destruct H as [H1 H2]. split; [congruence|]. rewrite Hd in H2; lia.
Qed.

Lemma ptc_up : forall n f a c m, Up m (run n (JPtcInvoke f a c) m).
Proof.
  intros [|n] f a c m; [exact I|]. cbn [FlowModel.run].
  destruct (binds o f a (world m)) as [w [e|y]]; [|simpl; split; [reflexivity|lia]].
  set (pk := Nat.max (peak m) (S (depth m))).
  set (m0 := mk_mst w st_next [] (S (depth m)) pk).
  assert (Hq : Post (S (depth m)) pk true (run n (JRod (code_of true body f) (mk_ctx e [])) m0)).
  { apply (q_rod _ _ _ (quiets_ok _ _ n)); [apply Hcode|apply good_nil|].
    split; [split; reflexivity|apply Forall_nil]. }
  destruct (run n (JRod (code_of true body f) (mk_ctx e [])) m0) as [c1 m1|y c1 m1| |]; try exact I.
  - destruct Hq as [Hc1 [Hl1 Hp1]].
    pose proof (q_exit _ _ _ (quiets_ok _ _ n) true c1 m1 Hc1 Hl1 Hp1) as Hq.
    destruct (run n (JExit c1) m1) as [c2 m2|y c2 m2| |]; try exact I.
    + destruct Hq as [_ [[Hd2 Hk2] Hp2]]. cbn [seq].
      assert (Hst : Forall gref (stk m2)).
      { destruct Hp2 as [Hp2|[_ [_ [p [s [Es [Hg Hn]]]]]]].
        - eapply Forall_impl; [|exact Hp2]. intros [| |r|p] H; try exact I. contradiction.
        - rewrite Es. apply Forall_cons; [exact Hg|]. eapply Forall_impl; [|exact Hn].
          intros [| |r|p'] H; try exact I. contradiction. }
      destruct (stat m2); simpl.
      * split; [reflexivity|]. split; [cbn [peak]; rewrite Hk2; unfold pk; lia|repeat constructor].
      * split; [reflexivity|]. split; [cbn [peak]; rewrite Hk2; unfold pk; lia|repeat constructor].
      * destruct (stk m2) as [|r s]; [exact I|]. apply Forall_inv in Hst.
        split; [reflexivity|]. split; [cbn [peak]; rewrite Hk2; unfold pk; lia|]. apply Forall_cons; [assumption|apply Forall_nil].
      * split; [reflexivity|]. cbn [peak]; rewrite Hk2; unfold pk; lia.
      * split; [reflexivity|]. cbn [peak]; rewrite Hk2; unfold pk; lia.
    + destruct Hq as [_ [[Hd2 Hk2] _]]. simpl. split; [reflexivity|]. cbn [peak]; rewrite Hk2; unfold pk; lia.
  - destruct Hq as [Hc1 Hi1].
    pose proof (q_exn _ _ _ (quiets_ok _ _ n) y c1 m1 Hc1 Hi1) as Hq.
    destruct (run n (JExitExn y c1) m1) as [c2 m2|y2 c2 m2| |] eqn:Er; try exact I.
    + exfalso. exact (exitexn_go _ _ _ _ _ _ _ _ _ Er).
    + destruct Hq as [_ [[Hd2 Hk2] _]]. simpl. split; [reflexivity|]. cbn [peak]; rewrite Hk2; unfold pk; lia.
Qed.

Lemma unwind_up : forall n x frames c m, Forall gp frames -> Up m (run n (JUnwind x frames c) m).
Proof.
  induction n as [|n IH]; intros x frames c m Hf; [exact I|]. cbn [FlowModel.run].
  destruct frames as [|p fs]; [simpl; split; [reflexivity|lia]|]. inversion Hf as [|? ? Hp Hfs]; subst.
  pose proof (q_exn _ _ _ (quiets_ok (depth m) (peak m) n) x (mk_ctx (names c) (p_defer p))
                (set_stk (set_stat m st_next) []) Hp (conj (conj eq_refl eq_refl) (Forall_nil _))) as Hq.
  destruct (run n (JExitExn x (mk_ctx (names c) (p_defer p))) (set_stk (set_stat m st_next) [])) as [c' m'|y c' m'| |];
    try exact I.
  destruct Hq as [_ [[Hd Hk] _]].
  eapply Up_trans; [exact Hd|rewrite Hk; lia|]. apply IH; assumption.
Qed.
Lemma return_up : forall n r v frames c m, gref r -> Forall gp frames -> Up m (run n (JReturn r v frames c) m).
Proof.
  induction n as [|n IH]; intros r v frames c m Hr Hf; [exact I|]. cbn [FlowModel.run].
  destruct frames as [|p fs].
  { simpl. split; [reflexivity|]. split; [lia|]. apply Forall_cons; [assumption|apply Forall_nil]. }
  inversion Hf as [|? ? Hp Hfs]; subst.
  pose proof (q_exit _ _ _ (quiets_ok (depth m) (peak m) n) false (mk_ctx (names c) (p_defer p))
                (set_stk (set_stat m st_next) []) Hp (conj eq_refl eq_refl) (or_introl (Forall_nil _))) as Hq.
  destruct (run n (JExit (mk_ctx (names c) (p_defer p))) (set_stk (set_stat m st_next) [])) as [c' m'|y c' m'| |];
    try exact I.
  - destruct Hq as [_ [[Hd Hk] _]].
    assert (Hr' : gref match p_mode p, v with ptc_by_val, Some v => RVal (temp o v) | _, _ => r end).
    { destruct (p_mode p); try assumption. destruct v; [exact I|assumption]. }
    eapply Up_trans; [exact Hd|rewrite Hk; lia|]. apply IH; assumption.
  - destruct Hq as [_ [[Hd Hk] _]].
    eapply Up_trans; [exact Hd|rewrite Hk; lia|]. apply unwind_up; assumption.
Qed.

Lemma use_up : forall n p frames c m, Forall gp (p :: frames) -> Up m (run n (JUse p frames c) m).
Proof.
  induction n as [|n IH]; intros p frames c m Hf; [exact I|]. cbn [FlowModel.run].
  pose proof (ptc_up n (p_target p) (p_args p) c m) as Hq.
  destruct (run n (JPtcInvoke (p_target p) (p_args p) c) m) as [c' m'|y c' m'| |]; try exact I.
  - destruct Hq as [Hd [Hk Hg]]. destruct (stk m') as [|r s]; [exact I|].
    inversion Hg as [|? ? Hr _]; subst.
    destruct r as [| |r|p'].
    + destruct (p_mode p); try exact I. eapply Up_trans; [exact Hd|exact Hk|]. apply return_up; [exact I|assumption].
    + eapply Up_trans; [exact Hd|exact Hk|]. destruct (p_mode p); apply return_up; try exact I; assumption.
    + destruct (p_mode p).
      * destruct (value o (world m') r).
        -- eapply Up_trans; [exact Hd|exact Hk|]. apply return_up; [exact I|assumption].
        -- eapply Up_trans; [exact Hd|exact Hk|]. apply unwind_up; assumption.
      * destruct (value o (world m') r).
        -- eapply Up_trans; [exact Hd|exact Hk|]. apply return_up; [exact I|assumption].
        -- eapply Up_trans; [exact Hd|exact Hk|]. apply unwind_up; assumption.
      * destruct (value o (world m') r).
        -- eapply Up_trans; [exact Hd|exact Hk|]. apply return_up; [exact I|assumption].
        -- eapply Up_trans; [exact Hd|exact Hk|]. apply unwind_up; assumption.
      * eapply Up_trans; [exact Hd|exact Hk|]. apply return_up; [exact I|assumption].
    + eapply Up_trans; [exact Hd|exact Hk|]. apply IH. apply Forall_cons; [exact Hr|assumption].
  - destruct Hq as [Hd Hk]. eapply Up_trans; [exact Hd|exact Hk|]. apply unwind_up; assumption.
Qed.

Theorem invoke_up : forall n f a c m, Up m (run n (JInvoke f a c) m).
Proof.
  intros [|n] f a c m; [exact I|]. cbn [FlowModel.run].
  pose proof (ptc_up n f a c m) as Hq.
  destruct (run n (JPtcInvoke f a c) m) as [c' m'|y c' m'| |]; cbn [seq]; try exact I.
  - destruct Hq as [Hd [Hk Hg]]. destruct (stk m') as [|[| |r|p] s] eqn:Es;
      try (cbn [Up]; rewrite Es; split; [assumption|split; assumption]).
    eapply Up_trans; [exact Hd|exact Hk|]. apply use_up.
    inversion Hg as [|? ? Hr _]; subst. apply Forall_cons; [exact Hr|apply Forall_nil].
  - exact Hq.
Qed.

End Proofs.
