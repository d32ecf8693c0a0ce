(* Proof that code does what the source means. *)
From Verif Require Import Base Monad Text ScopeModel ScopeSpec ScopeProofs1 ScopeProofs2.

Lemma fairs : forall a b, a && b = true -> a = true /\ b = true.
Proof. intros a b H. apply andb_true_iff. exact H. Qed.
Ltac split_fair :=
  repeat match goal with H : _ && _ = true |- _ => apply fairs in H; destruct H end.

Section Sim.
Variable glob : name -> option Z.
Variable call : sfun -> list (ref sfun) -> world sfun -> world sfun * eres sfun.
Variable inv : ifun -> list (ref ifun) -> world ifun -> world ifun * eres ifun.
Variable fuel : nat.
Hypothesis call_rel : forall f g xs ys w w', rfun f g -> Forall2 rref xs ys -> rworld w w' -> re (call f xs w) (inv g ys w').

Notation evs := (eval_s glob call).
Notation evc := (eval glob inv).

Lemma eval_rel :
  (forall e, fair_e e = true -> forall cs en K d fs t w w', menv cs en K -> agree d fs K ->
     rebind_e d (skipn d K) (gen_e cs e) = Ok t -> rworld w w' -> re (evs e en w) (evc t fs w')) /\
  (forall xs, fair_a xs = true -> forall cs en K d fs t k k' w w', menv cs en K -> agree d fs K ->
     rebind_a d (skipn d K) (gen_a cs xs) = Ok t -> rworld w w' ->
     (forall rs rs' w w', Forall2 rref rs rs' -> rworld w w' -> re (k rs w) (k' rs' w')) ->
     re (eval_args glob call xs en w k) (evals glob inv t fs w' k')) /\
  (forall s : stmt, True) /\ (forall l : stmts, True) /\ (forall l : clauses, True).
Proof.
  apply source_ind; auto; intros; simpl fair_e in *; simpl fair_a in *; split_fair; simpl gen_e in *; simpl gen_a in *;
    cbn [rebind_e rebind_a] in *; obinds;
    repeat match goal with H : Ok _ = Ok _ |- _ => injection H as <- end;
    cbn [eval_s eval_args eval evals].
  - split; simpl; auto. repeat constructor.
  - split; simpl; auto. repeat constructor.
  - pose proof (resolve_menv x _ _ _ H0 0%nat) as R.
    destruct (lookup x en) as [r|]; [|rewrite R in E; simpl in E; injection E as <-; simpl].
    + destruct R as (n & g & r' & R1 & R2 & R3 & R4). rewrite R1 in E. simpl in E.
      destruct (Nat.ltb n d) eqn:L.
      * injection E as <-. simpl. apply Nat.ltb_lt in L. rewrite (H1 n L), R2, R3.
        inversion R4; subst; try (apply re_thr; auto; fail); split; simpl; auto.
      * apply Nat.ltb_ge in L. rewrite nth_error_skipn' in E. replace (d + (n - d))%nat with n in E by lia.
        rewrite R2, R3 in E. inversion R4; subst; try discriminate; injection E as <-; split; simpl; auto.
    + destruct (glob x); [|apply re_thr; auto]. split; simpl; auto. repeat constructor.
  - pose proof (proj1 (proj2 (proj2 (proj2 (compose _ _ _ _ (menv_doms _ _ _ H1) H2)))) _ 1%nat _
                  (proj1 (proj2 (proj2 (proj2 gen_ok))) b ps cs None) E) as C.
    rewrite C. clear C.
    pose proof (proj1 (proj2 (proj2 (proj2 (free_rebind cs en K H1)))) b ps ps [] None) as F.
    assert (S0 : same_names ps [ps]). { intros x. simpl. rewrite orb_false_r. reflexivity. }
    specialize (F S0). simpl in F. destruct (bypassed en (free_l ps b)); simpl in F.
    + rewrite F. apply re_thr; auto.
    + destruct F as (code & F). rewrite F. split; simpl; auto. constructor. constructor. econstructor; eauto.
  - apply with_ref_rel; [eapply H; eauto|]. intros r r' w1 w1' W1 R1.
    eapply H0; eauto. intros rs rs' w2 w2' Rs W2.
    pose proof (read_rel _ _ _ _ W2 R1) as P. destruct (read w2 r) as [v|], (read w2' r') as [v'|]; simpl in P; try contradiction;
      [|apply re_thr; auto].
    destruct P; try (apply re_thr; auto; fail). apply call_rel; auto.
  - eapply H; eauto. intros rs rs' w2 w2' Rs W2.
    pose proof (all_some_rel _ _ _ _ W2 Rs) as P.
    destruct (all_some (map (read w2) rs)), (all_some (map (read w2') rs')); simpl in P; try contradiction; [|apply re_thr; auto].
    split; simpl; auto. constructor. constructor. auto.
  - apply with_ref_rel; [eapply H; eauto|]. intros r r' w1 w1' W1 R1.
    apply with_val_rel; [eapply H0; eauto|]. intros v v' w2 w2' W2 V2.
    pose proof (assign_rel _ _ _ _ _ _ W2 R1 V2) as P. destruct (assign r v w2), (assign r' v' w2'); simpl in P; try contradiction;
      [|apply re_thr; auto]. split; simpl; auto.
  - apply with_ref_rel; [eapply H; eauto|]. intros r r' w1 w1' W1 R1.
    apply with_val_rel; [eapply H0; eauto|]. intros v v' w2 w2' W2 V2.
    pose proof (read_rel _ _ _ _ W2 R1) as P. destruct (read w2 r) as [u|], (read w2' r') as [u'|]; simpl in P; try contradiction;
      [|apply re_thr; auto].
    pose proof (add_rel _ _ _ _ P V2) as Q. destruct (add u v), (add u' v'); simpl in Q; try contradiction; [|apply re_thr; auto].
    split; simpl; auto. constructor; auto.
  - apply with_val_rel; [eapply H; eauto|]. intros v v' w2 w2' W2 V2. rewrite (test_rel _ _ V2).
    destruct (test v'); [eapply H0; eauto|eapply H1; eauto].
  - apply with_val_rel; [eapply H; eauto|]. intros v v' w2 w2' W2 V2. split; simpl; [apply print_rel; auto|]. repeat constructor.
  - auto.
  - apply with_ref_rel; [eapply H; eauto|]. intros r r' w1 w1' W1 R1.
    pose proof (read_rel _ _ _ _ W1 R1) as P. destruct (read w1 r) as [v|], (read w1' r') as [v'|]; simpl in P; try contradiction;
      [|apply re_thr; auto].
    eapply H0; eauto. intros rs rs' w2 w2' Rs W2. match goal with G : forall rs rs' w w', _ |- _ => apply G; auto end. constructor; auto. destruct by_ref; auto. constructor; auto.
Qed.
Definition eval_rel_e := proj1 eval_rel.

Notation xs := (exec_s glob call fuel).
Notation xl := (exec_l glob call fuel).
Notation xk := (exec_k glob call fuel).
Notation ys := (exec glob inv fuel).
Notation yl := (execs glob inv fuel).
Notation yk := (jump glob inv fuel).

Definition rdef (d : expr * env) (t : cexpr) : Prop :=
  exists cs K, fair_e (fst d) = true /\ menv cs (snd d) K /\ rebind_e 0 K (gen_e cs (fst d)) = Ok t.
Notation ssc := (scope sfun (expr * list (list (name * ref sfun)))).
Notation isc := (scope ifun cexpr).
Definition cur (m : bool) (c : list name) (cs : list (list name)) (s : ssc) (en : env) (s' : isc) (K : list (frame ifun)) : Prop :=
  if m then (forall x, mem x c = true <-> find x (names s) <> None) /\ rframe (names s) (names s') /\ menv cs en K
            /\ Forall2 rdef (defers s) (defers s')
  else menv (c :: cs) (names s :: en) (names s' :: K).
Lemma cur_menv : forall m c cs s en s' K, cur m c cs s en s' K -> menv (c :: cs) (names s :: en) (names s' :: K).
Proof. intros [|] c cs s en s' K H; simpl in H; [|exact H]. destruct H as (A & B & C & _). constructor; auto. Qed.

Notation SP := (world sfun * ssc * sres sfun)%type.
Notation IP := (world ifun * isc * sres ifun)%type.
Definition post (m : bool) (c' : list name) (cs : list (list name)) (en : env) (K : list (frame ifun)) (s : ssc) (s' : isc)
    (p : SP) (p' : IP) : Prop :=
  rworld (fst (fst p)) (fst (fst p')) /\ rsres (snd p) (snd p') /\
  (if m then Forall2 rdef (defers (snd (fst p))) (defers (snd (fst p'))) else snd (fst p) = s /\ snd (fst p') = s') /\
  (snd p = Next -> cur m c' cs (snd (fst p)) en (snd (fst p')) K).

(* the end of a scope *)
Lemma finish_rel : forall ds ds' fs, Forall2 rdef ds ds' -> forall w w' r r', rworld w w' -> rsres r r' ->
  rq (finish evs ds w r) (run_defers (fun d w => evc d fs w) ds' w' r').
Proof.
  intros ds ds' fs H. induction H as [|[e en] t ds ds' D H IH]; intros w w' r r' W R; simpl; [split; auto|].
  destruct D as (cs & K & F & M & E). simpl in *.
  assert (A : agree 0 fs K) by (intros n L; lia).
  pose proof (eval_rel_e e F cs en K 0%nat fs t w w' M A E W) as [P Q].
  destruct (evs e en w) as [w1 r1], (evc t fs w') as [w1' r1']; simpl in *.
  destruct r1, r1'; simpl in *; try contradiction; [apply IH; auto | apply IH; auto | split; simpl; auto].
Qed.
Lemma close_rel : forall fs (p : SP) (p' : IP), rworld (fst (fst p)) (fst (fst p')) -> rsres (snd p) (snd p') ->
  Forall2 rdef (defers (snd (fst p))) (defers (snd (fst p'))) -> rq (close glob call p) (end_scope glob inv fs p').
Proof.
  intros fs [[w s] r] [[w' s'] r'] W R D. simpl in *. unfold end_scope, leave. simpl.
  destruct r, r'; simpl in *; try contradiction; try (apply finish_rel; simpl; auto; fail); split; simpl; auto.
Qed.

(* statements that leave the scope as it is *)
Definition stay (s : ssc) (s' : isc) (p : SP) (p' : IP) : Prop :=
  rworld (fst (fst p)) (fst (fst p')) /\ rsres (snd p) (snd p') /\ snd (fst p) = s /\ snd (fst p') = s'.
Ltac stays := split; [|split; [|split]]; simpl; auto.
Lemma stay_post : forall m c cs en K s s' p p', cur m c cs s en s' K -> stay s s' p p' -> post m c cs en K s s' p p'.
Proof.
  intros m c cs en K s s' p p' C (W & R & E & E'). unfold post. rewrite E, E'. split; [exact W|]. split; [exact R|]. split; [|auto].
  destruct m; auto. apply C.
Qed.
Lemma keep_stay : forall s s' q q', rq q q' -> stay s s' (keep s q) (same s' q').
Proof. intros s s' [w r] [w' r'] [W R]. stays. Qed.
Lemma scoped_stay : forall s s' m m' k k', re m m' ->
  (forall r r' w w', rworld w w' -> rref r r' -> stay s s' (k r w) (k' r' w')) ->
  stay s s' (scoped s m k) (sbind s' m' k').
Proof.
  intros s s' [w r] [w' r'] k k' [W R] H. simpl in *. destruct r, r'; simpl in *; try contradiction; auto; stays.
Qed.
Lemma scoped_val_stay : forall s s' m m' k k', re m m' ->
  (forall v v' w w', rworld w w' -> rval v v' -> stay s s' (k v w) (k' v' w')) ->
  stay s s' (scoped_val s m k) (rbind s' m' k').
Proof.
  intros s s' m m' k k' R H. apply scoped_stay; auto. intros r r' w w' W Rr.
  pose proof (read_rel _ _ _ _ W Rr) as P. destruct (read w r), (read w' r'); simpl in *; try contradiction; auto.
  stays. constructor.
Qed.
Lemma execs_one : forall n s fs w, yl (Then n End) s fs w = ys n s fs w.
Proof. intros n s fs w. simpl. destruct (ys n s fs w) as [[w1 s1] []]; reflexivity. Qed.
Lemma execs_app : forall a b s fs w, yl (app a b) s fs w =
  match yl a s fs w with (w, s, Next) => yl b s fs w | m => m end.
Proof.
  induction a as [|n a IH]; intros b s fs w; simpl; auto.
  destruct (ys n s fs w) as [[w1 s1] []]; auto.
Qed.
Lemma scopeless_ctx : forall s c cs na k c' na', scopeless s = true -> gen_s s c cs na = (k, c', na') -> c' = c.
Proof.
  intros s c cs na k c' na' H E. pose proof (gen_s_ctx s c cs na) as P. rewrite E in P. simpl in P. subst c'.
  destruct s; simpl in H; try discriminate; reflexivity.
Qed.
Lemma flat_scopeless : forall b, flat b = true -> all_scopeless b = true.
Proof. intros [|s [|s2 l]] H; auto; destruct s; simpl in *; auto; discriminate. Qed.

Lemma bypass_find : forall ns (s : isc) x, find x (names (bypass ns s)) = if mem x ns then Some RInvalid else find x (names s).
Proof.
  induction ns as [|y ns IH]; intros s x; simpl; auto. unfold bypass in *. simpl. rewrite IH. simpl.
  destruct (mem x ns), (x =? y); reflexivity.
Qed.
Lemma bypass_defers : forall ns (s : isc), defers (bypass ns s) = defers s.
Proof. induction ns as [|y ns IH]; intros s; simpl; auto. unfold bypass in *. simpl. rewrite IH. reflexivity. Qed.
Lemma skipped_find : forall ns (s : ssc) x, find x (names (skipped ns s)) = if mem x ns then Some RInvalid else find x (names s).
Proof.
  induction ns as [|y ns IH]; intros s x; simpl; auto. unfold skipped in IH. simpl in IH. rewrite IH. destruct (x =? y); reflexivity.
Qed.

Definition P_s (s : stmt) : Prop := fair_s s = true ->
  forall c cs na k c' na' m sc en sc' K fs d t w w',
  gen_s s c cs na = (k, c', na') -> cur m c cs sc en sc' K -> (m = false -> scopeless s = true) ->
  agree d fs K -> rebind_l (S d) (skipn d K) k = Ok t -> rworld w w' ->
  post m c' cs en K sc sc' (xs s sc en w) (yl t sc' fs w').
Definition P_l (l : stmts) : Prop := fair_l l = true ->
  forall c cs na k c' na' m sc en sc' K fs d t w w',
  gen_l l c cs na = (k, c', na') -> cur m c cs sc en sc' K -> (m = false -> all_scopeless l = true) ->
  agree d fs K -> rebind_l (S d) (skipn d K) k = Ok t -> rworld w w' ->
  post m c' cs en K sc sc' (xl l sc en w) (yl t sc' fs w').
Definition P_k (l : clauses) : Prop := fair_k l = true ->
  (forall v v' cb c cs en K fs d t w w' n o sc sc' found found',
   menv (c :: cs) en K -> agree (S d) fs K -> rebind_k (S d) (skipn (S d) K) (gen_k l cb c cs) = Ok t -> rworld w w' -> rval v v' ->
   (forall o w w', rworld w w' -> stay sc sc' (found o w) (found' o w')) ->
   stay sc sc' (choose glob call v l en w n o found sc) (find_clause glob inv v' t fs w' n o found' sc')) /\
  (forall cb c cs sc en sc' K fs d t n w w',
   cur true cb (c :: cs) sc en sc' K -> (n <> 0%nat -> forall x r, find x (names sc) = Some r -> r = RInvalid) ->
   agree (S d) fs K -> rebind_k (S d) (skipn (S d) K) (gen_k l cb c cs) = Ok t -> rworld w w' ->
   let p := xk l n sc en w in let p' := yk t n sc' fs w' in
   rworld (fst (fst p)) (fst (fst p')) /\ rsres (snd p) (snd p') /\ Forall2 rdef (defers (snd (fst p))) (defers (snd (fst p')))).

(* blocks *)
Lemma block_rel : forall b, P_l b -> fair_l b = true -> forall c cs en K fs d t f0 g0,
  menv cs en K -> (forall x, mem x c = true <-> find x f0 <> None) -> rframe f0 g0 -> agree d fs K ->
  rebind_l (S d) (skipn d K) (fst (fst (gen_l b c cs None))) = Ok t ->
  rbody (fun w => close glob call (xl b {| names := f0; defers := [] |} en w))
        (fun w => end_scope glob inv fs (yl t {| names := g0; defers := [] |} fs w)).
Proof.
  intros b Pb F c cs en K fs d t f0 g0 M D R A E w w' W.
  destruct (gen_l b c cs None) as [[k c'] na'] eqn:G. simpl in E.
  assert (C : cur true c cs {| names := f0; defers := [] |} en {| names := g0; defers := [] |} K) by (simpl; auto).
  destruct (Pb F _ _ _ _ _ _ true _ _ _ _ fs d _ w w' G C ltac:(discriminate) A E W) as (P1 & P2 & P3 & _).
  apply close_rel; auto.
Qed.
Lemma empty_block_rel : forall b, P_l b -> fair_l b = true -> forall cs en K fs d t,
  menv cs en K -> agree d fs K -> rebind_l (S d) (skipn d K) (fst (fst (gen_l b [] cs None))) = Ok t ->
  rbody (fun w => close glob call (xl b empty_scope en w)) (fun w => end_scope glob inv fs (yl t empty_scope fs w)).
Proof.
  intros b Pb F cs en K fs d t M A E. eapply (block_rel b Pb F []); eauto.
  - intros x. simpl. split; [discriminate|congruence].
  - intros x r. discriminate.
Qed.
Lemma cur_declare : forall c cs sc en sc' K x r r', cur true c cs sc en sc' K -> rref r r' ->
  cur true (x :: c) cs (declare x r sc) en (declare x r' sc') K.
Proof.
  intros c cs sc en sc' K x r r' (A & B & C & D) R. simpl. split; [|split; [|auto]].
  - intros y. simpl. destruct (y =? x); simpl; [split; auto; congruence|]. apply A.
  - intros y q. simpl. destruct (y =? x); [intros [= <-]; eauto|apply B].
Qed.
Lemma cur_again : forall c cs sc en sc' K x r r', cur true (x :: c) cs sc en sc' K -> rref r r' ->
  cur true (x :: c) cs (declare x r sc) en (declare x r' sc') K.
Proof.
  intros c cs sc en sc' K x r r' H R. destruct (cur_declare _ _ _ _ _ _ x _ _ H R) as (A & B & C & D).
  split; [|auto]. intros y. rewrite <- A. simpl. destruct (y =? x); reflexivity.
Qed.

Ltac nodes :=
  cbn [rebind_l rebind_s] in *; obinds; repeat match goal with H : Ok _ = Ok _ |- _ => injection H as <- end.
Lemma exec_rel : (forall e : expr, True) /\ (forall xs : args, True) /\ (forall s, P_s s) /\ (forall l, P_l l) /\ (forall l, P_k l).
Proof.
  apply source_ind; auto; unfold P_s; intros; simpl fair_s in *; split_fair.
  - (* SExpr *)
    simpl in H1. injection H1 as <- <- <-. nodes. rewrite execs_one.
    apply stay_post; auto. cbn [exec_s exec].
    apply scoped_stay; [|intros; stays]. eapply eval_rel_e; eauto using cur_menv, agree_cons.
  - (* SVar *)
    simpl in H1. injection H1 as <- <- <-. nodes. rewrite execs_one.
    destruct m; [|specialize (H3 eq_refl); discriminate]. cbn [exec_s exec].
    pose proof (create_rel _ _ H6) as [W1 L1]. destruct (create w) as [w1 l], (create w') as [w1' l']. simpl in W1, L1. subst l'.
    assert (C1 : cur true (x :: c) cs (declare x (RVar l) sc) en (declare x (RVar l) sc') K) by (apply cur_declare; auto; constructor).
    assert (T : stay (declare x (RVar l) sc) (declare x (RVar l) sc')
       (scoped_val (declare x (RVar l) sc) (evs e (names (declare x (RVar l) sc) :: en) w1) (fun v w0 => (initialize l v immutable w0, declare x (RVar l) sc, Next)))
       (rbind (declare x (RVar l) sc') (evc a0 (names (declare x (RVar l) sc') :: fs) w1') (fun v w0 => (initialize l v immutable w0, declare x (RVar l) sc', Next)))).
    { apply scoped_val_stay.
      - eapply eval_rel_e; eauto using agree_cons. apply (cur_menv _ _ _ _ _ _ _ C1).
      - intros. stays. apply initialize_rel; auto. }
    destruct (stay_post _ _ _ _ _ _ _ _ _ C1 T) as (P1 & P2 & P3 & P4). split; [exact P1|]. split; [exact P2|]. split; [exact P3|exact P4].
  - (* SRef *)
    simpl in H1. injection H1 as <- <- <-. nodes. rewrite execs_one.
    destruct m; [|specialize (H3 eq_refl); discriminate]. cbn [exec_s exec].
    assert (C1 : cur true (x :: c) cs (declare x RInvalid sc) en (declare x RInvalid sc') K) by (apply cur_declare; auto; constructor).
    assert (V : re (evs e (names (declare x RInvalid sc) :: en) w) (evc a0 (names (declare x RInvalid sc') :: fs) w')).
    { eapply eval_rel_e; eauto using agree_cons. apply (cur_menv _ _ _ _ _ _ _ C1). }
    destruct (evs e (names (declare x RInvalid sc) :: en) w) as [w1 r1], (evc a0 (names (declare x RInvalid sc') :: fs) w') as [w1' r1'].
    destruct V as [V1 V2]. simpl in V1, V2. destruct r1, r1'; simpl in V2; try contradiction; simpl.
    + split; [exact V1|]. split; [exact I|]. split; [apply C1|]. intros _. apply cur_again; auto.
    + split; [exact V1|]. split; [exact V2|]. split; [apply C1|]. discriminate.
    + split; [exact V1|]. split; [exact I|]. split; [apply C1|]. discriminate.
  - (* SBlock *)
    simpl in H1. destruct (flat b) eqn:Fl.
    + injection H1 as <- <- <-. destruct (gen_l b c cs None) as [[k1 c1] na1] eqn:G. simpl in H5.
      assert (C1 : cur false c cs empty_scope (names sc :: en) sc' K) by (simpl; apply M_skip; apply (cur_menv _ _ _ _ _ _ _ H2)).
      destruct (H H0 _ _ _ _ _ _ false _ _ _ _ fs d _ w w' G C1 (fun _ => flat_scopeless _ Fl) H4 H5 H6) as (P1 & P2 & (P3 & P4) & _).
      apply stay_post; auto. change (xs (SBlock b) sc en w) with (keep sc (close glob call (xl b empty_scope (names sc :: en) w))).
      destruct (xl b empty_scope (names sc :: en) w) as [[w1 s1] r1], (yl t sc' fs w') as [[w1' s1'] r1']. simpl in *. subst s1 s1'.
      assert (Q : rq (match r1 with Fuel | Bad => (w1, r1) | _ => finish evs [] w1 r1 end) (w1', r1')).
      { destruct r1; split; auto. }
      destruct Q as [Q1 Q2]. split; [exact Q1|]. split; [exact Q2|]. split; reflexivity.
    + injection H1 as <- <- <-. nodes. rewrite execs_one.
      apply stay_post; auto. cbn [exec_s exec]. apply keep_stay.
      eapply (empty_block_rel b H H0 (c :: cs) (names sc :: en) (names sc' :: K) (names sc' :: fs) (S d)); eauto using cur_menv, agree_cons.
  - (* SIf *)
    simpl in H3. injection H3 as <- <- <-. nodes. rewrite execs_one.
    apply stay_post; auto. cbn [exec_s exec].
    apply scoped_val_stay; [eapply eval_rel_e; eauto using cur_menv, agree_cons|].
    intros v v' w1 w1' W1 V1. apply keep_stay. rewrite (test_rel _ _ V1). destruct (test v').
    + eapply (empty_block_rel a H0); eauto using cur_menv, agree_cons.
    + eapply (empty_block_rel b H1); eauto using cur_menv, agree_cons.
  - (* SSwitch *)
    simpl in H2. injection H2 as <- <- <-. nodes. rewrite execs_one.
    apply stay_post; auto. cbn [exec_s exec].
    pose proof (cur_menv _ _ _ _ _ _ _ H3) as M1. pose proof (agree_cons _ _ _ (names sc') H5) as A1.
    apply scoped_val_stay; [eapply eval_rel_e; eauto|].
    intros v v' w1 w1' W1 V1. destruct (H0 H8) as [Kc Kb].
    eapply Kc; eauto. intros [o|] w2 w2' W2; [|stays]. apply keep_stay.
    assert (C1 : cur true [] (c :: cs) (@empty_scope sfun (expr * list (list (name * ref sfun)))) (names sc :: en) (@empty_scope ifun cexpr) (names sc' :: K)).
    { simpl. split; [|split; [|split; auto]].
      - intros x. split; [discriminate|congruence].
      - intros x r. discriminate. }
    destruct (Kb [] c cs _ _ _ _ (names sc' :: fs) d _ o w2 w2' C1 ltac:(discriminate) A1 E1 W2) as (P1 & P2 & P3).
    pose proof (close_rel (names sc' :: fs) _ _ P1 P2 P3) as [Q1 Q2].
    change (rq (match close glob call (xk l o empty_scope (names sc :: en) w2) with (w, Break) => (w, Next) | q => q end)
              (breakable (end_scope glob inv (names sc' :: fs) (yk a1 o empty_scope (names sc' :: fs) w2')))).
    match type of Q1 with rworld (fst ?a) (fst ?b) => destruct a as [w3 r3], b as [w3' r3'] end. simpl in Q1, Q2.
    destruct r3, r3'; simpl in Q2; try contradiction; split; simpl; auto.
  - (* SWhile *)
    simpl in H3. injection H3 as <- <- <-. nodes. rewrite execs_one.
    pose proof (cur_menv _ _ _ _ _ _ _ H4) as M1. pose proof (agree_cons _ _ _ (names sc') H6) as A1.
    apply stay_post; auto. cbn [exec_s exec]. apply keep_stay. apply while_rel; auto.
    + intros w1 w1' W1. eapply eval_rel_e; eauto.
    + eapply (empty_block_rel b H0); eauto.
    + eapply (empty_block_rel c H1); eauto.
  - (* SDo *)
    simpl in H3. injection H3 as <- <- <-. nodes. rewrite execs_one.
    pose proof (cur_menv _ _ _ _ _ _ _ H4) as M1. pose proof (agree_cons _ _ _ (names sc') H6) as A1.
    apply stay_post; auto. cbn [exec_s exec]. apply keep_stay. apply do_rel; auto.
    + intros w1 w1' W1. eapply eval_rel_e; eauto.
    + eapply (empty_block_rel b H); eauto.
    + eapply (empty_block_rel c H1); eauto.
  - (* SFor *)
    simpl in H5. injection H5 as <- <- <-. nodes. rewrite execs_one.
    pose proof (cur_menv _ _ _ _ _ _ _ H6) as M1. pose proof (agree_cons _ _ _ (names sc') H8) as A1.
    apply stay_post; auto. cbn [exec_s exec].
    pose proof (create_rel _ _ H10) as [W1 L1]. destruct (create w) as [w1 l], (create w') as [w1' l']. simpl in W1, L1. subst l'.
    assert (M2 : menv ([x] :: c0 :: cs) ([(x, RVar l)] :: names sc :: en) ([(x, RVar l)] :: names sc' :: K)).
    { constructor; auto.
      - intros y. simpl. destruct (y =? x); simpl; split; congruence.
      - intros y r. simpl. destruct (y =? x); [intros [= <-]; exists (RVar l); split; auto; constructor|discriminate]. }
    pose proof (agree_cons _ _ _ [(x, @RVar ifun l)] A1) as A2.
    apply scoped_val_stay; [eapply eval_rel_e; eauto|].
    intros v v' w2 w2' W2 V2. apply keep_stay. apply for_rel; auto.
    + intros w3 w3' W3. eapply eval_rel_e; eauto.
    + intros w3 w3' W3. eapply eval_rel_e; eauto.
    + eapply (empty_block_rel b H2); eauto.
    + eapply (empty_block_rel c H3); eauto.
    + apply initialize_rel; auto.
  - (* SEach *)
    simpl in H3. injection H3 as <- <- <-. nodes. rewrite execs_one.
    pose proof (cur_menv _ _ _ _ _ _ _ H4) as M1. pose proof (agree_cons _ _ _ (names sc') H6) as A1.
    apply stay_post; auto. cbn [exec_s exec].
    assert (M2 : forall r1 r1' r2 r2', rref r1 r1' -> rref r2 r2' ->
      menv ([m; k] :: c0 :: cs) ([(m, r1); (k, r2)] :: names sc :: en) ([(m, r1'); (k, r2')] :: names sc' :: K)).
    { intros r1 r1' r2 r2' R1 R2. constructor; auto.
      - intros y. simpl. destruct (y =? m); simpl; [split; congruence|]. destruct (y =? k); simpl; split; congruence.
      - intros y r. simpl. destruct (y =? m); [intros [= <-]; eauto|]. destruct (y =? k); [intros [= <-]; eauto|discriminate]. }
    assert (A2 : forall g, agree (S (S d)) (g :: names sc' :: fs) (g :: names sc' :: K)) by (intros; apply agree_cons; auto).
    assert (D : rbody (fun w => close glob call (xl c empty_scope (names sc :: en) w))
                      (fun w => end_scope glob inv (names sc' :: fs) (yl a2 empty_scope (names sc' :: fs) w))).
    { eapply (empty_block_rel c H1); eauto. }
    apply scoped_stay; [eapply eval_rel_e; eauto; apply M2; constructor|].
    intros r r' w1 w1' W1 R1. pose proof (read_rel _ _ _ _ W1 R1) as V.
    destruct (read w1 r) as [v|], (read w1' r') as [v'|]; simpl in V; try contradiction; [|stays; constructor].
    destruct V as [ |n|s|l l' V|f g V]; try (stays; constructor; fail).
    apply negb_true_iff in H2. rewrite H2.
    destruct V as [|v v' l l' V0 V]; [apply keep_stay; apply D; auto|].
    pose proof (create_rel _ _ W1) as [W2 L2]. destruct (create w1) as [w2 n], (create w1') as [w2' n']. simpl in W2, L2. subst n'.
    apply keep_stay. apply each_rel; auto. intros u u' U.
    eapply (empty_block_rel b H0); eauto. apply M2; constructor; auto.
  - (* STry *)
    simpl in H2. injection H2 as <- <- <-. nodes. rewrite execs_one.
    pose proof (cur_menv _ _ _ _ _ _ _ H3) as M1. pose proof (agree_cons _ _ _ (names sc') H5) as A1.
    apply stay_post; auto. cbn [exec_s exec]. apply keep_stay.
    assert (B : rq (close glob call (xl b empty_scope (names sc :: en) w)) (end_scope glob inv (names sc' :: fs) (yl a0 empty_scope (names sc' :: fs) w'))).
    { eapply (empty_block_rel b H); eauto. }
    change (rq (match close glob call (xl b empty_scope (names sc :: en) w) with
                | (w, Thr v) => close glob call (xl c (declare x (RTemp v) empty_scope) (names sc :: en) w)
                | q => q end)
               (match end_scope glob inv (names sc' :: fs) (yl a0 empty_scope (names sc' :: fs) w') with
                | (w, Thr v) => end_scope glob inv (names sc' :: fs) (yl a1 (declare x (RTemp v) empty_scope) (names sc' :: fs) w)
                | q => q end)).
    match type of B with rq ?a ?b => destruct a as [w3 r3], b as [w3' r3'] end. destruct B as [B1 B2]. simpl in B1, B2.
    destruct r3, r3'; simpl in B2; try contradiction; try (split; simpl; auto; fail).
    eapply (block_rel c H0 H8 [x] (c0 :: cs) (names sc :: en) (names sc' :: K) (names sc' :: fs) (S d) a1 [(x, RTemp v)] [(x, RTemp v0)]); eauto.
    + intros y. simpl. destruct (y =? x); simpl; split; congruence.
    + intros y r. simpl. destruct (y =? x); [intros [= <-]; exists (RTemp v0); split; auto; constructor; auto|discriminate].
  - (* SThrow *)
    simpl in H1. injection H1 as <- <- <-. nodes. rewrite execs_one.
    apply stay_post; auto. cbn [exec_s exec].
    apply scoped_val_stay; [|intros; stays]. eapply eval_rel_e; eauto using cur_menv, agree_cons.
  - (* SReturn *)
    simpl in H1. injection H1 as <- <- <-. nodes. rewrite execs_one.
    apply stay_post; auto. cbn [exec_s exec].
    apply scoped_stay; [eapply eval_rel_e; eauto using cur_menv, agree_cons|].
    intros r r' w1 w1' W1 R1. pose proof (read_rel _ _ _ _ W1 R1) as P.
    assert (T : stay sc sc'
       (match read w1 r with Some v => (w1, sc, Ret (if by_ref then r else RTemp v)) | None => (w1, sc, Thr (VStr (str "reference"))) end)
       (match read w1' r' with Some v => (w1', sc', Ret (if by_ref then r' else RTemp v)) | None => (w1', sc', Thr (error (str "reference"))) end)).
    { destruct (read w1 r), (read w1' r'); simpl in P; try contradiction; stays.
      - destruct by_ref; auto. constructor; auto.
      - constructor. }
    destruct R1; try exact T. stays. constructor.
  - (* SVoid *)
    simpl in H0. injection H0 as <- <- <-. nodes. rewrite execs_one.
    apply stay_post; auto. stays. constructor.
  - simpl in H0. injection H0 as <- <- <-. nodes. rewrite execs_one.
    apply stay_post; auto. stays.
  - simpl in H0. injection H0 as <- <- <-. nodes. rewrite execs_one.
    apply stay_post; auto. stays.
  - (* SDefer *)
    simpl in H1. injection H1 as <- <- <-. nodes. rewrite execs_one.
    destruct m; [|specialize (H3 eq_refl); discriminate]. cbn [exec_s exec].
    pose proof (cur_menv _ _ _ _ _ _ _ H2) as M1. pose proof (agree_cons _ _ _ (names sc') H4) as A1.
    rewrite (proj1 (compose _ _ _ _ (menv_doms _ _ _ M1) A1) _ 0%nat _ (proj1 gen_ok e (c :: cs)) E0).
    pose proof (proj1 (free_rebind _ _ _ M1) e [] [] (fun x => eq_refl)) as F. simpl in F.
    destruct H2 as (C1 & C2 & C3 & C4).
    destruct (bypassed (names sc :: en) (free_e [] e)); simpl in F.
    + rewrite F. split; [exact H6|]. split; [constructor|]. split; [exact C4|discriminate].
    + destruct F as (te & F). rewrite F. simpl.
      assert (D : Forall2 rdef ((e, names sc :: en) :: defers sc) (te :: defers sc')).
      { constructor; auto. exists (c :: cs), (names sc' :: K). auto. }
      split; [exact H6|]. split; [exact I|]. split; [exact D|]. intros _. split; [exact C1|]. split; [exact C2|]. split; auto.
  - (* Nil *)
    unfold P_l. intros F c cs na k c' na' m sc en sc' K fs d t w w' G C Sl A E W. simpl in G. injection G as <- <- <-.
    simpl in E. injection E as <-. apply stay_post; auto. stays.
  - (* Cons *)
    unfold P_l. intros F c cs na k c' na' m sc en sc' K fs d t w w' G C Sl A E W. simpl in F. split_fair. simpl in G.
    destruct (gen_s s c cs na) as [[k1 c1] na1] eqn:G1.
    assert (Sl1 : m = false -> scopeless s = true). { intros e. apply Sl in e. simpl in e. split_fair. auto. }
    assert (Sl2 : m = false -> all_scopeless l = true). { intros e. apply Sl in e. simpl in e. split_fair. auto. }
    pose proof (gen_s_ends _ _ _ _ _ _ _ G1) as T.
    change (xl (Cons s l) sc en w) with (match xs s sc en w with (w, s, Next) => xl l s en w | q => q end).
    destruct (back_terminates k1).
    + injection G as <- <- <-.
      pose proof (H H1 _ _ _ _ _ _ m _ _ _ _ fs d _ w w' G1 C Sl1 A E W) as P.
      pose proof (proj1 (proj2 (proj2 (ends_stops glob call fuel))) s (eq_sym T) sc en w) as N.
      destruct (xs s sc en w) as [[w1 s1] r1]. simpl in N. destruct r1; try exact P. congruence.
    + destruct (gen_l l c1 cs na1) as [[k2 c2] na2] eqn:G2. injection G as <- <- <-.
      rewrite rebind_l_app in E. obinds. injection E as <-. rewrite execs_app.
      destruct (H H1 _ _ _ _ _ _ m _ _ _ _ fs d _ w w' G1 C Sl1 A E0 W) as (P1 & P2 & P3 & P4).
      destruct (xs s sc en w) as [[w1 s1] r1], (yl a sc' fs w') as [[w1' s1'] r1']. simpl in P1, P2, P3, P4.
      destruct r1, r1'; simpl in P2; try contradiction;
        try (split; [exact P1|]; split; [exact P2|]; split; [exact P3|discriminate]).
      pose proof (H0 H2 _ _ _ _ _ _ m _ _ _ _ fs d _ w1 w1' G2 (P4 eq_refl) Sl2 A E1 P1) as (Q1 & Q2 & Q3 & Q4).
      split; [exact Q1|]. split; [exact Q2|]. split; [|exact Q4].
      destruct m; auto. destruct P3 as [-> ->]. exact Q3.
  - (* KNil *)
    intros F. split.
    + intros. simpl in H1. injection H1 as <-. simpl. auto.
    + intros. simpl in H2. injection H2 as <-. simpl in p, p'. subst p p'. simpl. split; auto. split; auto. apply H.
  - (* KCase *)
    intros F. simpl in F. split_fair. destruct (H1 H3) as [Kc Kb]. split.
    + intros. cbn [gen_k] in *. destruct (gen_l b cb (c :: cs) (Some [])) as [[k1 c1] na1] eqn:G.
      cbn [rebind_k] in *. obinds. injection H7 as <-. cbn [choose find_clause].
      apply scoped_val_stay; [eapply eval_rel_e; eauto|].
      intros u u' w1 w1' W1 U. rewrite (equal_rel _ _ _ _ H9 U). destruct (equal v' u'); auto. eapply Kc; eauto.
    + intros. cbn [gen_k] in *. destruct (gen_l b cb (c :: cs) (Some [])) as [[k1 c1] na1] eqn:G.
      cbn [rebind_k] in *. obinds. injection H8 as <-. subst p p'. cbn [exec_k jump].
      destruct n as [|n].
      * change (let p := match xl b sc en w with (w, s, Next) => xk l 0 s en w | q => q end in
                let p' := match yl a0 sc' fs w' with (w, s, Next) => yk a1 0 s fs w | q => q end in
                rworld (fst (fst p)) (fst (fst p')) /\ rsres (snd p) (snd p') /\ Forall2 rdef (defers (snd (fst p))) (defers (snd (fst p')))).
        destruct (H0 H4 _ _ _ _ _ _ true _ _ _ _ fs (S d) _ w w' G H5 ltac:(discriminate) H7 E0 H9) as (P1 & P2 & P3 & P4).
        destruct (xl b sc en w) as [[w1 s1] r1], (yl a0 sc' fs w') as [[w1' s1'] r1']. simpl in P1, P2, P3, P4.
        destruct r1, r1'; simpl in P2; try contradiction; try (split; [exact P1|]; split; [exact P2|exact P3]).
        apply (Kb c1 c cs s1 en s1' K fs d a1 0%nat w1 w1' (P4 eq_refl)); auto. intros N. exfalso. apply N. reflexivity.
      * eapply Kb; eauto.
        -- destruct H5 as (C1 & C2 & C3 & C4). split; [|split; [|split; auto]].
           ++ intros x. rewrite skipped_find, (gen_l_ctx _ _ _ _ _ _ _ x G). destruct (mem x (decls b)); simpl; [split; congruence|apply C1].
           ++ intros x r. rewrite skipped_find, bypass_find. pose proof (gen_l_noted _ _ _ _ _ _ G x) as N.
              destruct (mem x (decls b)).
              ** intros [= <-]. rewrite (N eq_refl). eexists. split; [reflexivity|constructor].
              ** intros Hx. pose proof (H6 ltac:(discriminate) _ _ Hx) as ->. destruct (mem x (noted na1)); [eexists; split; [reflexivity|constructor]|].
                 apply C2; auto.
           ++ rewrite bypass_defers. auto.
        -- intros _ x r. rewrite skipped_find. destruct (mem x (decls b)); [congruence|]. apply H6. discriminate.
  - (* KDefault *)
    intros F. simpl in F. split_fair. destruct (H0 H2) as [Kc Kb]. split.
    + intros. cbn [gen_k] in *. destruct (gen_l b cb (c :: cs) (Some [])) as [[k1 c1] na1] eqn:G.
      cbn [rebind_k] in *. obinds. injection H5 as <-. cbn [choose find_clause]. eapply Kc; eauto.
    + intros. cbn [gen_k] in *. destruct (gen_l b cb (c :: cs) (Some [])) as [[k1 c1] na1] eqn:G.
      cbn [rebind_k] in *. obinds. injection H6 as <-. subst p p'. cbn [exec_k jump].
      destruct n as [|n].
      * change (let p := match xl b sc en w with (w, s, Next) => xk l 0 s en w | q => q end in
                let p' := match yl a sc' fs w' with (w, s, Next) => yk a0 0 s fs w | q => q end in
                rworld (fst (fst p)) (fst (fst p')) /\ rsres (snd p) (snd p') /\ Forall2 rdef (defers (snd (fst p))) (defers (snd (fst p')))).
        destruct (H H1 _ _ _ _ _ _ true _ _ _ _ fs (S d) _ w w' G H3 ltac:(discriminate) H5 E H7) as (P1 & P2 & P3 & P4).
        destruct (xl b sc en w) as [[w1 s1] r1], (yl a sc' fs w') as [[w1' s1'] r1']. simpl in P1, P2, P3, P4.
        destruct r1, r1'; simpl in P2; try contradiction; try (split; [exact P1|]; split; [exact P2|exact P3]).
        apply (Kb c1 c cs s1 en s1' K fs d a0 0%nat w1 w1' (P4 eq_refl)); auto. intros N. exfalso. apply N. reflexivity.
      * eapply Kb; eauto.
        -- destruct H3 as (C1 & C2 & C3 & C4). split; [|split; [|split; auto]].
           ++ intros x. rewrite skipped_find, (gen_l_ctx _ _ _ _ _ _ _ x G). destruct (mem x (decls b)); simpl; [split; congruence|apply C1].
           ++ intros x r. rewrite skipped_find, bypass_find. pose proof (gen_l_noted _ _ _ _ _ _ G x) as N.
              destruct (mem x (decls b)).
              ** intros [= <-]. rewrite (N eq_refl). eexists. split; [reflexivity|constructor].
              ** intros Hx. pose proof (H4 ltac:(discriminate) _ _ Hx) as ->. destruct (mem x (noted na1)); [eexists; split; [reflexivity|constructor]|].
                 apply C2; auto.
           ++ rewrite bypass_defers. auto.
        -- intros _ x r. rewrite skipped_find. destruct (mem x (decls b)); [congruence|]. apply H4. discriminate.
Qed.
End Sim.

Lemma invoke_rel : forall glob n f g xs ys w w', rfun f g -> Forall2 rref xs ys -> rworld w w' ->
  re (apply glob n f xs w) (invoke glob n g ys w').
Proof.
  intros glob. induction n as [|n IH]; intros f g xs ys w w' F X W; simpl; [split; simpl; auto|].
  destruct F as [ps b en cs K code Fa M E].
  pose proof (parameters_rel ps _ _ X) as P.
  destruct (parameters ps xs) as [f|], (bind_args ps ys []) as [g|]; try contradiction; [|apply re_thr; auto].
  destruct P as [P1 P2].
  assert (A : agree 0 [] K) by (intros k L; lia).
  pose proof (proj1 (proj2 (proj2 (proj2 (exec_rel glob _ _ n IH)))) b) as Pb.
  pose proof (block_rel glob _ _ n IH b Pb Fa ps cs en K [] 0%nat code f g M P1 P2 A E w w' W) as [Q1 Q2].
  match type of Q1 with rworld (fst ?a) (fst ?b) => destruct a as [w1 r1], b as [w1' r1'] end. simpl in Q1, Q2.
  destruct r1, r1'; simpl in Q2; try contradiction; try (split; simpl; auto; fail).
  - split; simpl; auto. constructor.
  - apply re_thr; auto.
  - apply re_thr; auto.
Qed.

Lemma run_meaning : forall glob n b, fair_l b = true -> re (meaning glob n b) (run glob n b).
Proof.
  intros glob n b F. apply invoke_rel; [|constructor|split; constructor].
  apply (R_closure [] b [] [] []); auto; [constructor|].
  apply (proj1 (proj2 (proj2 (proj2 rebind_none)))). apply (proj1 (proj2 (proj2 (proj2 gen_ok)))).
Qed.
