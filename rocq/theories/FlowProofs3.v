(* Every completed run of the machine has the outcome that the specification
   gives. *)
From Verif Require Import Base FlowModel FlowSpec FlowProofs1 FlowProofs2.
From Coq Require Import Lia.

Section Proofs.

Context {W E R V X A F It : Type}.
Notation ops := (@ops W E R V X A F It).
Notation expr := (@expr W E R X A F).
Notation stmt := (@stmt W E R X A F It).
Notation label := (@label W E R X A F).
Notation result := (@result R).
Notation node := (@node W E R X A F It).
Notation out := (@out R X).
Notation mst := (@mst W E R X A F It).
Notation ctx := (@ctx W E R X A F It).
Notation res := (@res W E R X A F It).
Notation ref := (@ref W E R X A F It).
Notation ptc := (@ptc W E R X A F It).
Notation job := (@job W E R V X A F It).

Variable ptcf : bool.
Variable body : F -> list stmt.
Variable o : ops.
Notation gen := (@gen W E R X A F It ptcf).
Notation code := (@code W E R X A F It ptcf).
Notation frag := (@frag W E R X A F It ptcf).
Notation run := (@run W E R V X A F It ptcf body o).
Notation eval := (@eval W E R V X A F It o body).
Notation call := (@call W E R V X A F It o body).
Notation scope := (@scope W E R V X A F It o body).
Notation unwind := (@unwind W E R V X A F It o body).
Notation unwound := (@unwound W E R V X A F It body o).
Notation stmts := (@stmts W E R V X A F It o body).
Notation stmt_ := (@stmt_ W E R V X A F It o body).
Notation cond := (@cond W E R V X A F It o body).
Notation find := (@find W E R V X A F It o body).
Notation fall := (@fall W E R V X A F It o body).
Notation each := (@each W E R V X A F It o body).
Notation loop := (@loop W E R V X A F It o body).
Notation read := (@read W E R V X A F It o).
Notation returned := (@returned W E R V X A F It o).
Notation finish := (@finish W E R V X A F It o).
Notation mdef := (@mdef W E R X A F It ptcf).
Notation ref_of := (@ref_of W E R X A F It).
Notation matches := (@matches W E R X A F It).
Notation Leave := (@Leave W E R V X A F It ptcf body o).
Notation gexp := (@gen_expr W E R X A F It ptcf).
Notation has l := (existsb is_defer l || existsb inner l).

Variable md : ptc_aware.
Hypothesis Hmd : ptcf = true -> md = ptc_by_val \/ md = ptc_void.
Hypothesis Htemp : ptcf = true -> forall w v, value o w (temp o v) = inl v.
Hypothesis Hacc : forall f, forallb (accepted scope_plain) (body f) = true.
Hypothesis Hharm : ptcf = true -> forall f, harmless md (body f) = true.

(* ---- programs ---- *)
Definition oks (q : ptc_aware) (s : stmt) : Prop :=
  ((exists fl, accepted fl s = true) /\ (q = ptc_none \/ q = ptc_void))
  /\ (ptcf = true -> uniform md q s = true /\ nest s = true).
Definition ok (q : ptc_aware) (l : list stmt) : Prop :=
  ((exists fl, forallb (accepted fl) l = true) /\ (q = ptc_none \/ q = ptc_void))
  /\ (ptcf = true -> uni_list (uniform md) q l = true /\ forallb nest l = true).
Definition one (l : list stmt) : Prop :=
  ptcf = true -> existsb is_defer l && existsb inner l = false.

Lemma ok_cons : forall q s l, ok q (s :: l) -> oks (nextq q l) s /\ ok q l.
Proof.
  intros q s l [[[fl Ha] Hq] Hp]. simpl in Ha. apply andb_prop in Ha. destruct Ha as [Ha1 Ha2].
  split; (split; [split; [exists fl; assumption|]|]).
  - destruct l as [|s' l]; [assumption|]. simpl. destruct (is_empty_return s'); auto.
  - intros Ht; destruct (Hp Ht) as [H1 H2]; simpl in H1, H2; apply andb_prop in H1, H2; tauto.
  - assumption.
  - intros Ht; destruct (Hp Ht) as [H1 H2]; simpl in H1, H2; apply andb_prop in H1, H2; tauto.
Qed.

(* ---- postconditions ---- *)
Definition tail_out (ov : out) (w : W) (rr : result + X) : out :=
  match rr with
  | inr x => OThrow x
  | inl r =>
      match md with
      | ptc_void => ov
      | ptc_by_ref => returned true w r
      | _ => returned false w r
      end
  end.

Definition pending (ov : out) (rel : W -> out -> Prop) (flag : bool) (m : mst) : Prop :=
  ptcf = true /\
  exists pt s pds,
    stat m = st_return /\ stk m = RPtc pt :: s /\ p_defer pt = map mdef pds /\ p_mode pt = md
    /\ (pds = [] \/ flag = true)
    /\ forall w2 rr w3 r,
         call (p_target pt) (p_args pt) (world m) w2 rr ->
         unwind pds (tail_out ov w2 rr) w2 w3 r -> rel w3 r.

Definition post (q : ptc_aware) (rel : W -> out -> Prop) (flag : bool) (m : mst) : Prop :=
  (exists r, rel (world m) r /\ matches r m)
  \/ (exists ov, (ov = OReturn Void \/ (ov = ONext /\ q = ptc_void)) /\ pending ov rel flag m).

Lemma post_weaken : forall q (rel rel' : W -> out -> Prop) (flag flag' : bool) m,
  (forall w r, rel w r -> rel' w r) -> (flag = true -> flag' = true) ->
  post q rel flag m -> post q rel' flag' m.
Proof.
  intros q rel rel' flag flag' m Hr Hf [[r [H1 H2]]|[ov [Ho [Ht [pt [s [pds [Ha [Hb [Hc [Hd [He Hg]]]]]]]]]]]].
  - left. exists r. auto.
  - right. exists ov. split; [assumption|]. split; [assumption|].
    exists pt, s, pds. do 4 (split; [assumption|]). split; [destruct He; auto|]. eauto.
Qed.
(* a construct whose contents are not in tail position *)
Lemma post_none : forall q rel flag m, post ptc_none rel flag m -> post q rel flag m.
Proof.
  intros q rel flag m [H|[ov [[Ho|[_ Ho]] H]]]; [left; assumption| |discriminate].
  right. exists ov. auto.
Qed.

Lemma tail_not_next : forall w rr, tail_out (OReturn Void) w rr <> ONext.
Proof.
  intros w [r|x]; simpl; [|discriminate].
  destruct md; simpl; destruct r; simpl; try discriminate;
    destruct (value o w r); discriminate.
Qed.
(* the outcome of a tail call that is not in a void position *)
Lemma tail_shape : forall w rr,
  (exists r, tail_out (OReturn Void) w rr = OReturn r) \/ (exists x, tail_out (OReturn Void) w rr = OThrow x).
Proof.
  intros w [r|x]; simpl; [|right; eauto].
  destruct md; simpl; destruct r; simpl; eauto; destruct (value o w r); eauto.
Qed.
Lemma unwind_tail_shape : forall d w rr w3 r,
  unwind d (tail_out (OReturn Void) w rr) w w3 r ->
  (exists y, r = OReturn y) \/ (exists x, r = OThrow x).
Proof.
  intros d w rr w3 r H. destruct (unwind_sub _ _ _ _ _ _ _ H) as [[-> _]|[x [-> _]]].
  - apply tail_shape.
  - right. eauto.
Qed.
Lemma matches_not_next : forall r m, matches r m -> r <> ONext -> is_next (stat m) = false.
Proof.
  intros [|t|t|[|r]|x] m H Hn; simpl in H.
  - congruence.
  - rewrite H. reflexivity.
  - rewrite H. reflexivity.
  - destruct H as [H|[H _]]; rewrite H; reflexivity.
  - destruct H as [H _]; rewrite H; reflexivity.
  - contradiction.
Qed.
Lemma is_next_true : forall s, is_next s = true -> s = st_next.
Proof. intros [] H; try discriminate; reflexivity. Qed.

(* code in a context: [f1] may leave tail calls with deferred expressions, [f2]
   may defer expressions *)
Definition Qs (rel : E -> list (E * expr) -> W -> out -> Prop) (ds0 : list (E * expr))
    (f1 f2 : bool) (q : ptc_aware) (r : res) : Prop :=
  match r with
  | Fuel => True
  | Bad => False
  | Exn x c' m' => exists e' ds', dfr c' = map mdef ds' /\ rel e' ds' (world m') (OThrow x)
  | Go c' m' =>
      exists ds', dfr c' = map mdef ds' /\ (ds' = ds0 \/ f2 = true) /\
        post q (fun w r => exists e', (r = ONext -> stat m' = st_next -> e' = names c')
                                      /\ rel e' ds' w r) f1 m'
  end.
(* a scope *)
Definition Qsc (rel : W -> out -> Prop) (f : bool) (q : ptc_aware) (c : ctx) (r : res) : Prop :=
  match r with
  | Fuel => True
  | Bad => False
  | Exn x c' m' => c' = c /\ rel (world m') (OThrow x)
  | Go c' m' => c' = c /\ post q rel f m'
  end.

Lemma Qsc_weaken : forall (rel rel' : W -> out -> Prop) (f f' : bool) q c r,
  (forall w r, rel w r -> rel' w r) -> (f = true -> f' = true) ->
  Qsc rel f q c r -> Qsc rel' f' q c r.
Proof.
  intros rel rel' f f' q c [c' m'|x c' m'| |] Hr Hf H; simpl in *; auto.
  - destruct H. split; [assumption|]. eapply post_weaken; eauto.
  - destruct H. auto.
Qed.
Lemma Qsc_none : forall rel f q c r, Qsc rel f ptc_none c r -> Qsc rel f q c r.
Proof.
  intros rel f q c [c' m'|x c' m'| |] H; simpl in *; auto.
  destruct H. split; [assumption|]. apply post_none; assumption.
Qed.
Lemma Qs_weaken : forall (rel rel' : E -> list (E * expr) -> W -> out -> Prop) ds0 (f1 f2 f1' f2' : bool) q r,
  (forall e ds w r, rel e ds w r -> rel' e ds w r) -> (f1 = true -> f1' = true) ->
  (f2 = true -> f2' = true) ->
  Qs rel ds0 f1 f2 q r -> Qs rel' ds0 f1' f2' q r.
Proof.
  intros rel rel' ds0 f1 f2 f1' f2' q [c' m'|x c' m'| |] Hr Hf1 Hf2 H; simpl in *; auto.
  - destruct H as [ds' [H1 [H2 H3]]]. exists ds'. split; [assumption|]. split; [destruct H2; auto|].
    eapply post_weaken; [| |exact H3]; auto. intros w r [e' [Ha Hb]]. eauto.
  - destruct H as [e' [ds' [H1 H2]]]. eauto.
Qed.
(* a scope as a statement *)
Lemma Qsc_Qs : forall (rel : W -> out -> Prop) f q c r (rel' : E -> list (E * expr) -> W -> out -> Prop) ds f2,
  dfr c = map mdef ds -> (forall w r, rel w r -> rel' (names c) ds w r) ->
  Qsc rel f q c r -> Qs rel' ds f f2 q r.
Proof.
  intros rel f q c [c' m'|x c' m'| |] rel' ds f2 Hd Hr H; simpl in *; auto.
  - destruct H as [-> H]. exists ds. split; [assumption|]. split; [auto|].
    eapply post_weaken; [| |exact H]; auto. intros w r Hw. exists (names c). auto.
  - destruct H as [-> H]. exists (names c), ds. auto.
Qed.

(* expressions *)
Definition Qexpr (p : ptc_aware) (e : expr) (c : ctx) (m : mst) (r : res) : Prop :=
  match r with
  | Fuel => True
  | Bad => False
  | Exn x c' m' => c' = c /\ eval (names c) e (world m) (world m') (inr x)
  | Go c' m' =>
      c' = c /\
      ((stat m' = st_next /\ exists rr, stk m' = ref_of rr :: stk m
                                        /\ eval (names c) e (world m) (world m') (inl rr))
       \/ (ptcf = true /\ p <> ptc_none /\ may_call e = true /\ stat m' = st_return /\
           exists f a s, stk m' = RPtc (mk_ptc p f a []) :: s
             /\ forall w2 rr, call f a (world m') w2 rr -> eval (names c) e (world m) w2 rr))
  end.
Definition Qrod (e : expr) (c : ctx) (w : W) (r : res) : Prop :=
  match r with
  | Fuel => True
  | Bad => False
  | Exn x c' m' => c' = c /\ eval (names c) e w (world m') (inr x)
  | Go c' m' =>
      c' = c /\ stat m' = st_next /\
      exists rr, stk m' = [ref_of rr] /\ eval (names c) e w (world m') (inl rr)
  end.

(* leaving scopes *)
Definition Qexit (ds : list (E * expr)) (r : out) (w : W) (q : res) : Prop :=
  match q with
  | Fuel => True
  | Bad => False
  | Go _ m' => matches r m' /\ unwound ds w (world m') None
  | Exn x _ m' => unwound ds w (world m') (Some x)
  end.
Definition Qloop (ds : list (E * expr)) (saved : option ref) (s : status) (w : W) (q : res) : Prop :=
  match q with
  | Fuel => True
  | Bad => False
  | Go _ m' => stat m' = s /\ match saved with
                              | Some r => exists t, stk m' = r :: t
                              | None => True
                              end /\ unwound ds w (world m') None
  | Exn x _ m' => unwound ds w (world m') (Some x)
  end.
Definition Qexn (ds : list (E * expr)) (x : X) (w : W) (q : res) : Prop :=
  match q with
  | Fuel => True
  | Bad | Go _ _ => False
  | Exn x' _ m' => unwind ds (OThrow x) w (world m') (OThrow x')
  end.

(* calls *)
Definition Qcall (f : F) (a : A) (w : W) (q : res) : Prop :=
  match q with
  | Fuel => True
  | Bad => False
  | Go _ m' => exists rr, stk m' = [ref_of rr] /\ call f a w (world m') (inl rr)
  | Exn x _ m' => call f a w (world m') (inr x)
  end.
Definition Qptc (f : F) (a : A) (w : W) (q : res) : Prop :=
  match q with
  | Fuel => True
  | Bad => False
  | Go _ m' =>
      (exists rr, stk m' = [ref_of rr] /\ call f a w (world m') (inl rr))
      \/ (ptcf = true /\ exists pt d,
            stk m' = [RPtc pt] /\ p_mode pt = md /\ p_defer pt = map mdef d
            /\ forall w2 rr w3 r,
                 call (p_target pt) (p_args pt) (world m') w2 rr ->
                 unwind d (tail_out (OReturn Void) w2 rr) w2 w3 r -> call f a w w3 (finish r))
  | Exn x _ m' => call f a w (world m') (inr x)
  end.
Fixpoint chain (dss : list (list (E * expr))) (w : W) (rr : result + X) (w' : W) (rr' : result + X) : Prop :=
  match dss with
  | [] => w' = w /\ rr' = rr
  | d :: dss =>
      exists w1 r, unwind d (tail_out (OReturn Void) w rr) w w1 r /\ chain dss w1 (finish r) w' rr'
  end.
Definition frame (p : ptc) (d : list (E * expr)) : Prop := p_defer p = map mdef d /\ p_mode p = md.
Definition Quse (p : ptc) (dss : list (list (E * expr))) (w : W) (q : res) : Prop :=
  match q with
  | Fuel => True
  | Bad => False
  | Go _ m' => exists rr, stk m' = [ref_of rr] /\ exists w2 r2,
        call (p_target p) (p_args p) w w2 r2 /\ chain dss w2 r2 (world m') (inl rr)
  | Exn x _ m' => exists w2 r2,
        call (p_target p) (p_args p) w w2 r2 /\ chain dss w2 r2 (world m') (inr x)
  end.
Definition Qret (rr0 rr1 : result) (dss : list (list (E * expr))) (w : W) (q : res) : Prop :=
  match q with
  | Fuel => True
  | Bad => False
  | Go _ m' => stk m' = [ref_of rr1] /\ chain dss w (inl rr0) (world m') (inl rr1)
  | Exn x _ m' => chain dss w (inl rr0) (world m') (inr x)
  end.
Definition Qunw (x : X) (dss : list (list (E * expr))) (w : W) (q : res) : Prop :=
  match q with
  | Fuel => True
  | Bad | Go _ _ => False
  | Exn x' _ m' => chain dss w (inr x) (world m') (inr x')
  end.
Definition stable (rr : result) : Prop := forall w, tail_out (OReturn Void) w (inl rr) = OReturn rr.
Definition ret_pre (rr0 rr1 : result) (v : option V) (fs : list ptc) (w : W) : Prop :=
  (v = None /\ rr1 = rr0 /\ stable rr0)
  \/ (exists v0 r0, md = ptc_by_val /\ v = Some v0 /\ rr0 = Val r0 /\ value o w r0 = inl v0
                    /\ rr1 = Val (temp o v0) /\ fs <> []).

(* the clauses of a switch *)
Notation clause_ := (@clause_ W E R X A F It).
Definition gcl (c : clause_) : @clause W E R X A F It :=
  let '(lb, skip, b) := c in
  match lb with
  | LDefault => (clause_default, [], skip, code ptc_none b)
  | LCase x => (clause_case, gexp ptc_none (Some x), skip, code ptc_none b)
  | LEach lc uc lo up =>
      (clause_each lc uc,
       gexp ptc_none (Some lo) ++ [NExpr (rptc ptcf ptc_none) up],
       skip, code ptc_none b)
  end.
Definition okcl (f1 f2 : bool) (cl : list clause_) : Prop :=
  Forall (fun c => ok ptc_none (snd c) /\ (existsb inner (snd c) = true -> f1 = true)
                   /\ (existsb is_defer (snd c) = true -> f2 = true)) cl
  /\ (ptcf = true -> f1 && f2 = false).
Definition rel_switch (cl rest : list clause_) (e : E) (v : V) (k : nat) (d : option nat) (w : W)
    (w' : W) (r : out) : Prop :=
  (exists w1 t e' ds' w2 r0 r1, find e v k d rest w w1 (inl (Some t))
      /\ fall (skipped t cl e) [] (from t cl) w1 e' ds' w2 r0 /\ leaves_switch r0 r1
      /\ unwind ds' r1 w2 w' r)
  \/ (find e v k d rest w w' (inl None) /\ r = ONext)
  \/ (exists y, find e v k d rest w w' (inr y) /\ r = OThrow y).

(* ---- what holds of every job ---- *)
Record all (k : nat) : Prop := {
  h_expr : forall p e c m, stat m = st_next -> (p = ptc_none \/ ptcf = true) ->
      Qexpr p e c m (run k (JExpr p e c) m);
  h_block : forall q l c m, ok q l -> one l ->
      Qsc (fun w r => scope (names c) l (world m) w r) (has l) q c (run k (JBlock (code q l) c) m);
  h_rod : forall q l c ds m, ok q l -> dfr c = map mdef ds ->
      Qs (fun e' ds' w r => stmts (names c) ds l (world m) e' ds' w r) ds
         (existsb inner l) (existsb is_defer l) q (run k (JRod (code q l) c) m);
  h_rode : forall e c m, Qrod e c (world m) (run k (JRod (gexp ptc_none (Some e)) c) m);
  h_exit : forall c ds m r, dfr c = map mdef ds -> matches r m ->
      Qexit ds r (world m) (run k (JExit c) m);
  h_loop : forall c ds saved s m, dfr c = map mdef ds ->
      Qloop ds saved s (world m) (run k (JExitLoop c saved s) m);
  h_exn : forall c ds x m, dfr c = map mdef ds -> Qexn ds x (world m) (run k (JExitExn x c) m);
  h_find : forall f1 f2 v i d rest cl c m, okcl f1 f2 cl -> stat m = st_next ->
      Qsc (rel_switch cl rest (names c) v i d (world m)) (f1 || f2) ptc_none c
          (run k (JFind v i d (map gcl rest) (map gcl cl) c) m);
  h_clauses : forall f1 f2 i cl c ds m, okcl f1 f2 cl -> stat m = st_next -> dfr c = map mdef ds ->
      Qs (fun _ ds' w r => exists e' r0,
            fall (skipped i cl (names c)) ds (from i cl) (world m) e' ds' w r0 /\ leaves_switch r0 r)
         ds f1 f2 ptc_none (run k (JClauses i (map gcl cl) c) m);
  h_do : forall q b neg x l c m, ok ptc_none b -> one b -> ok q l -> one l ->
      Qsc (fun w r => stmt_ (names c) [] (SDoWhile b neg x l) (world m) (names c) [] w r)
          (has b || has l) q c
          (run k (JDoWhile (code ptc_none b) neg (gexp ptc_none (Some x)) (code q l) c) m);
  h_while : forall q neg x b l c m, ok ptc_none b -> one b -> ok q l -> one l ->
      Qsc (fun w r => stmt_ (names c) [] (SWhile neg x b l) (world m) (names c) [] w r)
          (has b || has l) q c
          (run k (JWhile neg (gexp ptc_none (Some x)) (code ptc_none b) (code q l) c) m);
  h_each : forall q its item b l outer c m, ok ptc_none b -> one b -> ok q l -> one l ->
      dfr c = [] ->
      Qs (fun _ ds' w r => ds' = [] /\ each its item b l (names outer) (names c) (world m) w r) []
         (has b || has l) false q
         (run k (JForEach its item (code ptc_none b) (code q l) outer c) m);
  h_for : forall q cn sp b l outer c m, ok ptc_none b -> one b -> ok q l -> one l ->
      dfr c = [] ->
      Qs (fun _ ds' w r => ds' = [] /\ loop cn sp b l (names outer) (names c) (world m) w r) []
         (has b || has l) false q
         (run k (JFor (gexp ptc_none cn) (gexp ptc_none sp)
                   (code ptc_none b) (code q l) outer c) m);
  h_invoke : forall f a c m, Qcall f a (world m) (run k (JInvoke f a c) m);
  h_ptc : forall f a c m, Qptc f a (world m) (run k (JPtcInvoke f a c) m);
  h_use : forall p fs c m dss, ptcf = true -> Forall2 frame (p :: fs) dss ->
      Quse p dss (world m) (run k (JUse p fs c) m);
  h_return : forall rr0 rr1 v fs c m dss, ptcf = true -> Forall2 frame fs dss ->
      ret_pre rr0 rr1 v fs (world m) ->
      Qret rr0 rr1 dss (world m) (run k (JReturn (ref_of rr0) v fs c) m);
  h_unw : forall x fs c m dss, ptcf = true -> Forall2 frame fs dss ->
      Qunw x dss (world m) (run k (JUnwind x fs c) m)
}.

Definition IH (n : nat) : Prop := forall k, (k < n)%nat -> all k.

Lemma IH_le : forall n k, IH n -> (k <= n)%nat -> IH k.
Proof. intros n k H Hk j Hj. apply H. lia. Qed.

(* ---- leaving a scope ---- *)
Lemma map_nil : forall (ds : list (E * expr)), [] = map mdef ds -> ds = [].
Proof. intros [|d ds] H; [reflexivity|discriminate]. Qed.

Lemma leave_ok : forall n rel f1 f2 q c r0, all n -> Qs rel [] f1 f2 q r0 ->
  (ptcf = true -> f1 && f2 = false) ->
  Qsc (fun w r => exists e' ds' w0 r0, rel e' ds' w0 r0 /\ unwind ds' r0 w0 w r)
      (f2 || f1) q c (Leave n c r0).
Proof.
  intros n rel f1 f2 q c [c' m'|x c' m'| |] Ha H Hf; simpl in H; try contradiction; try exact I.
  - destruct H as [ds' [Hd [Hf2 Hp]]]. cbn [FlowProofs2.Leave].
    destruct Hp as [[r [[e' [_ Hr]] Hm]]|[ov [Ho [Ht [pt [s [pds [Hst [Hsk [Hpd [Hmo [Hfl Hall]]]]]]]]]]]].
    + pose proof (h_exit n Ha c' ds' m' r Hd Hm) as Hx.
      destruct (run n (JExit c') m') as [c1 m1|x c1 m1| |]; simpl in *; auto.
      * destruct Hx as [Hx1 Hx2]. split; [reflexivity|]. left. exists r.
        split; [|assumption]. exists e', ds', (world m'), r. split; [assumption|apply Hx2].
      * split; [reflexivity|]. exists e', ds', (world m'), r. split; [assumption|apply Hx].
    + destruct n as [|n]; [exact I|]. cbn [FlowModel.run].
      destruct ds' as [|d0 ds'].
      * (* no deferred expressions here *)
        rewrite Hd. cbn [map seq]. split; [reflexivity|]. right. exists ov. split; [assumption|].
        split; [assumption|]. exists pt, s, pds. do 4 (split; [assumption|]).
        split; [destruct Hfl as [Hfl|Hfl]; [left; assumption|right; rewrite Hfl; apply orb_true_r]|].
        intros w2 rr w3 r Hc Hu. destruct (Hall _ _ _ _ Hc Hu) as [e' [_ Hr]].
        exists e', [], w3, r. split; [assumption|apply un_nil].
      * (* they are added to those of the call, which has none *)
        destruct Hf2 as [Hf2|Hf2]; [discriminate|].
        assert (pds = []) as ->.
        { destruct Hfl as [Hfl|Hfl]; [assumption|]. specialize (Hf Ht). rewrite Hfl, Hf2 in Hf. discriminate. }
        rewrite Hd, Hst, Hsk. cbn [map seq]. split; [reflexivity|]. right. exists ov. split; [assumption|].
        split; [assumption|].
        eexists _, s, (d0 :: ds'). split; [exact Hst|]. split; [reflexivity|].
        split; [cbn [p_defer]; rewrite Hpd; cbn [map]; rewrite app_nil_r; reflexivity|].
        split; [exact Hmo|]. split; [right; rewrite Hf2; reflexivity|].
        intros w2 rr w3 r Hc Hu. cbn [p_target p_args] in Hc.
        destruct (Hall _ _ _ _ Hc (un_nil _ _ _ _)) as [e' [_ Hr]].
        exists e', (d0 :: ds'), w2, (tail_out ov w2 rr). split; assumption.
  - destruct H as [e' [ds' [Hd Hr]]]. cbn [FlowProofs2.Leave].
    pose proof (h_exn n Ha c' ds' x m' Hd) as Hx.
    destruct (run n (JExitExn x c') m') as [c1 m1|x1 c1 m1| |]; simpl in *; auto; try contradiction.
    split; [reflexivity|]. exists e', ds', (world m'), (OThrow x). split; assumption.
Qed.

(* ---- expressions ---- *)
Lemma seq_expr_p : forall n p e c m, IH n -> stat m = st_next -> (p = ptc_none \/ ptcf = true) ->
  Qexpr p e c (set_stk m []) (run n (JSeq [NClear; NExpr p e] c) m).
Proof.
  intros n p e c m HI Hm Hp. destruct n as [|n]; [exact I|].
  rewrite run_cons. destruct n as [|n]; [exact I|].
  change (run (S n) (JNode NClear c) m) with (@Go W E R X A F It c (set_stk m [])).
  cbv beta iota. change (stat (set_stk m [])) with (stat m). rewrite Hm. cbn [is_next].
  rewrite seq_single. destruct n as [|n]; [exact I|].
  change (run (S n) (JNode (NExpr p e) c) (set_stk m [])) with (run n (JExpr p e c) (set_stk m [])).
  apply h_expr; [apply HI; lia|assumption|assumption].
Qed.
Lemma rptc_none : rptc ptcf ptc_none = ptc_none.
Proof. unfold rptc. destruct ptcf; reflexivity. Qed.
Lemma rptc_cases : forall p, rptc ptcf p = ptc_none \/ ptcf = true.
Proof. intros p. unfold rptc. destruct ptcf; auto. Qed.

Lemma Qexpr_rod : forall e c m r,
  Qexpr ptc_none e c (set_stk m []) r -> Qrod e c (world m) r.
Proof.
  intros e c m [c' m'|x c' m'| |] H; simpl in *; auto.
  destruct H as [-> [[H1 [rr [H2 H3]]]|[_ [H _]]]]; [|congruence].
  split; [reflexivity|]. split; [assumption|]. exists rr. split; assumption.
Qed.
Lemma seq_expr : forall n e c m, IH n -> stat m = st_next ->
  Qrod e c (world m) (run n (JSeq (gexp ptc_none (Some e)) c) m).
Proof.
  intros n e c m HI Hm. unfold gen_expr. rewrite rptc_none.
  apply Qexpr_rod. apply seq_expr_p; auto.
Qed.
Lemma top_read : forall m c rr s k, stk m = ref_of rr :: s ->
  with_top o m c k = match read (world m) rr with inl v => k v | inr x => Exn x c m end.
Proof.
  intros m c rr s k H. unfold with_top. rewrite H. destruct rr; reflexivity.
Qed.

(* an expression whose value is used, and then one node *)
Lemma seq_cond : forall n e x c m (Q : res -> Prop), IH n -> stat m = st_next ->
  Q Fuel ->
  (forall y m', cond (names c) e (world m) (world m') (inr y) -> Q (Exn y c m')) ->
  (forall v k m', (k < n)%nat -> stat m' = st_next ->
     cond (names c) e (world m) (world m') (inl v) ->
     (forall k0 kk, with_top o m' c k0 = kk -> k0 v = kk) ->
     (forall k0, with_top o m' c k0 = k0 v) -> Q (run k (JNode x c) m')) ->
  (forall y k m', (k < n)%nat -> stat m' = st_next ->
     cond (names c) e (world m) (world m') (inr y) ->
     (forall k0, with_top o m' c k0 = Exn y c m') -> Q (run k (JNode x c) m')) ->
  Q (run n (JSeq (gexp ptc_none (Some e) ++ [x]) c) m).
Proof.
  intros n e x c m Q HI Hm HF HX HG HR. rewrite seq_app by assumption.
  pose proof (seq_expr n e c m HI Hm) as H.
  destruct (run n (JSeq (gexp ptc_none (Some e)) c) m) as [c' m'|y c' m'| |];
    simpl in H; try contradiction; auto.
  - destruct H as [-> [Hs [rr [Hk He]]]]. rewrite Hs. cbn [is_next].
    destruct (n - length (gexp ptc_none (Some e)))%nat as [|k] eqn:Ek; [exact HF|].
    rewrite seq_single. pose proof (co_ok _ _ _ _ _ _ _ He) as Hc.
    destruct (read (world m') rr) as [v|y] eqn:Er.
    + apply (HG v); auto; [lia| |].
      * intros k0 kk <-. rewrite (top_read _ _ _ _ _ Hk), Er. reflexivity.
      * intros k0. rewrite (top_read _ _ _ _ _ Hk), Er. reflexivity.
    + apply (HR y); auto; [lia|]. intros k0. rewrite (top_read _ _ _ _ _ Hk), Er. reflexivity.
  - destruct H as [-> He]. apply HX. apply co_throw. assumption.
Qed.


(* ---- statuses ---- *)
Lemma meant_dec : forall k t, (target_eqb t TNone || target_eqb t k = true /\ meant k t)
  \/ (target_eqb t TNone || target_eqb t k = false /\ ~ meant k t).
Proof.
  intros k t. unfold meant. destruct t, k; simpl; auto; right; split; auto; intros [?|?]; discriminate.
Qed.

Lemma matches_set_next : forall m, matches ONext (set_stat m st_next).
Proof. reflexivity. Qed.

Lemma after_ok : forall k c m rel flag again (Q : res -> Prop),
  post ptc_none rel flag m ->
  (forall r m2, rel (world m) r -> goes_on k r -> world m2 = world m -> stat m2 = st_next ->
                Q (again m2)) ->
  (forall m2, post ptc_none (fun w r' => exists r, rel w r /\ leaves k r r') flag m2 -> Q (Go c m2)) ->
  Q (after_body k c m again).
Proof.
  intros k c m rel flag again Q [[r [Hr Hm]]|[ov [[-> |[_ Ho]] Hp]]] Hg Hl; [| |discriminate];
    unfold after_body.
  - destruct r as [|t|t|[|r]|x]; simpl in Hm.
    + rewrite Hm. cbn [is_continue is_next]. eapply Hg; eauto. constructor.
    + rewrite Hm. cbn [is_continue is_next is_break].
      destruct (meant_dec k t) as [[-> Hk]|[-> Hk]]; apply Hl; left.
      * exists ONext. split; [|reflexivity]. exists (OBreak t). split; [assumption|]. constructor; assumption.
      * exists (OBreak t). split; [|assumption]. exists (OBreak t). split; [assumption|]. constructor; assumption.
    + rewrite Hm. cbn [is_continue is_next is_break].
      destruct (meant_dec k t) as [[-> Hk]|[-> Hk]].
      * eapply Hg; eauto. constructor. assumption.
      * apply Hl; left. exists (OContinue t). split; [|assumption]. exists (OContinue t). split; [assumption|].
        constructor; assumption.
    + assert (is_continue k (stat m) = false /\ is_next (stat m) = false /\ is_break k (stat m) = false) as [-> [-> ->]].
      { destruct Hm as [Hm|[Hm _]]; rewrite Hm; auto. }
      apply Hl. left. exists (OReturn Void). split; [|assumption]. exists (OReturn Void).
      split; [assumption|constructor].
    + assert (is_continue k (stat m) = false /\ is_next (stat m) = false /\ is_break k (stat m) = false) as [-> [-> ->]].
      { destruct Hm as [Hm _]; rewrite Hm; auto. }
      apply Hl. left. exists (OReturn (Val r)). split; [|assumption]. exists (OReturn (Val r)).
      split; [assumption|constructor].
    + contradiction.
  - destruct Hp as [Ht [pt [s [pds [Hst [Hsk [Hpd [Hmo [Hfl Hall]]]]]]]]].
    rewrite Hst. cbn [is_continue is_next is_break]. apply Hl. right. exists (OReturn Void).
    split; [auto|]. split; [assumption|]. exists pt, s, pds. do 5 (split; [assumption|]).
    intros w2 rr w3 r Hc Hu. exists r. split; [eauto|].
    destruct (unwind_tail_shape _ _ _ _ _ Hu) as [[y ->]|[x ->]]; constructor.
Qed.

(* the result of a scope, in a construct that goes on in [c] *)
Lemma seq_sc : forall rel f q c0 c r k (Q : res -> Prop), Qsc rel f q c0 r ->
  Q Fuel ->
  (forall x m', rel (world m') (OThrow x) -> Q (Exn x c m')) ->
  (forall m', post q rel f m' -> Q (k m')) ->
  Q (seq r c k).
Proof.
  intros rel f q c0 c [c' m'|x c' m'| |] k Q H HF HX HG; simpl in *; auto; try contradiction.
  - apply HG. apply H.
  - apply HX. apply H.
Qed.
(* the value of an expression, in a construct that goes on in [c] *)
Lemma seq_rod : forall e w c r k (Q : res -> Prop), Qrod e c w r ->
  Q Fuel ->
  (forall x m', eval (names c) e w (world m') (inr x) -> Q (Exn x c m')) ->
  (forall m' rr, stat m' = st_next -> stk m' = [ref_of rr] ->
     eval (names c) e w (world m') (inl rr) -> Q (k m')) ->
  Q (seq_next r c k).
Proof.
  intros e w c [c' m'|x c' m'| |] k Q H HF HX HG; simpl in *; auto; try contradiction.
  - destruct H as [-> [Hs [rr [Hk He]]]]. unfold seq_next, seq. rewrite Hs. eapply HG; eauto.
  - unfold seq_next, seq. apply HX. apply H.
Qed.
Lemma seq_rod_cond : forall e w c r k (Q : res -> Prop), Qrod e c w r ->
  Q Fuel ->
  (forall x m', cond (names c) e w (world m') (inr x) -> Q (Exn x c m')) ->
  (forall m' v, stat m' = st_next -> cond (names c) e w (world m') (inl v) -> Q (k m' v)) ->
  Q (seq_next r c (fun m' => with_top o m' c (k m'))).
Proof.
  intros e w c r k Q H HF HX HG. eapply seq_rod; eauto.
  - intros x m' He. apply HX. apply co_throw. assumption.
  - intros m' rr Hs Hk He. rewrite (top_read _ _ _ _ _ Hk).
    pose proof (co_ok _ _ _ _ _ _ _ He) as Hc.
    destruct (read (world m') rr) as [v|x]; eauto.
Qed.

Ltac qexact := unfold Qsc; split; [reflexivity|].

(* ---- loops ---- *)
Lemma qb_orl : forall a b : bool, a = true -> a || b = true.
Proof. intros a b ->; reflexivity. Qed.
Lemma qb_orr : forall a b : bool, b = true -> a || b = true.
Proof. intros a b ->; apply orb_true_r. Qed.
Hint Resolve qb_orl qb_orr : core.

Lemma step_do : forall n q b neg x l c m, all n ->
  ok ptc_none b -> one b -> ok q l -> one l ->
  Qsc (fun w r => stmt_ (names c) [] (SDoWhile b neg x l) (world m) (names c) [] w r)
      (has b || has l) q c
      (run (S n) (JDoWhile (code ptc_none b) neg (gexp ptc_none (Some x)) (code q l) c) m).
Proof.
  intros n q b neg x l c m Ha Hb1 Hb2 Hl1 Hl2. cbn [FlowModel.run].
  eapply seq_sc; [apply (h_block n Ha ptc_none b c m Hb1 Hb2)|exact I| |].
  { intros y m1 Hy. split; [reflexivity|]. eapply st_do_leave; eauto. constructor. }
  intros m1 Hp. eapply after_ok; [exact Hp| |].
  2:{ intros m2 Hp2. split; [reflexivity|]. apply post_none.
      eapply post_weaken; [| |exact Hp2]; [|auto].
      intros w r [r0 [H1 H2]]. eapply st_do_leave; eauto. }
  intros r m2 Hr Hg Hw Hs. cbv beta.
  eapply seq_rod_cond; [apply (h_rode n Ha)|exact I| |].
  { intros y m3 Hc. split; [reflexivity|]. eapply st_do_throw; eauto. rewrite <- Hw. assumption. }
  intros m3 v Hs3 Hc. cbv beta.
  destruct (Bool.eqb (test o v) neg) eqn:Ev.
  - apply Bool.eqb_prop in Ev.
    eapply seq_sc; [apply (h_block n Ha q l c m3 Hl1 Hl2)|exact I| |].
    + intros y m4 Hy. split; [reflexivity|]. eapply st_do_end; eauto. rewrite <- Hw; eassumption.
    + intros m4 Hp4. split; [reflexivity|]. eapply post_weaken; [| |exact Hp4]; [|auto].
      intros w r0 Hr0. eapply st_do_end; eauto. rewrite <- Hw; eassumption.
  - assert (test o v <> neg) by (intros He; rewrite He, Bool.eqb_reflx in Ev; discriminate).
    eapply Qsc_weaken; [| |apply (h_do n Ha q b neg x l c m3 Hb1 Hb2 Hl1 Hl2)]; [|auto].
    intros w r0 Hr0. cbv beta in Hr0. eapply st_do_again; eauto. rewrite <- Hw; eassumption.
Qed.

Lemma step_while : forall n q neg x b l c m, all n ->
  ok ptc_none b -> one b -> ok q l -> one l ->
  Qsc (fun w r => stmt_ (names c) [] (SWhile neg x b l) (world m) (names c) [] w r)
      (has b || has l) q c
      (run (S n) (JWhile neg (gexp ptc_none (Some x)) (code ptc_none b) (code q l) c) m).
Proof.
  intros n q neg x b l c m Ha Hb1 Hb2 Hl1 Hl2. cbn [FlowModel.run].
  eapply seq_rod_cond; [apply (h_rode n Ha)|exact I| |].
  { intros y m3 Hc. split; [reflexivity|]. eapply st_while_throw; eauto. }
  intros m1 v Hs1 Hc. cbv beta.
  destruct (Bool.eqb (test o v) neg) eqn:Ev.
  - apply Bool.eqb_prop in Ev.
    eapply seq_sc; [apply (h_block n Ha q l c m1 Hl1 Hl2)|exact I| |].
    + intros y m4 Hy. split; [reflexivity|]. eapply st_while_end; eauto.
    + intros m4 Hp4. split; [reflexivity|]. eapply post_weaken; [| |exact Hp4]; [|auto].
      intros w r0 Hr0. eapply st_while_end; eauto.
  - assert (test o v <> neg) by (intros He; rewrite He, Bool.eqb_reflx in Ev; discriminate).
    eapply seq_sc; [apply (h_block n Ha ptc_none b c m1 Hb1 Hb2)|exact I| |].
    { intros y m2 Hy. split; [reflexivity|]. eapply st_while_leave; eauto. constructor. }
    intros m2 Hp. eapply after_ok; [exact Hp| |].
    2:{ intros m3 Hp2. split; [reflexivity|]. apply post_none.
        eapply post_weaken; [| |exact Hp2]; [|auto].
        intros w r [r0 [H1 H2]]. eapply st_while_leave; eauto. }
    intros r m3 Hr Hg Hw Hs.
    eapply Qsc_weaken; [| |apply (h_while n Ha q neg x b l c m3 Hb1 Hb2 Hl1 Hl2)]; [|auto].
    intros w r0 Hr0. cbv beta in Hr0. eapply st_while_again; eauto. rewrite <- Hw; eassumption.
Qed.

(* results in a scope that defers nothing *)
Lemma Qs_exn : forall (rel : W -> out -> Prop) f q x c m,
  dfr c = [] -> rel (world m) (OThrow x) ->
  Qs (fun _ ds' w r => ds' = [] /\ rel w r) [] f false q (Exn x c m).
Proof. intros rel f q x c m Hd Hr. exists (names c), []. auto. Qed.
Lemma Qs_go : forall (rel : W -> out -> Prop) f q c m,
  dfr c = [] -> post q rel f m -> Qs (fun _ ds' w r => ds' = [] /\ rel w r) [] f false q (Go c m).
Proof.
  intros rel f q c m Hd Hp. exists []. split; [assumption|]. split; [auto|].
  eapply post_weaken; [| |exact Hp]; [|auto]. intros w r Hr. exists (names c). auto.
Qed.
Lemma Qs_weaken0 : forall (rel rel' : W -> out -> Prop) f f' q r,
  (forall w r, rel w r -> rel' w r) -> (f = true -> f' = true) ->
  Qs (fun _ ds' w r => ds' = [] /\ rel w r) [] f false q r ->
  Qs (fun _ ds' w r => ds' = [] /\ rel' w r) [] f' false q r.
Proof.
  intros rel rel' f f' q r Hr Hf H. eapply Qs_weaken; [| | |exact H]; auto.
  intros e ds w r0 [H1 H2]. auto.
Qed.

Lemma step_each : forall n q its item b l outer c m, all n ->
  ok ptc_none b -> one b -> ok q l -> one l -> dfr c = [] ->
  Qs (fun _ ds' w r => ds' = [] /\ each its item b l (names outer) (names c) (world m) w r) []
     (has b || has l) false q
     (run (S n) (JForEach its item (code ptc_none b) (code q l) outer c) m).
Proof.
  intros n q its item b l outer c m Ha Hb1 Hb2 Hl1 Hl2 Hd. cbn [FlowModel.run].
  destruct its as [|x its].
  - eapply seq_sc; [apply (h_block n Ha q l outer m Hl1 Hl2)|exact I| |].
    + intros y m4 Hy. apply Qs_exn; [assumption|]. apply ea_end. assumption.
    + intros m4 Hp4. apply Qs_go; [assumption|]. eapply post_weaken; [| |exact Hp4]; [|auto].
      intros w r0 Hr0. apply ea_end. assumption.
  - destruct (item x (names c) (world m)) as [w [e1|y]] eqn:Ei.
    2:{ apply Qs_exn; [assumption|]. apply ea_throw. assumption. }
    cbv zeta. set (c1 := {| names := e1; dfr := dfr c |}).
    assert (Hd1 : dfr c1 = []) by exact Hd.
    eapply seq_sc; [apply (h_block n Ha ptc_none b c1 (set_world m w) Hb1 Hb2)|exact I| |].
    { intros y m2 Hy. apply Qs_exn; [assumption|]. eapply ea_leave; eauto. constructor. }
    intros m2 Hp. eapply after_ok; [exact Hp| |].
    2:{ intros m3 Hp2. apply Qs_go; [assumption|]. apply post_none.
        eapply post_weaken; [| |exact Hp2]; [|auto].
        intros w' r [r0 [H1 H2]]. eapply ea_leave; eauto. }
    intros r m3 Hr Hg Hw Hs.
    eapply Qs_weaken0; [| |apply (h_each n Ha q its item b l outer c1 m3 Hb1 Hb2 Hl1 Hl2 Hd1)]; [|auto].
    intros w' r0 Hr0. eapply ea_again; eauto. rewrite <- Hw; eassumption.
Qed.

Lemma step_for : forall n q cn sp b l outer c m, IH (S n) ->
  ok ptc_none b -> one b -> ok q l -> one l -> dfr c = [] ->
  Qs (fun _ ds' w r => ds' = [] /\ loop cn sp b l (names outer) (names c) (world m) w r) []
     (has b || has l) false q
     (run (S n) (JFor (gexp ptc_none cn) (gexp ptc_none sp)
                   (code ptc_none b) (code q l) outer c) m).
Proof.
  intros n q cn sp b l outer c m HI Hb1 Hb2 Hl1 Hl2 Hd. cbn [FlowModel.run].
  assert (Ha : all n) by (apply HI; lia).
  set (Q := Qs (fun _ ds' w r => ds' = [] /\ loop cn sp b l (names outer) (names c) (world m) w r) []
              (has b || has l) false q).
  set (lp := fun m1 =>
    seq (run n (JBlock (code ptc_none b) c) m1) c (fun m2 =>
    after_body TFor c m2 (fun m3 =>
    seq_next (run n (JRod (gexp ptc_none sp) c) m3) c
      (run n (JFor (gexp ptc_none cn) (gexp ptc_none sp)
                (code ptc_none b) (code q l) outer c))))).
  change (Q (seq_next (run n (JRod (gexp ptc_none cn) c) m) c (fun m1 =>
            match stk m1 with
            | [] => lp m1
            | r :: _ =>
                deref o m1 c r (fun v =>
                  if test o v then lp m1
                  else seq (run n (JBlock (code q l) outer) m1) c (Go c))
            end))).
  assert (Hclear : forall m1 k, run k (JRod [NClear] c) m1 = Fuel
                      \/ run k (JRod [NClear] c) m1 = Go c (set_stk (set_stat m1 st_next) [])).
  { intros m1 [|[|[|k]]]; auto. }
  assert (Hlp : forall m1, holds o body cn (names c) (world m) (world m1) -> Q (lp m1)).
  { intros m1 Hh. unfold lp.
    eapply seq_sc; [apply (h_block n Ha ptc_none b c m1 Hb1 Hb2)|exact I| |].
    { intros y m2 Hy. apply Qs_exn; [assumption|]. eapply lo_leave; eauto. constructor. }
    intros m2 Hp. eapply after_ok; [exact Hp| |].
    2:{ intros m3 Hp2. apply Qs_go; [assumption|]. apply post_none.
        eapply post_weaken; [| |exact Hp2]; [|auto].
        intros w' r [r0 [H1 H2]]. eapply lo_leave; eauto. }
    intros r m3 Hr Hg Hw Hs. cbv beta.
    assert (Hagain : forall m4, steps o body sp (names c) (world m3) (world m4) ->
      Q (run n (JFor (gexp ptc_none cn) (gexp ptc_none sp)
                   (code ptc_none b) (code q l) outer c) m4)).
    { intros m4 Hst.
      eapply Qs_weaken0; [| |apply (h_for n Ha q cn sp b l outer c m4 Hb1 Hb2 Hl1 Hl2 Hd)]; [|auto].
      intros w' r0 Hr0. eapply lo_again; eauto. rewrite <- Hw; eassumption. }
    destruct sp as [e|].
    - eapply seq_rod; [apply (h_rode n Ha)|exact I| |].
      + intros y m4 He. apply Qs_exn; [assumption|]. eapply lo_step; eauto. rewrite <- Hw; assumption.
      + intros m4 rr Hs4 Hk4 He. apply Hagain. eapply sp_some; eauto.
    - change (gexp ptc_none None) with [@NClear W E R X A F It].
      destruct (Hclear m3 n) as [-> | ->]; [exact I|].
      unfold seq_next, seq. cbn [stat set_stk set_stat is_next].
      apply Hagain. apply sp_none. }
  destruct cn as [e|].
  - eapply seq_rod; [apply (h_rode n Ha)|exact I| |].
    + intros y m1 He. apply Qs_exn; [assumption|]. eapply lo_throw; eauto. apply co_throw; assumption.
    + intros m1 rr Hs1 Hk1 He. rewrite Hk1.
      pose proof (co_ok _ _ _ _ _ _ _ He) as Hc.
      assert (Hr : forall k, deref o m1 c (ref_of rr) k =
                match read (world m1) rr with inl v => k v | inr x => Exn x c m1 end)
        by (intros k; destruct rr; reflexivity).
      rewrite Hr. destruct (read (world m1) rr) as [v|y].
      * destruct (test o v) eqn:Et.
        -- apply Hlp. eapply ho_some; eauto.
        -- eapply seq_sc; [apply (h_block n Ha q l outer m1 Hl1 Hl2)|exact I| |].
           ++ intros y m4 Hy. apply Qs_exn; [assumption|]. eapply lo_end; eauto.
           ++ intros m4 Hp4. apply Qs_go; [assumption|]. eapply post_weaken; [| |exact Hp4]; [|auto].
              intros w r0 Hr0. eapply lo_end; eauto.
      * apply Qs_exn; [assumption|]. eapply lo_throw; eauto.
  - change (gexp ptc_none None) with [@NClear W E R X A F It].
    destruct (Hclear m n) as [-> | ->]; [exact I|].
    unfold seq_next, seq at 1. cbn [stat set_stk set_stat is_next stk].
    apply Hlp. apply ho_none.
Qed.


(* ---- leaving scopes ---- *)
Lemma step_loop : forall n c ds saved s m, all n -> dfr c = map mdef ds ->
  Qloop ds saved s (world m) (run (S n) (JExitLoop c saved s) m).
Proof.
  intros n c ds saved s m Ha Hd. cbn [FlowModel.run]. destruct ds as [|[e x] ds]; rewrite Hd; cbn [map FlowProofs2.mdef fst snd].
  - split; [destruct saved; reflexivity|]. split.
    + destruct saved as [r|]; [|exact I]. exists (stk m). reflexivity.
    + destruct saved; apply unwound_nil.
  - pose proof (h_rode n Ha x {| names := e; dfr := [] |} m) as H.
    destruct (run n (JRod (gexp ptc_none (Some x)) {| names := e; dfr := [] |}) m)
      as [c' m'|y c' m'| |]; simpl in H; try contradiction; try exact I.
    + destruct H as [-> [Hs [rr [Hk He]]]]. rewrite Hs. cbn [is_next].
      pose proof (h_loop n Ha {| names := names c; dfr := map mdef ds |} ds saved s m' eq_refl) as Hl.
      destruct (run n (JExitLoop {| names := names c; dfr := map mdef ds |} saved s) m')
        as [c2 m2|y c2 m2| |]; simpl in *; auto.
      * destruct Hl as [H1 [H2 H3]]. split; [assumption|]. split; [assumption|].
        intros r. eapply un_ok; eauto.
      * intros r. eapply un_ok; eauto.
    + destruct H as [-> He].
      pose proof (h_exn n Ha {| names := names c; dfr := map mdef ds |} ds y m' eq_refl) as Hl.
      destruct (run n (JExitExn y {| names := names c; dfr := map mdef ds |}) m')
        as [c2 m2|z c2 m2| |]; simpl in *; auto; try contradiction.
      intros r. eapply un_throw; eauto.
Qed.
Lemma step_exn : forall n c ds x m, all n -> dfr c = map mdef ds ->
  Qexn ds x (world m) (run (S n) (JExitExn x c) m).
Proof.
  intros n c ds y m Ha Hd. cbn [FlowModel.run]. destruct ds as [|[e x] ds]; rewrite Hd; cbn [map FlowProofs2.mdef fst snd].
  - simpl. apply un_nil.
  - pose proof (h_rode n Ha x {| names := e; dfr := [] |} m) as H.
    destruct (run n (JRod (gexp ptc_none (Some x)) {| names := e; dfr := [] |}) m)
      as [c' m'|z c' m'| |]; simpl in H; try contradiction; try exact I.
    + destruct H as [-> [Hs [rr [Hk He]]]]. rewrite Hs. cbn [is_next].
      pose proof (h_exn n Ha {| names := names c; dfr := map mdef ds |} ds y m' eq_refl) as Hl.
      destruct (run n (JExitExn y {| names := names c; dfr := map mdef ds |}) m')
        as [c2 m2|y2 c2 m2| |]; simpl in *; auto; try contradiction.
      eapply un_ok; eauto.
    + destruct H as [-> He].
      pose proof (h_exn n Ha {| names := names c; dfr := map mdef ds |} ds z m' eq_refl) as Hl.
      destruct (run n (JExitExn z {| names := names c; dfr := map mdef ds |}) m')
        as [c2 m2|z2 c2 m2| |]; simpl in *; auto; try contradiction.
      eapply un_throw; eauto.
Qed.
Lemma step_exit : forall n c ds m r, all n -> dfr c = map mdef ds -> matches r m ->
  Qexit ds r (world m) (run (S n) (JExit c) m).
Proof.
  intros n c ds m r Ha Hd Hm. cbn [FlowModel.run]. destruct ds as [|d ds]; rewrite Hd; cbn [map].
  - split; [assumption|]. apply unwound_nil.
  - assert (Hl : forall s, stat m = s -> (match s with st_return => False | _ => True end) ->
                 Qexit (d :: ds) r (world m) (run n (JExitLoop c None s) m)).
    { intros s Hs Hns. pose proof (h_loop n Ha c (d :: ds) None s m Hd) as H.
      destruct (run n (JExitLoop c None s) m) as [c' m'|y c' m'| |]; simpl in *; auto.
      destruct H as [H1 [_ H2]]. split; [|assumption].
      destruct r as [|t|t|[|r]|x]; simpl in *; try congruence; try contradiction.
      - destruct Hm as [Hm|[Hm _]]; [left; congruence|]. rewrite Hm in Hs. subst s. contradiction.
      - destruct Hm as [Hm _]. rewrite Hm in Hs. subst s. contradiction. }
    destruct (stat m) eqn:Es; try (apply Hl; [reflexivity|exact I]).
    assert (Hs : exists rr s, r = OReturn rr /\ stk m = ref_of rr :: s).
    { destruct r as [|t|t|[|r]|x]; simpl in Hm; try congruence; try contradiction.
      - destruct Hm as [Hm|[_ [s Hm]]]; [congruence|]. exists Void, s. auto.
      - destruct Hm as [_ [s Hm]]. exists (Val r), s. auto. }
    destruct Hs as [rr [s [-> Hs]]].
    assert (Hx : Qexit (d :: ds) (OReturn rr) (world m)
                   (run n (JExitLoop c (Some (ref_of rr)) st_return) (set_stk m (RBad :: s)))).
    { pose proof (h_loop n Ha c (d :: ds) (Some (ref_of rr)) st_return (set_stk m (RBad :: s)) Hd) as H.
      destruct (run n (JExitLoop c (Some (ref_of rr)) st_return) (set_stk m (RBad :: s)))
        as [c' m'|y c' m'| |]; cbn [Qloop Qexit] in *; auto.
      destruct H as [H1 [[u Hu] H2]]. split; [|assumption].
      destruct rr as [|r]; simpl in *; [right|]; (split; [assumption|exists u; assumption]). }
    rewrite Hs. destruct rr as [|r]; exact Hx.
Qed.

(* ---- calls ---- *)
Lemma step_expr : forall n p e c m, all n -> stat m = st_next -> (p = ptc_none \/ ptcf = true) ->
  Qexpr p e c m (run (S n) (JExpr p e c) m).
Proof.
  intros n p e c m Ha Hs Hp. destruct e as [a|pr|e k|e k]; cbn [FlowModel.run].
  - destruct (a (names c) (world m)) as [w [r|x]] eqn:Ea.
    + split; [reflexivity|]. left. split; [assumption|]. exists (Val r). split; [reflexivity|].
      apply ev_step. assumption.
    + split; [reflexivity|]. apply ev_step_throw. assumption.
  - destruct (pr (names c) (world m)) as [w [[f a]|x]] eqn:Ep.
    2:{ split; [reflexivity|]. eapply ev_call_throw; eassumption. }
    assert (Hno : Qexpr ptc_none (ECall pr) c m
       (match run n (JInvoke f a c) (set_world m w) with
        | Go _ m' =>
            match stk m' with
            | r :: _ => Go c (mk_mst (world m') (stat m) (r :: stk m) (depth m) (peak m'))
            | [] => Bad
            end
        | Exn x _ m' => Exn x c (mk_mst (world m') (stat m) (stk m) (depth m) (peak m'))
        | r => r
        end)).
    { pose proof (h_invoke n Ha f a c (set_world m w)) as H.
      destruct (run n (JInvoke f a c) (set_world m w)) as [c' m'|y c' m'| |]; simpl in H; auto.
      - destruct H as [rr [Hk Hc]]. rewrite Hk. split; [reflexivity|]. left. split; [assumption|].
        exists rr. split; [reflexivity|]. eapply ev_call; eassumption.
      - split; [reflexivity|]. eapply ev_call; eassumption. }
    destruct p; try exact Hno;
      (destruct Hp as [Hp|Hp]; [discriminate|]; split; [reflexivity|]; right;
       split; [assumption|]; split; [discriminate|]; split; [reflexivity|]; split; [reflexivity|];
       exists f, a, (stk m); split; [reflexivity|];
       intros w2 rr Hc; eapply ev_call; eassumption).
  - pose proof (h_expr n Ha ptc_none e c m Hs (or_introl eq_refl)) as H.
    destruct (run n (JExpr ptc_none e c) m) as [c' m'|y c' m'| |]; simpl in H; auto; try contradiction.
    + destruct H as [-> [[Hs' [rr [Hk He]]]|[_ [H _]]]]; [|congruence].
      unfold seq_next, seq. rewrite Hs'. cbn [is_next]. rewrite Hk.
      assert (Hgo : Qexpr p (EThen e k) c m (run n (JExpr p (k rr) c) (set_stk m' (stk m)))).
      { pose proof (h_expr n Ha p (k rr) c (set_stk m' (stk m)) Hs' Hp) as H.
        destruct (run n (JExpr p (k rr) c) (set_stk m' (stk m))) as [c2 m2|y c2 m2| |]; simpl in H; auto.
        - destruct H as [-> [[H1 [rr2 [H2 H3]]]|[H1 [H2 [H3 [H4 [f [a [s [H5 H6]]]]]]]]]]; (split; [reflexivity|]).
          + left. split; [assumption|]. exists rr2. split; [assumption|]. eapply ev_then; eassumption.
          + right. split; [assumption|]. split; [assumption|]. split; [reflexivity|]. split; [assumption|].
            exists f, a, s. split; [assumption|]. intros w2 r2 Hc. eapply ev_then; eauto.
        - destruct H as [-> H]. split; [reflexivity|]. eapply ev_then; eassumption. }
      destruct rr; exact Hgo.
    + destruct H as [-> H]. split; [reflexivity|]. apply ev_then_throw. assumption.
  - pose proof (h_expr n Ha ptc_none e c (set_stk m []) Hs (or_introl eq_refl)) as H.
    destruct (run n (JExpr ptc_none e c) (set_stk m [])) as [c' m'|y c' m'| |]; simpl in H; auto; try contradiction.
    + destruct H as [-> [[Hs' [rr [Hk He]]]|[_ [H _]]]]; [|congruence].
      pose proof (h_expr n Ha p (k None) c (set_stat (set_stk m' (stk m)) st_next) eq_refl Hp) as H.
      destruct (run n (JExpr p (k None) c) (set_stat (set_stk m' (stk m)) st_next)) as [c2 m2|y c2 m2| |]; simpl in H; auto.
      * destruct H as [-> [[H1 [rr2 [H2 H3]]]|[H1 [H2 [H3 [H4 [f [a [s [H5 H6]]]]]]]]]]; (split; [reflexivity|]).
        -- left. split; [assumption|]. exists rr2. split; [assumption|]. eapply ev_catch_none; eassumption.
        -- right. split; [assumption|]. split; [assumption|]. split; [reflexivity|]. split; [assumption|].
           exists f, a, s. split; [assumption|]. intros w2 r2 Hc. eapply ev_catch_none; eauto.
      * destruct H as [-> H]. split; [reflexivity|]. eapply ev_catch_none; eassumption.
    + destruct H as [-> He].
      pose proof (h_expr n Ha p (k (Some y)) c (set_stat (set_stk m' (stk m)) st_next) eq_refl Hp) as H.
      destruct (run n (JExpr p (k (Some y)) c) (set_stat (set_stk m' (stk m)) st_next)) as [c2 m2|z c2 m2| |]; simpl in H; auto.
      * destruct H as [-> [[H1 [rr2 [H2 H3]]]|[H1 [H2 [H3 [H4 [f [a [s [H5 H6]]]]]]]]]]; (split; [reflexivity|]).
        -- left. split; [assumption|]. exists rr2. split; [assumption|]. eapply ev_catch_some; eassumption.
        -- right. split; [assumption|]. split; [assumption|]. split; [reflexivity|]. split; [assumption|].
           exists f, a, s. split; [assumption|]. intros w2 r2 Hc. eapply ev_catch_some; eauto.
      * destruct H as [-> H]. split; [reflexivity|]. eapply ev_catch_some; eassumption.
Qed.

Lemma scope_ret : forall e l w w' r, scope e (l ++ [SReturn true None]) w w' r ->
  exists r1, scope e l w w' r1 /\ finish r1 = finish r.
Proof.
  intros e l w w' r H. inversion H as [? ? ? wa ? ea dsa ra ? Hs Hu]; subst; clear H.
  destruct (stmts_app_inv _ _ _ _ _ _ _ _ _ _ _ Hs) as [[eb [dsb [wb [H1 H2]]]]|[H1 H2]];
    destruct (unwind_sub _ _ _ _ _ _ _ Hu) as [[-> H3]|[x [-> H3]]].
  - inversion H2; subst; clear H2; match goal with H : stmt_ _ _ _ _ _ _ _ _ |- _ => inversion H; subst; clear H end.
    exists ONext. split; [|reflexivity]. eapply sc; [eassumption|apply H3].
  - inversion H2; subst; clear H2; match goal with H : stmt_ _ _ _ _ _ _ _ _ |- _ => inversion H; subst; clear H end.
    exists (OThrow x). split; [|reflexivity]. eapply sc; [eassumption|apply H3].
  - exists ra. split; [|reflexivity]. eapply sc; [eassumption|apply H3].
  - exists (OThrow x). split; [|reflexivity]. eapply sc; [eassumption|apply H3].
Qed.

Lemma existsb_app1 : forall (p : stmt -> bool) l s, p s = false -> existsb p (l ++ [s]) = existsb p l.
Proof. intros p l s H. rewrite existsb_app. simpl. rewrite H, !orb_false_r. reflexivity. Qed.

Lemma body_ok : forall f, ok ptc_void (body f ++ [SReturn true None]) /\ one (body f ++ [SReturn true None]).
Proof.
  intros f. split; [split|].
  - split; [|auto]. exists scope_plain. rewrite forallb_app, Hacc. reflexivity.
  - intros Ht. specialize (Hharm Ht f). unfold harmless in Hharm.
    apply andb_prop in Hharm. destruct Hharm as [H1 H2]. apply andb_prop in H1. destruct H1 as [H1 H3].
    split; [assumption|]. rewrite forallb_app, H2. reflexivity.
  - intros Ht. specialize (Hharm Ht f). unfold harmless in Hharm.
    apply andb_prop in Hharm. destruct Hharm as [H1 H2]. apply andb_prop in H1. destruct H1 as [H1 H3].
    rewrite !existsb_app1 by reflexivity. apply negb_true_iff in H3. assumption.
Qed.

Lemma step_ptc : forall n f a c m, all n -> Qptc f a (world m) (run (S n) (JPtcInvoke f a c) m).
Proof.
  intros n f a c m Ha. cbn [FlowModel.run]. cbv zeta.
  destruct (binds o f a (world m)) as [w [e|x]] eqn:Eb.
  2:{ simpl. apply call_throw. assumption. }
  set (m0 := mk_mst w st_next [] (S (depth m)) (Nat.max (peak m) (S (depth m)))).
  change (code_of ptcf body f) with (code ptc_void (body f ++ [SReturn true None])).
  set (l := body f ++ [SReturn true None]). destruct (body_ok f) as [Hok Hone]. fold l in Hok, Hone.
  pose proof (h_rod n Ha ptc_void l {| names := e; dfr := [] |} [] m0 Hok eq_refl) as Hr.
  pose proof (leave_ok n _ _ _ _ c _ Ha Hr) as Hl.
  match type of Hl with ?P -> _ => assert (Hp : P) end.
  { intros Ht. rewrite andb_comm. apply Hone. assumption. }
  specialize (Hl Hp). clear Hr Hp.
  fold (Leave n c (run n (JRod (code ptc_void l) {| names := e; dfr := [] |}) m0)).
  assert (Hcall : forall w' r', (exists e' ds' w0 r0, stmts e [] l w e' ds' w0 r0 /\ unwind ds' r0 w0 w' r') ->
                    call f a (world m) w' (finish r')).
  { intros w' r' [e' [ds' [w0 [r0 [H1 H2]]]]].
    destruct (scope_ret e (body f) w w' r') as [r1 [H3 <-]].
    - eapply sc; eassumption.
    - eapply call_body; eassumption. }
  destruct (Leave n c (run n (JRod (code ptc_void l) {| names := e; dfr := [] |}) m0)) as [c' m'|x c' m'| |];
    simpl in Hl; auto.
  - destruct Hl as [-> [[r [Hr Hm]]|[ov [Ho [Ht [pt [s [pds [Hst [Hsk [Hpd [Hmo [Hfl Hall]]]]]]]]]]]]].
    + apply Hcall in Hr. destruct r as [|t|t|[|r]|x]; simpl in Hm, Hr.
      * rewrite Hm. left. exists Void. auto.
      * rewrite Hm. exact Hr.
      * rewrite Hm. exact Hr.
      * destruct Hm as [Hm|[Hm [s Hk]]].
        -- rewrite Hm. left. exists Void. auto.
        -- rewrite Hm, Hk. left. exists Void. auto.
      * destruct Hm as [Hm [s Hk]]. rewrite Hm, Hk. left. exists (Val r). auto.
      * contradiction.
    + rewrite Hst, Hsk. right. split; [assumption|]. exists pt, pds. do 3 (split; [auto|]).
      cbn [world]. intros w2 rr w3 r Hc Hu.
      destruct Ho as [-> |[-> _]]; [apply Hcall; eauto|].
      destruct (unwind_sub _ _ _ _ _ _ _ Hu) as [[-> Hu2]|[x [-> Hu2]]].
      * assert (finish (tail_out (OReturn Void) w2 rr) = finish (tail_out ONext w2 rr)) as ->.
        { destruct rr; simpl; [|reflexivity]. destruct md; reflexivity. }
        apply Hcall. eapply Hall; [exact Hc|]. apply Hu2.
      * apply Hcall. eapply Hall; [exact Hc|]. apply Hu2.
  - destruct Hl as [-> Hl]. apply Hcall in Hl. exact Hl.
Qed.

Lemma step_invoke : forall n f a c m, all n -> Qcall f a (world m) (run (S n) (JInvoke f a c) m).
Proof.
  intros n f a c m Ha. cbn [FlowModel.run].
  pose proof (h_ptc n Ha f a c m) as H.
  destruct (run n (JPtcInvoke f a c) m) as [c' m'|x c' m'| |]; simpl in *; auto.
  destruct H as [[rr [Hk Hc]]|[Ht [pt [d [Hk [Hmo [Hd Hall]]]]]]]; rewrite Hk.
  - destruct rr; simpl; eauto.
  - pose proof (h_use n Ha pt [] c m' [d] Ht) as Hu.
    specialize (Hu (Forall2_cons pt d (conj Hd Hmo) (Forall2_nil _))).
    destruct (run n (JUse pt [] c) m') as [c2 m2|x c2 m2| |]; simpl in *; auto.
    + destruct Hu as [rr [Hk2 [w2 [r2 [Hc [w1 [r [Hun [Hw Hf]]]]]]]]].
      exists rr. split; [assumption|]. rewrite Hf, Hw. eapply Hall; eassumption.
    + destruct Hu as [w2 [r2 [Hc [w1 [r [Hun [Hw Hf]]]]]]]. rewrite Hf, Hw. eapply Hall; eassumption.
Qed.

Lemma stable_void : stable Void.
Proof. intros w. simpl. destruct md; reflexivity. Qed.
Lemma stable_temp : forall v, ptcf = true -> md = ptc_by_val -> stable (Val (temp o v)).
Proof. intros v Ht Hm w. simpl. rewrite Hm. simpl. rewrite (Htemp Ht). reflexivity. Qed.

Lemma step_use : forall n p fs c m dss, all n -> ptcf = true -> Forall2 frame (p :: fs) dss ->
  Quse p dss (world m) (run (S n) (JUse p fs c) m).
Proof.
  intros n p fs c m dss Ha Ht Hf. cbn [FlowModel.run].
  assert (Hmode : p_mode p = md) by (inversion Hf; subst; match goal with H : frame _ _ |- _ => apply H end).
  pose proof (h_ptc n Ha (p_target p) (p_args p) c m) as H.
  destruct (run n (JPtcInvoke (p_target p) (p_args p) c) m) as [c' m'|x c' m'| |]; simpl in H; auto.
  - destruct H as [[rr [Hk Hc]]|[_ [pt [d [Hk [Hmo [Hd Hall]]]]]]]; rewrite Hk.
    + assert (Hv : md = ptc_void ->
        Quse p dss (world m) (run n (JReturn RVoid None (p :: fs) c) m')).
      { intros Hv. pose proof (h_return n Ha Void Void None (p :: fs) c m' dss Ht Hf) as H.
        specialize (H (or_introl (conj eq_refl (conj eq_refl stable_void)))).
        change (ref_of Void) with (@RVoid W E R X A F It) in H.
        assert (Hch : forall w' r', chain dss (world m') (inl Void) w' r' -> chain dss (world m') (inl rr) w' r').
        { destruct dss as [|d dss]; [inversion Hf|]. intros w' r' Hx. simpl in *. rewrite Hv in *. exact Hx. }
        destruct (run n (JReturn RVoid None (p :: fs) c) m') as [c2 m2|x c2 m2| |]; simpl in *; auto.
        - destruct H as [H1 H2]. exists Void. split; [assumption|]. exists (world m'), (inl rr).
          split; [assumption|]. apply Hch. assumption.
        - exists (world m'), (inl rr). split; [assumption|]. apply Hch. assumption. }
      rewrite Hmode. destruct (Hmd Ht) as [Hm|Hm].
      2:{ rewrite Hm. destruct rr; apply Hv; assumption. }
      rewrite Hm. destruct rr as [|r0]; cbn [FlowProofs2.ref_of].
      * pose proof (h_return n Ha Void Void None (p :: fs) c m' dss Ht Hf) as H.
        specialize (H (or_introl (conj eq_refl (conj eq_refl stable_void)))).
        change (ref_of Void) with (@RVoid W E R X A F It) in H.
        destruct (run n (JReturn RVoid None (p :: fs) c) m') as [c2 m2|x c2 m2| |]; cbn [Qret Quse] in *; auto.
        -- destruct H as [H1 H2]. exists Void. split; [assumption|]. exists (world m'), (inl Void). auto.
        -- exists (world m'), (inl Void). auto.
      * destruct (value o (world m') r0) as [v|x] eqn:Ev.
        -- pose proof (h_return n Ha (Val r0) (Val (temp o v)) (Some v) (p :: fs) c m' dss Ht Hf) as H.
           match type of H with ?P -> _ => assert (Hp : P) end.
           { right. exists v, r0. repeat split; auto. discriminate. }
           specialize (H Hp). change (ref_of (Val r0)) with (@RVal W E R X A F It r0) in H.
           destruct (run n (JReturn (RVal r0) (Some v) (p :: fs) c) m') as [c2 m2|x c2 m2| |]; cbn [Qret Quse] in *; auto.
           ++ destruct H as [H1 H2]. exists (Val (temp o v)). split; [assumption|]. exists (world m'), (inl (Val r0)). auto.
           ++ exists (world m'), (inl (Val r0)). auto.
        -- pose proof (h_unw n Ha x (p :: fs) c m' dss Ht Hf) as H.
           assert (Hch : forall w' r', chain dss (world m') (inr x) w' r' -> chain dss (world m') (inl (Val r0)) w' r').
           { destruct dss as [|d dss]; [inversion Hf|]. intros w' r' Hx. simpl in *. rewrite Hm in *. simpl. rewrite Ev. exact Hx. }
           destruct (run n (JUnwind x (p :: fs) c) m') as [c2 m2|y c2 m2| |]; cbn [Qunw Quse] in *; auto; try contradiction.
           exists (world m'), (inl (Val r0)). split; [assumption|]. apply Hch. assumption.
    + pose proof (h_use n Ha pt (p :: fs) c m' (d :: dss) Ht) as Hu.
      specialize (Hu (Forall2_cons pt d (conj Hd Hmo) Hf)).
      destruct (run n (JUse pt (p :: fs) c) m') as [c2 m2|x c2 m2| |]; cbn [Quse] in *; auto.
      * destruct Hu as [rr [Hk2 [w2 [r2 [Hc [w1 [r [Hun Hch]]]]]]]].
        exists rr. split; [assumption|]. exists w1, (finish r). split; [|assumption]. eapply Hall; eassumption.
      * destruct Hu as [w2 [r2 [Hc [w1 [r [Hun Hch]]]]]]. exists w1, (finish r). split; [|assumption]. eapply Hall; eassumption.
  - pose proof (h_unw n Ha x (p :: fs) c m' dss Ht Hf) as Hu.
    destruct (run n (JUnwind x (p :: fs) c) m') as [c2 m2|y c2 m2| |]; cbn [Qunw Quse] in *; auto; try contradiction.
    exists (world m'), (inr x). auto.
Qed.

Lemma step_unw : forall n x fs c m dss, all n -> ptcf = true -> Forall2 frame fs dss ->
  Qunw x dss (world m) (run (S n) (JUnwind x fs c) m).
Proof.
  intros n x fs c m dss Ha Ht Hf. cbn [FlowModel.run].
  destruct fs as [|p fs]; inversion Hf as [|? d ? dss' [Hd Hmo] Hf']; subst.
  - simpl. auto.
  - pose proof (h_exn n Ha {| names := names c; dfr := p_defer p |} d x (set_stk (set_stat m st_next) []) Hd) as H.
    destruct (run n (JExitExn x {| names := names c; dfr := p_defer p |}) (set_stk (set_stat m st_next) []))
      as [c' m'|y c' m'| |]; simpl in H; auto; try contradiction.
    pose proof (h_unw n Ha y fs c m' dss' Ht Hf') as Hu.
    destruct (run n (JUnwind y fs c) m') as [c2 m2|z c2 m2| |]; simpl in *; auto.
    exists (world m'), (OThrow y). auto.
Qed.

Lemma step_return : forall n rr0 rr1 v fs c m dss, all n -> ptcf = true -> Forall2 frame fs dss ->
  ret_pre rr0 rr1 v fs (world m) ->
  Qret rr0 rr1 dss (world m) (run (S n) (JReturn (ref_of rr0) v fs c) m).
Proof.
  intros n rr0 rr1 v fs c m dss Ha Ht Hf Hpre. cbn [FlowModel.run].
  destruct fs as [|p fs]; inversion Hf as [|? d ? dss' [Hd Hmo] Hf']; subst.
  - destruct Hpre as [[-> [-> _]]|[v0 [r0 [_ [_ [_ [_ [_ H]]]]]]]]; [|congruence].
    split; [reflexivity|]. split; reflexivity.
  - assert (Hr' : match p_mode p, v with
                  | ptc_by_val, Some v0 => RVal (temp o v0)
                  | _, _ => ref_of rr0
                  end = ref_of rr1 /\ tail_out (OReturn Void) (world m) (inl rr0) = OReturn rr1 /\ stable rr1).
    { destruct Hpre as [[-> [-> Hst]]|[v0 [r0 [Hm [-> [-> [Hv [-> _]]]]]]]].
      - split; [destruct (p_mode p); reflexivity|]. split; [apply Hst|assumption].
      - rewrite Hmo, Hm. split; [reflexivity|]. split; [|apply stable_temp; assumption].
        simpl. rewrite Hm. simpl. rewrite Hv. reflexivity. }
    destruct Hr' as [-> [Htl Hst]].
    pose proof (h_exit n Ha {| names := names c; dfr := p_defer p |} d (set_stk (set_stat m st_next) []) ONext Hd eq_refl) as H.
    destruct (run n (JExit {| names := names c; dfr := p_defer p |}) (set_stk (set_stat m st_next) []))
      as [c' m'|y c' m'| |]; simpl in H; auto; try contradiction.
    + destruct H as [_ H].
      pose proof (h_return n Ha rr1 rr1 None fs c m' dss' Ht Hf' (or_introl (conj eq_refl (conj eq_refl Hst)))) as Hr.
      destruct (run n (JReturn (ref_of rr1) None fs c) m') as [c2 m2|z c2 m2| |]; cbn [Qret] in *; auto.
      * destruct Hr as [H1 H2]. split; [assumption|]. exists (world m'), (OReturn rr1).
        rewrite Htl. split; [apply H|assumption].
      * exists (world m'), (OReturn rr1). rewrite Htl. split; [apply H|assumption].
    + pose proof (h_unw n Ha y fs c m' dss' Ht Hf') as Hu.
      destruct (run n (JUnwind y fs c) m') as [c2 m2|z c2 m2| |]; cbn [Qret Qunw] in *; auto; try contradiction.
      exists (world m'), (OThrow y). rewrite Htl. split; [apply H|assumption].
Qed.


(* ---- statement lists ---- *)
Definition sok (s : stmt) : Prop := forall n q c ds m, IH n -> oks q s ->
  dfr c = map mdef ds -> stat m = st_next ->
  Qs (fun e' ds' w r => stmt_ (names c) ds s (world m) e' ds' w r) ds (inner s) (is_defer s) q
     (run n (JSeq (frag q s) c) m).

Lemma list_ok : forall l, Forall sok l -> forall n q c ds m, IH n -> ok q l ->
  dfr c = map mdef ds -> stat m = st_next ->
  Qs (fun e' ds' w r => stmts (names c) ds l (world m) e' ds' w r) ds
     (existsb inner l) (existsb is_defer l) q (run n (JSeq (code q l) c) m).
Proof.
  induction 1 as [|s l Hs Hl IHl]; intros n q c ds m HI Hok Hd Hm.
  - change (code q []) with (@nil node). destruct n as [|n]; [exact I|]. rewrite run_nil.
    exists ds. split; [assumption|]. split; [auto|]. left. exists ONext. split; [|assumption].
    exists (names c). split; [auto|]. apply ss_nil.
  - rewrite code_cons, seq_app by assumption. destruct (ok_cons _ _ _ Hok) as [Hok1 Hok2].
    pose proof (Hs n (nextq q l) c ds m HI Hok1 Hd Hm) as H.
    destruct (run n (JSeq (frag (nextq q l) s) c) m) as [c1 m1|x c1 m1| |] eqn:Er; cbn [Qs] in H; auto.
    + destruct H as [ds1 [Hd1 [Hf1 Hp]]].
      destruct Hp as [[r [[e1 [He1 Hr]] Hma]]|[ov [Ho [Ht [pt [u [pds [Hst [Hsk [Hpd [Hmo [Hfl Hall]]]]]]]]]]]].
      * assert (Hdec : r = ONext \/ r <> ONext) by (destruct r; auto; right; discriminate).
        destruct Hdec as [-> |Hne].
        -- simpl in Hma. rewrite (He1 eq_refl Hma) in Hr. rewrite Hma. cbn [is_next].
           destruct (back_terminator (frag (nextq q l) s)) eqn:Eb.
           { exfalso. exact (terminator_seq _ _ _ _ _ _ _ _ _ Eb Er Hma). }
           assert (HI' : IH (n - length (frag (nextq q l) s))) by (eapply IH_le; [exact HI|lia]).
           pose proof (IHl _ q c1 ds1 m1 HI' Hok2 Hd1 Hma) as H2.
           destruct (run (n - length (frag (nextq q l) s)) (JSeq (code q l) c1) m1) as [c2 m2|x c2 m2| |];
             cbn [Qs] in *; auto.
           ++ destruct H2 as [ds2 [Hd2 [Hf2 Hp2]]]. exists ds2. split; [assumption|].
              split.
              { simpl. destruct Hf1 as [-> |Hf1]; [|right; auto].
                destruct Hf2 as [-> |Hf2]; [left; reflexivity|right; auto]. }
              eapply post_weaken; [| |exact Hp2]; [|simpl; auto].
              intros w r [e2 [He2 Hr2]]. exists e2. split; [assumption|]. eapply ss_next; eassumption.
           ++ destruct H2 as [e2 [ds2 [Hd2 Hr2]]]. exists e2, ds2. split; [assumption|].
              eapply ss_next; eassumption.
        -- rewrite (matches_not_next _ _ Hma Hne). exists ds1. split; [assumption|].
           split; [simpl; destruct Hf1; auto|]. left. exists r. split; [|assumption].
           exists e1. split; [congruence|]. apply ss_stop; assumption.
      * rewrite Hst. cbn [is_next]. exists ds1. split; [assumption|].
        split; [simpl; destruct Hf1; auto|]. right.
        assert (Hflag : pds = [] \/ existsb inner (s :: l) = true)
          by (simpl; destruct Hfl as [Hfl|Hfl]; [auto|rewrite Hfl; auto]).
        destruct Ho as [-> |[-> Hq]].
        -- exists (OReturn Void). split; [auto|]. split; [assumption|]. exists pt, u, pds.
           do 5 (split; [assumption|]).
           intros w2 rr w3 r Hc Hu. destruct (Hall _ _ _ _ Hc Hu) as [e' [He' Hr]].
           exists e'. split; [congruence|]. apply ss_stop; [assumption|].
           destruct (unwind_tail_shape _ _ _ _ _ Hu) as [[y ->]|[x ->]]; discriminate.
        -- destruct l as [|s' l].
           ++ simpl in Hq. exists ONext. split; [auto|]. split; [assumption|]. exists pt, u, pds.
              do 5 (split; [assumption|]).
              intros w2 rr w3 r Hc Hu. destruct (Hall _ _ _ _ Hc Hu) as [e' [He' Hr]].
              exists e'. split; [congruence|].
              assert (Hdec : r = ONext \/ r <> ONext) by (destruct r; auto; right; discriminate).
              destruct Hdec as [-> |Hne]; [eapply ss_next; [eassumption|apply ss_nil]|apply ss_stop; assumption].
           ++ simpl in Hq. destruct (is_empty_return s') eqn:Ee; [|discriminate].
              exists (OReturn Void). split; [auto|]. split; [assumption|]. exists pt, u, pds.
              do 5 (split; [assumption|]).
              intros w2 rr w3 r Hc Hu.
              assert (Hsub : (r = OReturn Void /\ unwind pds (tail_out ONext w2 rr) w2 w3 ONext)
                             \/ (r <> ONext /\ unwind pds (tail_out ONext w2 rr) w2 w3 r)).
              { destruct (unwind_sub _ _ _ _ _ _ _ Hu) as [[-> Hu2]|[x [-> Hu2]]].
                - destruct rr as [rr|x]; simpl.
                  + assert (md = ptc_void \/ md <> ptc_void) as [Hv|Hv]
                      by (destruct md; auto; right; discriminate).
                    * rewrite Hv. left. split; [reflexivity|]. apply Hu2.
                    * right. pose proof (tail_not_next w2 (inl rr)) as Hn. simpl in Hn.
                      destruct md; try congruence; split; auto; apply Hu2.
                  + right. split; [discriminate|]. apply Hu2.
                - right. split; [discriminate|]. apply Hu2. }
              destruct Hsub as [[-> Hu2]|[Hne Hu2]].
              ** destruct (Hall _ _ _ _ Hc Hu2) as [e' [_ Hr]]. exists e'. split; [congruence|].
                 eapply ss_next; [exact Hr|]. apply ss_stop; [|discriminate].
                 destruct s'; try discriminate Ee. destruct e; [discriminate|]. apply st_return_void_.
              ** destruct (Hall _ _ _ _ Hc Hu2) as [e' [_ Hr]]. exists e'. split; [congruence|].
                 apply ss_stop; assumption.
    + destruct H as [e1 [ds1 [Hd1 Hr]]]. exists e1, ds1. split; [assumption|].
      apply ss_stop; [assumption|discriminate].
Qed.

(* ---- switch ---- *)
Lemma okcl_cons : forall f1 f2 c cl, okcl f1 f2 (c :: cl) ->
  (ok ptc_none (snd c) /\ (existsb inner (snd c) = true -> f1 = true)
   /\ (existsb is_defer (snd c) = true -> f2 = true)) /\ okcl f1 f2 cl.
Proof. intros f1 f2 c cl [H1 H2]. inversion H1; subst. split; [assumption|]. split; assumption. Qed.

Lemma gcl_shape : forall lb skip b, exists a l, gcl (lb, skip, b) = (a, l, skip, code ptc_none b).
Proof. intros [| |] skip b; simpl; eauto. Qed.

Lemma leaves_switch_not : forall m r, matches r m -> r <> ONext ->
  exists r', matches r' (if is_break TSwitch (stat m) then set_stat m st_next else m)
             /\ leaves_switch r r'.
Proof.
  intros m [|t|t|[|r]|x] Hm Hn; simpl in Hm.
  - congruence.
  - rewrite Hm. cbn [is_break]. destruct (meant_dec TSwitch t) as [[-> Hk]|[-> Hk]].
    + exists ONext. split; [reflexivity|constructor; assumption].
    + exists (OBreak t). split; [assumption|constructor; assumption].
  - rewrite Hm. cbn [is_break]. exists (OContinue t). split; [assumption|constructor].
  - exists (OReturn Void). split; [|constructor].
    destruct Hm as [Hm|[Hm Hk]]; rewrite Hm; cbn [is_break]; simpl; auto.
  - exists (OReturn (Val r)). split; [|constructor].
    destruct Hm as [Hm Hk]; rewrite Hm; cbn [is_break]; simpl; auto.
  - contradiction.
Qed.

Lemma step_clauses : forall n f1 f2 i cl c ds m, all n -> okcl f1 f2 cl -> stat m = st_next ->
  dfr c = map mdef ds ->
  Qs (fun _ ds' w r => exists e' r0,
        fall (skipped i cl (names c)) ds (from i cl) (world m) e' ds' w r0 /\ leaves_switch r0 r)
     ds f1 f2 ptc_none (run (S n) (JClauses i (map gcl cl) c) m).
Proof.
  intros n f1 f2 i cl c ds m Ha Hok Hm Hd. destruct cl as [|[[lb skip] b] cl].
  - replace (run (S n) (JClauses i (map gcl []) c) m) with (@Go W E R X A F It c m) by (destruct i; reflexivity).
    exists ds. split; [assumption|]. split; [auto|]. left. exists ONext. split; [|assumption].
    exists (names c). split; [auto|]. exists (names c), ONext. split; [|constructor].
    unfold skipped, from. rewrite firstn_nil, skipn_nil. apply fa_nil.
  - destruct (okcl_cons _ _ _ _ Hok) as [[Hb1 [Hb2 Hb3]] Hok']. simpl in Hb1, Hb2, Hb3.
    destruct (gcl_shape lb skip b) as [la [ll Hg]]. cbn [map]. rewrite Hg.
    destruct i as [|i].
    + cbn [FlowModel.run]. pose proof (h_rod n Ha ptc_none b c ds m Hb1 Hd) as H.
      match goal with |- context [from 0 ?l] => change (from 0 l) with (b :: from 0 cl) end.
      match goal with |- context [skipped 0 ?l ?e] => change (skipped 0 l e) with (names c) end.
      destruct (run n (JRod (code ptc_none b) c) m) as [c1 m1|x c1 m1| |]; cbn [Qs] in H; auto.
      * destruct H as [ds1 [Hd1 [Hf1 Hp]]].
        destruct Hp as [[r [[e1 [He1 Hr]] Hma]]|[ov [[-> |[_ Ho]] [Ht [pt [u [pds [Hst [Hsk [Hpd [Hmo [Hfl Hall]]]]]]]]]]]]; [| |discriminate].
        -- assert (Hdec : r = ONext \/ r <> ONext) by (destruct r; auto; right; discriminate).
           destruct Hdec as [-> |Hne].
           ++ simpl in Hma. rewrite (He1 eq_refl Hma) in Hr. rewrite Hma. cbn [is_next].
              pose proof (h_clauses n Ha f1 f2 0%nat cl c1 ds1 m1 Hok' Hma Hd1) as H2.
              match type of H2 with context [skipped 0 ?l ?e] => change (skipped 0 l e) with (names c1) in H2 end.
              destruct (run n (JClauses 0 (map gcl cl) c1) m1) as [c2 m2|x c2 m2| |]; cbn [Qs] in *; auto.
              ** destruct H2 as [ds2 [Hd2 [Hf2 Hp2]]]. exists ds2. split; [assumption|].
                 split.
                 { destruct Hf1 as [-> |Hf1]; [assumption|right; auto]. }
                 eapply post_weaken; [| |exact Hp2]; [|auto].
                 intros w r [e2 [He2 [e3 [r0 [Hr2 Hl]]]]]. exists e2. split; [assumption|].
                 exists e3, r0. split; [|assumption]. eapply fa_next; eassumption.
              ** destruct H2 as [e2 [ds2 [Hd2 [e3 [r0 [Hr2 Hl]]]]]]. exists e2, ds2. split; [assumption|].
                 exists e3, r0. split; [|assumption]. eapply fa_next; eassumption.
           ++ rewrite (matches_not_next _ _ Hma Hne). exists ds1. split; [assumption|].
              split; [destruct Hf1; auto|]. left.
              destruct (leaves_switch_not _ _ Hma Hne) as [r' [Hm' Hl]].
              exists r'. split; [|assumption].
              assert (Hw : world (if is_break TSwitch (stat m1) then set_stat m1 st_next else m1) = world m1)
                by (destruct (is_break TSwitch (stat m1)); reflexivity).
              rewrite Hw. exists (names c1). split; [auto|]. exists e1, r.
              split; [|assumption]. apply fa_stop; assumption.
        -- rewrite Hst. cbn [is_next is_break]. exists ds1. split; [assumption|].
           split; [destruct Hf1; auto|]. right. exists (OReturn Void). split; [auto|]. split; [assumption|].
           exists pt, u, pds. do 4 (split; [assumption|]). split; [destruct Hfl; auto|].
           intros w2 rr w3 r Hc Hu. destruct (Hall _ _ _ _ Hc Hu) as [e' [He' Hr]].
           exists (names c1). split; [auto|]. exists e', r.
           destruct (unwind_tail_shape _ _ _ _ _ Hu) as [[y ->]|[x ->]];
             (split; [apply fa_stop; [assumption|discriminate]|constructor]).
      * destruct H as [e1 [ds1 [Hd1 Hr]]]. exists e1, ds1. split; [assumption|].
        exists e1, (OThrow x). split; [apply fa_stop; [assumption|discriminate]|constructor].
    + exact (h_clauses n Ha f1 f2 i cl {| names := skip (names c); dfr := dfr c |} ds m Hok' Hm Hd).
Qed.

(* the labels of `each` *)
Definition Qrod2 (x y : expr) (c : ctx) (w : W) (r : res) : Prop :=
  match r with
  | Fuel => True
  | Bad => False
  | Exn z c' m' => c' = c /\
      (eval (names c) x w (world m') (inr z)
       \/ exists w1 r1, eval (names c) x w w1 (inl r1) /\ eval (names c) y w1 (world m') (inr z))
  | Go c' m' =>
      c' = c /\ stat m' = st_next /\
      exists r1 r2 w1, stk m' = [ref_of r2; ref_of r1]
        /\ eval (names c) x w w1 (inl r1) /\ eval (names c) y w1 (world m') (inl r2)
  end.
Lemma rod2 : forall n x y c m, IH n ->
  Qrod2 x y c (world m)
    (run n (JRod (gexp ptc_none (Some x) ++ [NExpr (rptc ptcf ptc_none) y]) c) m).
Proof.
  intros n x y c m HI. destruct n as [|n]; [exact I|].
  change (run (S n) (JRod (gexp ptc_none (Some x) ++ [NExpr (rptc ptcf ptc_none) y]) c) m)
    with (run n (JSeq (gexp ptc_none (Some x) ++ [NExpr (rptc ptcf ptc_none) y]) c) (set_stat m st_next)).
  rewrite seq_app by reflexivity.
  assert (HI' : IH n) by (eapply IH_le; [exact HI|lia]).
  pose proof (seq_expr n x c (set_stat m st_next) HI' eq_refl) as H.
  destruct (run n (JSeq (gexp ptc_none (Some x)) c) (set_stat m st_next)) as [c1 m1|z c1 m1| |];
    cbn [Qrod] in H; auto.
  - destruct H as [-> [Hs [r1 [Hk He]]]]. rewrite Hs. cbn [is_next].
    destruct (n - length (gexp ptc_none (Some x)))%nat as [|k] eqn:Ek; [exact I|].
    rewrite seq_single. destruct k as [|k]; [exact I|].
    change (run (S k) (JNode (NExpr (rptc ptcf ptc_none) y) c) m1) with (run k (JExpr (rptc ptcf ptc_none) y c) m1).
    rewrite rptc_none.
    assert (Hak : all k) by (apply HI'; lia).
    pose proof (h_expr k Hak ptc_none y c m1 Hs (or_introl eq_refl)) as H.
    destruct (run k (JExpr ptc_none y c) m1) as [c2 m2|z c2 m2| |]; cbn [Qexpr Qrod2] in *; auto.
    + destruct H as [-> [[Hs2 [r2 [Hk2 He2]]]|[_ [H _]]]]; [|congruence].
      split; [reflexivity|]. split; [assumption|]. exists r1, r2, (world m1). rewrite Hk2, Hk. auto.
    + destruct H as [-> H]. split; [reflexivity|]. right. exists (world m1), r1. auto.
  - destruct H as [-> H]. split; [reflexivity|]. left. assumption.
Qed.

Lemma deref_read : forall m c rr k,
  deref o m c (ref_of rr) k = match read (world m) rr with inl v => k v | inr x => Exn x c m end.
Proof. intros m c [|r] k; reflexivity. Qed.
Lemma cmp_eqb_eq : forall a b, cmp_eqb a b = true <-> a = b.
Proof. intros [] []; simpl; split; congruence. Qed.
Lemma interval_within : forall lc uc a b, in_interval lc uc a b = true <-> within lc uc a b.
Proof.
  intros lc uc a b. unfold in_interval, within.
  rewrite andb_true_iff, !orb_true_iff, !cmp_eqb_eq.
  destruct lc, uc; intuition congruence.
Qed.

Lemma step_find : forall n f1 f2 v i d rest cl c m, IH (S n) -> okcl f1 f2 cl -> stat m = st_next ->
  Qsc (rel_switch cl rest (names c) v i d (world m)) (f1 || f2) ptc_none c
      (run (S n) (JFind v i d (map gcl rest) (map gcl cl) c) m).
Proof.
  intros n f1 f2 v i d rest cl c m HI Hok Hm. assert (Ha : all n) by (apply HI; lia).
  assert (HIn : IH n) by (eapply IH_le; [exact HI|lia]).
  destruct rest as [|[[lb skip] b] rest].
  - cbn [map FlowModel.run]. destruct d as [t|].
    + pose proof (h_clauses n Ha f1 f2 t cl {| names := names c; dfr := [] |} [] m Hok Hm eq_refl) as H.
      pose proof (leave_ok n _ _ _ _ c _ Ha H (proj2 Hok)) as Hl.
      eapply Qsc_weaken; [| |exact Hl].
      2:{ rewrite orb_comm. auto. }
      intros w r [e' [ds' [w0 [r0 [[e2 [r1 [H1 H2]]] H3]]]]]. cbn [names] in H1. left.
      exists (world m), t, e2, ds', w0, r1, r0. split; [apply fi_nil|]. split; [assumption|]. split; assumption.
    + split; [reflexivity|]. left. exists ONext. split; [|assumption]. right. left. split; [apply fi_nil|reflexivity].
  - cbn [map]. destruct lb as [|x|lc uc x y]; cbn [gcl]; cbn [FlowModel.run].
    + (* default *)
      eapply Qsc_weaken; [| |apply (h_find n Ha f1 f2 v (S i) (Some i) rest cl c m Hok Hm)]; [|auto].
      intros w r [[w1 [t [ea [dsa [wa [ra [rb [H1 H2]]]]]]]]|[[H1 H2]|[y [H1 H2]]]].
      * left. exists w1, t, ea, dsa, wa, ra, rb. split; [apply fi_default; assumption|auto].
      * right. left. split; [apply fi_default; assumption|assumption].
      * right. right. exists y. split; [apply fi_default; assumption|assumption].
    + (* case *)
      eapply seq_rod_cond; [apply (h_rode n Ha)|exact I| |].
      * intros y m1 Hc. split; [reflexivity|]. right. right. exists y. split; [|reflexivity].
        apply fi_case_throw. assumption.
      * intros m1 a Hs1 Hc. cbv beta. destruct (cmp_eqb (compare o v a) cmp_equal) eqn:Ec.
        -- apply cmp_eqb_eq in Ec.
           eapply Qsc_weaken; [| |apply (h_find n Ha f1 f2 v i (Some i) [] cl c m1 Hok Hs1)]; [|auto].
           intros w r [[w1 [t [ea [dsa [wa [ra [rb [H1 H2]]]]]]]]|[[H1 H2]|[y [H1 H2]]]]; inversion H1; subst.
           left. exists (world m1), t, ea, dsa, wa, ra, rb. split; [|auto]. eapply fi_case; eassumption.
        -- assert (compare o v a <> cmp_equal) by (intros H; apply cmp_eqb_eq in H; congruence).
           eapply Qsc_weaken; [| |apply (h_find n Ha f1 f2 v (S i) d rest cl c m1 Hok Hs1)]; [|auto].
           intros w r [[w1 [t [ea [dsa [wa [ra [rb [H1 H2]]]]]]]]|[[H1 H2]|[y [H1 H2]]]].
           ++ left. exists w1, t, ea, dsa, wa, ra, rb. split; [eapply fi_case_no; eassumption|auto].
           ++ right. left. split; [eapply fi_case_no; eassumption|assumption].
           ++ right. right. exists y. split; [eapply fi_case_no; eassumption|assumption].
    + (* each *)
      pose proof (rod2 n x y c m HIn) as H.
      destruct (run n (JRod (gexp ptc_none (Some x) ++ [NExpr (rptc ptcf ptc_none) y]) c) m)
        as [c1 m1|z c1 m1| |]; cbn [Qrod2] in H; auto; unfold seq_next, seq.
      * destruct H as [-> [Hs [r1 [r2 [w1 [Hk [He1 He2]]]]]]]. rewrite Hs. cbn [is_next]. rewrite Hk.
        rewrite deref_read. destruct (read (world m1) r1) as [lo|z] eqn:E1.
        2:{ split; [reflexivity|]. right. right. exists z. split; [|reflexivity]. eapply fi_each_read1; eassumption. }
        rewrite deref_read. destruct (read (world m1) r2) as [up|z] eqn:E2.
        2:{ split; [reflexivity|]. right. right. exists z. split; [|reflexivity]. eapply fi_each_read2; eassumption. }
        destruct (in_interval lc uc (compare o v lo) (compare o v up)) eqn:Ei.
        -- apply interval_within in Ei.
           eapply Qsc_weaken; [| |apply (h_find n Ha f1 f2 v i (Some i) [] cl c m1 Hok Hs)]; [|auto].
           intros w r [[w2 [t [ea [dsa [wa [ra [rb [H1 H2]]]]]]]]|[[H1 H2]|[z [H1 H2]]]]; inversion H1; subst.
           left. exists (world m1), t, ea, dsa, wa, ra, rb. split; [|auto]. eapply fi_each; eassumption.
        -- assert (~ within lc uc (compare o v lo) (compare o v up))
             by (intros H; apply interval_within in H; congruence).
           eapply Qsc_weaken; [| |apply (h_find n Ha f1 f2 v (S i) d rest cl c m1 Hok Hs)]; [|auto].
           intros w r [[w2 [t [ea [dsa [wa [ra [rb [H1 H2]]]]]]]]|[[H1 H2]|[z [H1 H2]]]].
           ++ left. exists w2, t, ea, dsa, wa, ra, rb. split; [eapply fi_each_no; eassumption|auto].
           ++ right. left. split; [eapply fi_each_no; eassumption|assumption].
           ++ right. right. exists z. split; [eapply fi_each_no; eassumption|assumption].
      * destruct H as [-> H]. split; [reflexivity|]. right. right. exists z. split; [|reflexivity].
        destruct H as [H|[w1 [r1 [H1 H2]]]]; [apply fi_each_throw1; assumption|eapply fi_each_throw2; eassumption].
Qed.


(* ---- statements ---- *)
Lemma mk_ok : forall q l fl, forallb (accepted fl) l = true -> (q = ptc_none \/ q = ptc_void) ->
  (ptcf = true -> uni_list (uniform md) q l = true
     /\ negb (existsb is_defer l && existsb inner l) && forallb nest l = true) ->
  ok q l /\ one l.
Proof.
  intros q l fl Hf Hq H. split; [split; [split; eauto|]|]; intros Ht; destruct (H Ht) as [H1 H2];
    apply andb_prop in H2; destruct H2 as [H2 H3]; auto.
  apply negb_true_iff in H2. assumption.
Qed.
Ltac bools := repeat match goal with H : _ && _ = true |- _ => apply andb_prop in H; destruct H end.

Lemma oks_if : forall q neg e t f, oks q (SIf neg e t f) -> (ok q t /\ one t) /\ (ok q f /\ one f).
Proof.
  intros q neg e t f [[[fl Ha] Hq] Hp]. simpl in Ha. apply andb_prop in Ha. destruct Ha as [Ha1 Ha2].
  split; (eapply mk_ok; [eassumption|assumption|]); intros Ht; destruct (Hp Ht) as [Hu Hn];
    cbn [uniform nest] in Hu, Hn; apply andb_prop in Hu, Hn; tauto.
Qed.
Lemma oks_do : forall q neg e b c, oks q (SDoWhile b neg e c) -> (ok ptc_none b /\ one b) /\ (ok q c /\ one c).
Proof.
  intros q neg e t f [[[fl Ha] Hq] Hp]. simpl in Ha. apply andb_prop in Ha. destruct Ha as [Ha1 Ha2].
  split; (eapply mk_ok; [eassumption|auto|]); intros Ht; destruct (Hp Ht) as [Hu Hn];
    cbn [uniform nest] in Hu, Hn; apply andb_prop in Hu, Hn; tauto.
Qed.
Lemma oks_while : forall q neg e b c, oks q (SWhile neg e b c) -> (ok ptc_none b /\ one b) /\ (ok q c /\ one c).
Proof.
  intros q neg e t f [[[fl Ha] Hq] Hp]. simpl in Ha. apply andb_prop in Ha. destruct Ha as [Ha1 Ha2].
  split; (eapply mk_ok; [eassumption|auto|]); intros Ht; destruct (Hp Ht) as [Hu Hn];
    cbn [uniform nest] in Hu, Hn; apply andb_prop in Hu, Hn; tauto.
Qed.
Lemma oks_each : forall q nm e st it b c, oks q (SForEach nm e st it b c) ->
  (ok ptc_none b /\ one b) /\ (ok q c /\ one c).
Proof.
  intros q nm e st it t f [[[fl Ha] Hq] Hp]. simpl in Ha. apply andb_prop in Ha. destruct Ha as [Ha1 Ha2].
  split; (eapply mk_ok; [eassumption|auto|]); intros Ht; destruct (Hp Ht) as [Hu Hn];
    cbn [uniform nest] in Hu, Hn; apply andb_prop in Hu, Hn; tauto.
Qed.
Lemma oks_try : forall q t k c, oks q (STry t k c) -> (ok ptc_none t /\ one t) /\ (ok q c /\ one c).
Proof.
  intros q t k f [[[fl Ha] Hq] Hp]. simpl in Ha. apply andb_prop in Ha. destruct Ha as [Ha1 Ha2].
  split; (eapply mk_ok; [eassumption|auto|]); intros Ht; destruct (Hp Ht) as [Hu Hn];
    cbn [uniform nest] in Hu, Hn; apply andb_prop in Hu, Hn; tauto.
Qed.
Lemma oks_for : forall q i cn sp b c, oks q (SFor i cn sp b c) ->
  (match i with [SDecl _ _] | [SExpr _] | [] => True | _ => False end)
  /\ ok ptc_none i /\ (ok ptc_none b /\ one b) /\ (ok q c /\ one c).
Proof.
  intros q i cn sp t f [[[fl Ha] Hq] Hp]. simpl in Ha. apply andb_prop in Ha. destruct Ha as [Ha Ha2].
  apply andb_prop in Ha. destruct Ha as [Hi Ha1].
  split; [destruct i as [|[] [|]]; try discriminate Hi; exact I|].
  split.
  { split; [split; [|auto]; exists fl; destruct i as [|[] [|]]; try discriminate Hi; reflexivity|].
    intros Ht. destruct (Hp Ht) as [Hu Hn]. cbn [uniform] in Hu. bools. split; [assumption|].
    destruct i as [|[] [|]]; try discriminate Hi; reflexivity. }
  split; (eapply mk_ok; [eassumption|auto|]); intros Ht; destruct (Hp Ht) as [Hu Hn];
    cbn [uniform nest] in Hu, Hn; bools; split; try assumption;
    (apply andb_true_iff; split; assumption).
Qed.
Lemma oks_block : forall q l, oks q (SBlock l) -> ok q l /\ one l.
Proof.
  intros q l [[[fl Ha] Hq] Hp]. simpl in Ha. eapply mk_ok; [eassumption|assumption|].
  intros Ht. exact (Hp Ht).
Qed.
Lemma oks_switch : forall q e cl, oks q (SSwitch e cl) ->
  okcl (existsb (fun '(_, b) => existsb inner b) cl) (existsb (fun '(_, b) => existsb is_defer b) cl) cl.
Proof.
  intros q e cl [[[fl Ha] Hq] Hp]. cbn [accepted] in Ha. split.
  - rewrite forallb_forall in Ha. apply Forall_forall. intros [[lb skip] b] Hin.
    specialize (Ha _ Hin). cbn beta iota in Ha. cbn [snd].
    split; [split; [split; [eauto|auto]|]|split].
    + intros Ht. destruct (Hp Ht) as [Hu Hn]. cbn [uniform nest] in Hu, Hn. bools.
      rewrite forallb_forall in Hu. match goal with H : forallb _ cl = true |- _ => rewrite forallb_forall in H; specialize (H _ Hin) end.
      specialize (Hu _ Hin). auto.
    + intros Hx. apply existsb_exists. exists (lb, skip, b). auto.
    + intros Hx. apply existsb_exists. exists (lb, skip, b). auto.
  - intros Ht. destruct (Hp Ht) as [Hu Hn]. cbn [nest] in Hn. bools.
    apply negb_true_iff in H. rewrite andb_comm. exact H.
Qed.

Lemma frag_eq : forall q s, frag q s = gen q [] s.
Proof. reflexivity. Qed.
Lemma mode_eqb_eq : forall a b, mode_eqb a b = true -> a = b.
Proof. intros [] []; simpl; congruence. Qed.

Lemma stmts1_ok : forall n q s c ds m, sok s -> IH n -> oks q s -> dfr c = map mdef ds -> stat m = st_next ->
  Qs (fun e' ds' w r => stmt_ (names c) ds s (world m) e' ds' w r) ds (inner s) (is_defer s) q
     (run n (JSeq (frag q s) c) m).
Proof. intros. auto. Qed.

Lemma sok_expr : forall e, sok (SExpr e).
Proof.
  intros e n q c ds m HI [[_ Hq] Hp] Hd Hm.
  change (frag q (SExpr e)) with [@NClear W E R X A F It; NExpr (rptc ptcf q) e].
  pose proof (seq_expr_p n (rptc ptcf q) e c m HI Hm (rptc_cases q)) as H.
  destruct (run n (JSeq [@NClear W E R X A F It; NExpr (rptc ptcf q) e] c) m) as [c1 m1|x c1 m1| |]; cbn [Qexpr] in H; auto.
  - destruct H as [-> [[Hs [rr [Hk He]]]|[Ht [Hne [Hmc [Hst [f [a [s [Hk Hall]]]]]]]]]].
    + exists ds. split; [assumption|]. split; [auto|]. left. exists ONext. split; [|assumption].
      exists (names c). split; [auto|]. eapply st_expr; eassumption.
    + exists ds. split; [assumption|]. split; [auto|]. right.
      destruct (Hp Ht) as [Hu _]. cbn [uniform] in Hu.
      unfold rptc in *. rewrite Ht in *.
      assert (Heq : q = md).
      { rewrite Hmc in Hu. cbn [negb] in Hu. rewrite orb_false_r in Hu. apply orb_prop in Hu.
        destruct Hu as [Hu|Hu]; apply mode_eqb_eq in Hu; congruence. }
      destruct Hq as [Hq|Hq]; [congruence|].
      exists ONext. split; [auto|]. split; [assumption|]. eexists _, s, [].
      split; [assumption|]. split; [exact Hk|]. split; [reflexivity|]. split; [assumption|]. split; [auto|].
      intros w2 rr w3 r Hc Hun. cbn [p_target p_args] in Hc. apply Hall in Hc. inversion Hun; subst r w3.
      exists (names c). split; [auto|]. unfold tail_out. rewrite <- Heq, Hq. destruct rr as [rr|x].
      * eapply st_expr; eassumption.
      * apply st_expr_throw. assumption.
  - destruct H as [-> He]. exists (names c), ds. split; [assumption|]. apply st_expr_throw. assumption.
Qed.

Lemma sok_return : forall b e, sok (SReturn b e).
Proof.
  intros b e n q c ds m HI [[_ Hq] Hp] Hd Hm. destruct e as [e|].
  2:{ change (frag q (SReturn b None)) with [@NReturn W E R X A F It false true].
      destruct n as [|n]; [exact I|]. rewrite seq_single. destruct n as [|n]; [exact I|].
      exists ds. split; [assumption|]. split; [auto|]. left. exists (OReturn Void). split; [|left; reflexivity].
      exists (names c). split; [auto|]. apply st_return_void_. }
  set (p := if b then ptc_by_ref else ptc_by_val).
  change (frag q (SReturn b (Some e))) with ([@NClear W E R X A F It; NExpr (rptc ptcf p) e] ++ [NReturn b false]).
  rewrite seq_app by assumption.
  pose proof (seq_expr_p n (rptc ptcf p) e c m HI Hm (rptc_cases p)) as H.
  destruct (run n (JSeq [@NClear W E R X A F It; NExpr (rptc ptcf p) e] c) m) as [c1 m1|x c1 m1| |]; cbn [Qexpr] in H; auto.
  - destruct H as [-> [[Hs [rr [Hk He]]]|[Ht [Hne [Hmc [Hst [f [a [s [Hk Hall]]]]]]]]]].
    + rewrite Hs. cbn [is_next length].
      destruct (n - 2)%nat as [|k]; [exact I|]. rewrite seq_single. destruct k as [|k]; [exact I|].
      cbn [FlowModel.run]. cbn [world set_stk] in He. rewrite Hk.
      assert (Hst : stmt_ (names c) ds (SReturn b (Some e)) (world m) (names c) ds (world m1) (returned b (world m1) rr))
        by (eapply st_return_; eassumption).
      destruct rr as [|r]; cbn [FlowProofs2.ref_of FlowSpec.returned] in *.
      * exists ds. split; [assumption|]. split; [auto|]. left. exists (OReturn Void).
        split; [exists (names c); auto|]. right. split; [reflexivity|]. exists (stk (set_stk m [])). exact Hk.
      * unfold deref. destruct (value o (world m1) r) as [v|y].
        -- destruct b; (exists ds; split; [assumption|]; split; [auto|]; left; eexists; split;
             [exists (names c); split; [auto|exact Hst]|split; [reflexivity|]]).
           ++ exists (stk (set_stk m [])). exact Hk.
           ++ exists (stk (set_stk m [])). reflexivity.
        -- exists (names c), ds. auto.
    + rewrite Hst. cbn [is_next]. exists ds. split; [assumption|]. split; [auto|]. right.
      destruct (Hp Ht) as [Hu _]. cbn [uniform] in Hu. rewrite Hmc in Hu. cbn [negb orb] in Hu.
      apply mode_eqb_eq in Hu. fold p in Hu.
      exists (OReturn Void). split; [auto|]. split; [assumption|]. eexists _, s, [].
      split; [assumption|]. split; [exact Hk|]. split; [reflexivity|].
      split; [cbn [p_mode]; unfold rptc; rewrite Ht; assumption|]. split; [auto|].
      intros w2 rr w3 r Hc Hun. cbn [p_target p_args] in Hc. apply Hall in Hc. inversion Hun; subst r w3.
      exists (names c). split; [auto|]. cbn [world set_stk] in Hc. unfold tail_out. rewrite <- Hu. unfold p.
      destruct rr as [rr|x].
      * destruct b; eapply st_return_; eassumption.
      * apply st_return_throw. assumption.
  - destruct H as [-> He]. exists (names c), ds. split; [assumption|]. apply st_return_throw. assumption.
Qed.

Lemma sok_decl : forall d i, sok (SDecl d i).
Proof.
  intros d i n q c ds m HI _ Hd Hm. destruct i as [[e i]|].
  2:{ change (frag q (SDecl d None)) with [@NDeclare W E R X A F It d].
      destruct n as [|n]; [exact I|]. rewrite seq_single. destruct n as [|n]; [exact I|]. cbn [FlowModel.run].
      destruct (d (names c) (world m)) as [w e1] eqn:Ed.
      exists ds. split; [assumption|]. split; [auto|]. left. exists ONext. split; [|assumption].
      exists e1. split; [auto|]. apply st_decl. assumption. }
  change (frag q (SDecl d (Some (e, i)))) with [@NClear W E R X A F It; NDeclare d; NExpr (rptc ptcf ptc_none) e; NInit i].
  destruct n as [|n]; [exact I|]. rewrite run_cons. destruct n as [|n]; [exact I|].
  change (run (S n) (JNode NClear c) m) with (@Go W E R X A F It c (set_stk m [])). cbv beta iota.
  change (stat (set_stk m [])) with (stat m). rewrite Hm. cbn [is_next].
  rewrite run_cons. destruct n as [|n]; [exact I|].
  destruct (d (names c) (world m)) as [w e1] eqn:Ed.
  replace (run (S n) (JNode (NDeclare d) c) (set_stk m []))
    with (@Go W E R X A F It {| names := e1; dfr := dfr c |} (set_world (set_stk m []) w))
    by (cbn [FlowModel.run]; cbn [world set_stk]; rewrite Ed; reflexivity).
  cbv beta iota. change (stat (set_world (set_stk m []) w)) with (stat m). rewrite Hm. cbn [is_next].
  rewrite run_cons. destruct n as [|n]; [exact I|].
  set (c1 := {| names := e1; dfr := dfr c |}). set (m1 := set_world (set_stk m []) w).
  change (run (S n) (JNode (NExpr (rptc ptcf ptc_none) e) c1) m1) with (run n (JExpr (rptc ptcf ptc_none) e c1) m1).
  rewrite rptc_none.
  assert (Ha : all n) by (apply HI; lia).
  pose proof (h_expr n Ha ptc_none e c1 m1 Hm (or_introl eq_refl)) as H.
  destruct (run n (JExpr ptc_none e c1) m1) as [c2 m2|x c2 m2| |]; cbn [Qexpr] in H; auto.
  - destruct H as [-> [[Hs [rr [Hk He]]]|[_ [H _]]]]; [|congruence].
    rewrite Hs. cbn [is_next]. rewrite seq_single. cbn [FlowModel.run].
    destruct n as [|n]; [exact I|]. cbn [FlowModel.run].
    cbn [names c1] in He. unfold m1 in He. cbn [world set_world] in He.
    assert (Hin : Qs (fun e' ds' w0 r => stmt_ (names c) ds (SDecl d (Some (e, i))) (world m) e' ds' w0 r) ds
        (@inner W E R X A F It (SDecl d (Some (e, i)))) (@is_defer W E R X A F It (SDecl d (Some (e, i)))) q
        (match i rr (names c1) (world m2) with
         | (w0, inl e0) => Go {| names := e0; dfr := dfr c1 |} (set_stk (set_world m2 w0) (stk m1))
         | (w0, inr x) => Exn x c1 (set_world m2 w0)
         end)).
    { destruct (i rr (names c1) (world m2)) as [w3 [e3|y]] eqn:Ei.
      - exists ds. split; [assumption|]. split; [auto|]. left. exists ONext. split; [|assumption].
        exists e3. split; [auto|]. eapply st_decl_init; eassumption.
      - exists e1, ds. split; [assumption|]. eapply st_decl_init_throw; eassumption. }
    rewrite Hk. destruct rr; exact Hin.
  - destruct H as [-> He]. exists e1, ds. split; [assumption|]. eapply st_decl_throw; eassumption.
Qed.

Lemma init_next : forall n s c m c' m', IH n -> stat m = st_next ->
  match s with SDecl _ _ | SExpr _ => True | _ => False end ->
  run n (JSeq (frag ptc_none s) c) m = Go c' m' -> stat m' = st_next.
Proof.
  intros n s c m c' m' HI Hm Hs H. destruct s; try contradiction.
  - change (frag ptc_none (SExpr e)) with (gexp ptc_none (Some e)) in H.
    pose proof (seq_expr n e c m HI Hm) as Hq. rewrite H in Hq. apply Hq.
  - destruct init as [[e i]|].
    + change (frag ptc_none (SDecl d (Some (e, i))))
        with [@NClear W E R X A F It; NDeclare d; NExpr (rptc ptcf ptc_none) e; NInit i] in H.
      destruct n as [|n]; [discriminate|]. rewrite run_cons in H. destruct n as [|n]; [discriminate|].
      change (run (S n) (JNode NClear c) m) with (@Go W E R X A F It c (set_stk m [])) in H.
      cbv beta iota in H.
      change (stat (set_stk m [])) with (stat m) in H. rewrite Hm in H. cbn [is_next] in H.
      rewrite run_cons in H. destruct n as [|n]; [discriminate|].
      destruct (d (names c) (world m)) as [w e1] eqn:Ed.
      replace (run (S n) (JNode (NDeclare d) c) (set_stk m []))
        with (@Go W E R X A F It {| names := e1; dfr := dfr c |} (set_world (set_stk m []) w)) in H
        by (cbn [FlowModel.run]; cbn [world set_stk]; rewrite Ed; reflexivity).
      cbv beta iota in H. change (stat (set_world (set_stk m []) w)) with (stat m) in H.
      rewrite Hm in H. cbn [is_next] in H.
      rewrite run_cons in H. destruct n as [|n]; [discriminate|].
      set (c1 := {| names := e1; dfr := dfr c |}) in *. set (m1 := set_world (set_stk m []) w) in *.
      change (run (S n) (JNode (NExpr (rptc ptcf ptc_none) e) c1) m1)
        with (run n (JExpr (rptc ptcf ptc_none) e c1) m1) in H.
      rewrite rptc_none in H.
      assert (Ha : all n) by (apply HI; lia).
      pose proof (h_expr n Ha ptc_none e c1 m1 Hm (or_introl eq_refl)) as Hq.
      destruct (run n (JExpr ptc_none e c1) m1) as [c2 m2|x c2 m2| |]; cbn [Qexpr] in Hq; try discriminate.
      destruct Hq as [-> [[Hs2 [rr [Hk He]]]|[_ [Hq _]]]]; [|congruence].
      rewrite Hs2 in H. cbn [is_next] in H. rewrite seq_single in H.
      destruct n as [|n]; [discriminate|]. cbn [FlowModel.run] in H. rewrite Hk in H.
      destruct rr as [|r]; cbn [FlowProofs2.ref_of] in H;
        match type of H with context [match ?t with (_, _) => _ end] => destruct t as [w3 [e3|y]] end;
        try discriminate; injection H as _ <-; exact Hs2.
    + change (frag ptc_none (SDecl d None)) with [@NDeclare W E R X A F It d] in H.
      destruct n as [|n]; [discriminate|]. rewrite seq_single in H. destruct n as [|n]; [discriminate|].
      cbn [FlowModel.run] in H. destruct (d (names c) (world m)) as [w e1]. injection H as _ <-. exact Hm.
Qed.

Lemma IH_S : forall n k, IH n -> (S k <= n)%nat -> all k.
Proof. intros n k H Hk. apply H. lia. Qed.

Lemma sok_all : forall s, sok s.
Proof.
  apply stmt_ind2.
  - apply sok_expr.
  - (* block *)
    intros l Hl n q c ds m HI Hok Hd Hm. destruct (oks_block _ _ Hok) as [Hok1 Hone].
    unfold FlowProofs1.frag. cbn [FlowModel.gen back_terminator app].
    destruct (flat (SBlock l)) eqn:Ef.
    + destruct (flat_scopeless _ Ef) as [l' [Heq Hsl]]. injection Heq as <-.
      fold (code q l). eapply Qs_weaken; [| | |eapply (list_ok l Hl n q c ds m HI Hok1 Hd Hm)].
      * intros e ds' w r H. cbv beta in H.
        destruct (scopeless_stmts _ _ _ _ _ _ _ _ _ _ Hsl H) as [-> [-> H']].
        apply st_block. eapply sc; [apply H'|]. apply un_nil.
      * intros Hx. cbn [inner]. auto.
      * intros Hx. exfalso. apply existsb_exists in Hx. destruct Hx as [s [Hs1 Hs2]].
        rewrite forallb_forall in Hsl. apply Hsl in Hs1. destruct s; discriminate.
    + fold (code q l). destruct n as [|n]; [exact I|]. rewrite seq_single. destruct n as [|n]; [exact I|].
      change (run (S n) (JNode (NBlock (code q l)) c) m) with (run n (JBlock (code q l) c) m).
      assert (Ha : all n) by (apply HI; lia).
      eapply Qsc_Qs; [exact Hd| |exact (h_block n Ha q l c m Hok1 Hone)].
      intros w r H. apply st_block. exact H.
  - apply sok_decl.
  - (* if *)
    intros neg e t f Ht Hf n q c ds m HI Hok Hd Hm. destruct (oks_if _ _ _ _ _ Hok) as [[Ht1 Ht2] [Hf1 Hf2]].
    unfold FlowProofs1.frag. cbn [FlowModel.gen back_terminator app]. fold (code q t). fold (code q f).
    change (run n (JSeq (@NClear W E R X A F It :: NExpr (rptc ptcf ptc_none) e :: [NIf neg (code q t) (code q f)]) c) m)
      with (run n (JSeq (gexp ptc_none (Some e) ++ [NIf neg (code q t) (code q f)]) c) m).
    apply seq_cond; auto; [exact I| | |].
    + intros y m1 Hc. exists (names c), ds. split; [assumption|]. apply st_if_throw. assumption.
    + intros v k m1 Hk Hs Hc _ Htop. destruct k as [|k]; [exact I|]. cbn [FlowModel.run]. rewrite Htop.
      assert (Ha : all k) by (apply HI; lia).
      destruct (xorb (test o v) neg) eqn:Ex.
      * eapply Qsc_Qs; [exact Hd| |eapply Qsc_weaken; [| |exact (h_block k Ha q t c m1 Ht1 Ht2)]; [intros w r H; exact H|]].
        -- intros w r H. eapply st_if; [eassumption|]. rewrite Ex. exact H.
        -- cbn [inner]. auto.
      * eapply Qsc_Qs; [exact Hd| |eapply Qsc_weaken; [| |exact (h_block k Ha q f c m1 Hf1 Hf2)]; [intros w r H; exact H|]].
        -- intros w r H. eapply st_if; [eassumption|]. rewrite Ex. exact H.
        -- cbn [inner]. auto.
    + intros y k m1 Hk Hs Hc Htop. destruct k as [|k]; [exact I|]. cbn [FlowModel.run]. rewrite Htop.
      exists (names c), ds. split; [assumption|]. apply st_if_throw. assumption.
  - (* switch *)
    intros e cl Hcl n q c ds m HI Hok Hd Hm. pose proof (oks_switch _ _ _ Hok) as Hokc.
    assert (Hfr : frag q (SSwitch e cl) = gexp ptc_none (Some e) ++ [NSwitch (map gcl cl)]).
    { unfold FlowProofs1.frag. cbn [FlowModel.gen back_terminator app]. unfold gen_expr. cbn [app].
      match goal with |- _ :: _ :: [NSwitch ?x] = _ => replace x with (map gcl cl); [reflexivity|] end.
      apply map_ext. intros [[lb skip] b]. destruct lb; reflexivity. }
    rewrite Hfr. apply seq_cond; auto; [exact I| | |].
    + intros y m1 Hc. exists (names c), ds. split; [assumption|]. apply st_switch_throw. assumption.
    + intros v k m1 Hk Hs Hc _ Htop. destruct k as [|k]; [exact I|]. cbn [FlowModel.run]. rewrite Htop.
      assert (Ha : all k) by (apply HI; lia).
      eapply Qsc_Qs; [exact Hd| |apply Qsc_none; eapply Qsc_weaken; [| |exact (h_find k Ha _ _ v 0%nat None cl cl c m1 Hokc Hs)]; [intros w r H; exact H|]].
      * intros w r [[w1 [t [ea [dsa [wa [ra [rb [H1 [H2 [H3 H4]]]]]]]]]]|[[H1 ->]|[y [H1 ->]]]].
        -- eapply st_switch; eassumption.
        -- eapply st_switch_none; eassumption.
        -- eapply st_switch_label; eassumption.
      * cbn [inner]. intros Hx. apply orb_prop in Hx.
        destruct Hx as [Hx|Hx]; apply existsb_exists in Hx; destruct Hx as [[[lb skip] b] [Hx1 Hx2]];
          apply existsb_exists; exists (lb, skip, b); auto.
    + intros y k m1 Hk Hs Hc Htop. destruct k as [|k]; [exact I|]. cbn [FlowModel.run]. rewrite Htop.
      exists (names c), ds. split; [assumption|]. apply st_switch_throw. assumption.
  - (* do while *)
    intros b neg e l Hb Hl n q c ds m HI Hok Hd Hm. destruct (oks_do _ _ _ _ _ Hok) as [[Hb1 Hb2] [Hl1 Hl2]].
    unfold FlowProofs1.frag. cbn [FlowModel.gen back_terminator app]. fold (code ptc_none b). fold (code q l).
    destruct n as [|n]; [exact I|]. rewrite seq_single. destruct n as [|n]; [exact I|].
    match goal with |- context [run (S n) (JNode (NDoWhile ?a ?b0 ?d ?e0) c) m] =>
      change (run (S n) (JNode (NDoWhile a b0 d e0) c) m) with (run n (JDoWhile a b0 d e0 c) m) end.
    assert (Ha : all n) by (apply HI; lia).
    eapply Qsc_Qs; [exact Hd| |exact (h_do n Ha q b neg e l c m Hb1 Hb2 Hl1 Hl2)].
    intros w r H. cbv beta in H. eapply scopeless_stmt in H; [|reflexivity]. apply H.
  - (* while *)
    intros neg e b l Hb Hl n q c ds m HI Hok Hd Hm. destruct (oks_while _ _ _ _ _ Hok) as [[Hb1 Hb2] [Hl1 Hl2]].
    unfold FlowProofs1.frag. cbn [FlowModel.gen back_terminator app]. fold (code ptc_none b). fold (code q l).
    destruct n as [|n]; [exact I|]. rewrite seq_single. destruct n as [|n]; [exact I|].
    match goal with |- context [run (S n) (JNode (NWhile ?a ?b0 ?d ?e0) c) m] =>
      change (run (S n) (JNode (NWhile a b0 d e0) c) m) with (run n (JWhile a b0 d e0 c) m) end.
    assert (Ha : all n) by (apply HI; lia).
    eapply Qsc_Qs; [exact Hd| |exact (h_while n Ha q neg e b l c m Hb1 Hb2 Hl1 Hl2)].
    intros w r H. cbv beta in H. eapply scopeless_stmt in H; [|reflexivity]. apply H.
  - (* for each *)
    intros nm e st it b l Hb Hl n q c ds m HI Hok Hd Hm.
    destruct (oks_each _ _ _ _ _ _ _ Hok) as [[Hb1 Hb2] [Hl1 Hl2]].
    unfold FlowProofs1.frag. cbn [FlowModel.gen back_terminator app]. fold (code ptc_none b). fold (code q l).
    destruct n as [|n]; [exact I|]. rewrite seq_single. destruct n as [|n]; [exact I|].
    assert (Ha : all n) by (apply HI; lia).
    cbn [FlowModel.run]. cbv zeta.
    set (c1 := {| names := nm (names c); dfr := [] |}).
    match goal with |- Qs _ _ _ _ _ (match ?x with Go _ _ => _ | Exn _ _ _ => _ | Bad => _ | Fuel => _ end) =>
      change (Qs (fun e' ds' w r => stmt_ (names c) ds (SForEach nm e st it b l) (world m) e' ds' w r) ds
                (inner (SForEach nm e st it b l)) (is_defer (SForEach nm e st it b l)) q (Leave n c x));
      assert (Hbody : Qs (fun _ ds' w r => ds' = [] /\ stmt_ (names c) ds (SForEach nm e st it b l) (world m) (names c) ds w r) []
                        (has b || has l) false q x) end.
    { eapply seq_rod; [apply (h_rode n Ha)|exact I| |].
      - intros x m1 He. apply Qs_exn; [reflexivity|]. eapply st_each_throw. eassumption.
      - intros m1 rr Hs Hk He. rewrite Hk. destruct rr as [|r]; cbn [FlowProofs2.ref_of].
        + apply Qs_exn; [reflexivity|]. eapply st_each_read; [eassumption|reflexivity].
        + unfold deref. cbn [world set_stk]. destruct (value o (world m1) r) as [v|x] eqn:Ev.
          2:{ apply Qs_exn; [reflexivity|]. eapply st_each_read; [eassumption|exact Ev]. }
          destruct (range o v) as [[its|]|x] eqn:Eg.
          * eapply Qs_weaken0; [| |apply (h_each n Ha q its it b l c {| names := st r (names c1); dfr := [] |} _ Hb1 Hb2 Hl1 Hl2 eq_refl)]; [|auto].
            intros w r0 H. cbn [world set_stk names] in H. eapply st_each; eassumption.
          * apply Qs_go; [reflexivity|]. left. exists ONext. split; [|exact Hs].
            cbn [world set_stk]. eapply st_each_null; eassumption.
          * apply Qs_exn; [reflexivity|]. cbn [world set_stk]. eapply st_each_range; eassumption. }
    pose proof (leave_ok n _ _ _ _ c _ Ha Hbody) as Hle.
    assert (Hff : ptcf = true -> (has b || has l) && false = false) by (intros; apply andb_false_r).
    specialize (Hle Hff). eapply Qsc_Qs; [exact Hd| |exact Hle].
    intros w r [e' [ds' [w0 [r0 [[-> H] Hu]]]]]. inversion Hu; subst. exact H.
  - (* for *)
    intros i cn sp b l Hi Hb Hl n q c ds m HI Hok Hd Hm.
    destruct (oks_for _ _ _ _ _ _ Hok) as [Hsh [Hi1 [[Hb1 Hb2] [Hl1 Hl2]]]].
    unfold FlowProofs1.frag. cbn [FlowModel.gen back_terminator app].
    fold (code ptc_none b). fold (code q l). fold (code ptc_none i).
    destruct n as [|n]; [exact I|]. rewrite seq_single. destruct n as [|n]; [exact I|].
    assert (Ha : all n) by (apply HI; lia).
    cbn [FlowModel.run].
    match goal with |- Qs _ _ _ _ _ (match ?x with Go _ _ => _ | Exn _ _ _ => _ | Bad => _ | Fuel => _ end) =>
      change (Qs (fun e' ds' w r => stmt_ (names c) ds (SFor i cn sp b l) (world m) e' ds' w r) ds
                (inner (SFor i cn sp b l)) (is_defer (SFor i cn sp b l)) q (Leave n c x));
      assert (Hbody : Qs (fun _ ds' w r => ds' = [] /\ stmt_ (names c) ds (SFor i cn sp b l) (world m) (names c) ds w r) []
                        (has b || has l) false q x) end.
    { assert (Hnd : forall e ds' w r, stmts (names c) [] i (world m) e ds' w r ->
                ds' = [] /\ (r = ONext \/ exists x, r = OThrow x)).
      { intros e0 ds' w r H. split.
        - apply defers_stmts in H. destruct H as [->|H]; [reflexivity|].
          destruct i as [|[] [|]]; try contradiction; discriminate H.
        - destruct i as [|s [|]]; try contradiction.
          + inversion H; subst; auto.
          + destruct s; try contradiction; inversion H; subst;
            match goal with
            | Hx : stmts _ _ [] _ _ _ _ _ |- _ => inversion Hx; subst; auto
            | Hx : stmt_ _ _ (SExpr _) _ _ _ _ _ |- _ => inversion Hx; subst; eauto
            | Hx : stmt_ _ _ (SDecl _ _) _ _ _ _ _ |- _ => inversion Hx; subst; eauto
            end.
          + destruct s; contradiction. }
      pose proof (h_rod n Ha ptc_none i {| names := names c; dfr := [] |} [] m Hi1 eq_refl) as H.
      destruct (run n (JRod (code ptc_none i) {| names := names c; dfr := [] |}) m) as [c1 m1|x c1 m1| |] eqn:Er;
        cbn [Qs] in H; cbn [names] in H; auto.
      - destruct H as [ds1 [Hd1 [Hf1 Hp]]].
        assert (Hnoi : existsb inner i = false /\ existsb is_defer i = false).
        { destruct i as [|[] [|]]; try contradiction; auto. }
        destruct Hnoi as [Hni1 Hni2].
        destruct Hf1 as [-> |Hf1]; [|congruence].
        destruct Hp as [[r [[e1 [He1 Hr]] Hma]]|[ov [[-> |[_ Ho]] [Ht [pt [u [pds [Hst [Hsk [Hpd [Hmo [Hfl Hall]]]]]]]]]]]]; [| |discriminate].
        + destruct (Hnd _ _ _ _ Hr) as [_ [-> |[x ->]]]; [|contradiction].
          simpl in Hma. rewrite (He1 eq_refl Hma) in Hr. rewrite Hma. cbn [is_next].
          eapply Qs_weaken0; [| |apply (h_for n Ha q cn sp b l c c1 m1 Hb1 Hb2 Hl1 Hl2 Hd1)]; [|auto].
          intros w r H. eapply st_for; eassumption.
        + (* the initializer makes no tail call *)
          exfalso. destruct n as [|n]; [discriminate Er|].
          change (run n (JSeq (code ptc_none i) {| names := names c; dfr := [] |}) (set_stat m st_next) = Go c1 m1) in Er.
          assert (HIn : IH n) by (eapply IH_le; [exact HI|lia]).
          destruct i as [|s [|? ?]]; [| |destruct s; contradiction].
          -- destruct n as [|n]; [discriminate|]. injection Er as _ <-. discriminate.
          -- change (code ptc_none [s]) with (frag ptc_none s) in Er.
             assert (stat m1 = st_next)
               by (apply (init_next n s _ (set_stat m st_next) _ _ HIn eq_refl) in Er; [exact Er|exact Hsh]).
             congruence.
      - destruct H as [e1 [ds1 [Hd1 Hr]]]. destruct (Hnd _ _ _ _ Hr) as [-> _].
        apply Qs_exn; [assumption|]. eapply st_for_throw. eassumption. }
    pose proof (leave_ok n _ _ _ _ c _ Ha Hbody) as Hle.
    assert (Hff : ptcf = true -> (has b || has l) && false = false) by (intros; apply andb_false_r).
    specialize (Hle Hff). eapply Qsc_Qs; [exact Hd| |exact Hle].
    intros w r [e' [ds' [w0 [r0 [[-> H] Hu]]]]]. inversion Hu; subst. exact H.
  - (* try *)
    intros t k l Htl Hl n q c ds m HI Hok Hd Hm. destruct (oks_try _ _ _ _ Hok) as [[Ht1 Ht2] [Hl1 Hl2]].
    unfold FlowProofs1.frag. cbn [FlowModel.gen back_terminator app].
    fold (code ptc_none t). fold (code q l).
    destruct n as [|n]; [exact I|]. rewrite seq_single. destruct n as [|n]; [exact I|].
    assert (Ha : all n) by (apply HI; lia).
    cbn [FlowModel.run].
    (* what the block does, with its tail call completed *)
    match goal with |- Qs _ _ _ _ _ (match ?x with Go _ _ => _ | Exn _ _ _ => _ | Bad => _ | Fuel => _ end) =>
      set (res0 := x);
      assert (Hbody : match res0 with
                      | Fuel => True
                      | Bad => False
                      | Exn x0 _ m1 => scope (names c) t (world m) (world m1) (OThrow x0)
                      | Go c1 m1 => c1 = c /\ exists r, scope (names c) t (world m) (world m1) r /\ matches r m1
                      end) end.
    { unfold res0. clear res0.
      eapply seq_sc; [exact (h_block n Ha ptc_none t c m Ht1 Ht2)|exact I| |].
      - intros x m1 H. exact H.
      - intros m1 [[r [Hr Hma]]|[ov [[-> |[_ Ho]] [Ht [pt [u [pds [Hst [Hsk [Hpd [Hmo [Hfl Hall]]]]]]]]]]]]; [| |discriminate].
        + assert (Hgo : exists r, scope (names c) t (world m) (world m1) r /\ matches r m1) by eauto.
          destruct (stat m1) eqn:Es; try (split; [reflexivity|exact Hgo]).
          destruct (stk m1) as [|[| |r0|p] s] eqn:Ek; try (split; [reflexivity|exact Hgo]).
          exfalso. destruct r as [|b|b|[|r]|x]; simpl in Hma; try congruence.
          * destruct Hma as [Hma|[_ [s' Hma]]]; congruence.
          * destruct Hma as [_ [s' Hma]]; congruence.
        + rewrite Hst, Hsk.
          pose proof (h_use n Ha pt [] c m1 [pds] Ht (Forall2_cons pt pds (conj Hpd Hmo) (Forall2_nil _))) as Hu.
          destruct (run n (JUse pt [] c) m1) as [c2 m2|x c2 m2| |]; cbn [Quse chain] in Hu; auto.
          * destruct Hu as [rr [Hk2 [w2 [r2 [Hc [w1 [r [Hun [Hw Hf]]]]]]]]]. rewrite Hk2.
            split; [reflexivity|]. exists r. cbn [world]. rewrite Hw. split; [eapply Hall; eassumption|].
            destruct (unwind_tail_shape _ _ _ _ _ Hun) as [[y ->]|[x ->]]; [|discriminate].
            injection Hf as <-. destruct rr; simpl; [right|]; (split; [reflexivity|eauto]).
          * destruct Hu as [w2 [r2 [Hc [w1 [r [Hun [Hw Hf]]]]]]]. rewrite Hw.
            destruct (unwind_tail_shape _ _ _ _ _ Hun) as [[y ->]|[y ->]]; [discriminate|].
            injection Hf as <-. eapply Hall; eassumption. }
    destruct res0 as [c1 m1|x c1 m1| |]; auto.
    + destruct Hbody as [-> [r [Hr Hma]]]. exists ds. split; [assumption|]. split; [auto|]. left. exists r.
      split; [|assumption]. exists (names c). split; [auto|]. apply st_try; [assumption|].
      intros x ->. contradiction.
    + destruct (k x (names c) (world m1)) as [w e1] eqn:Ek.
      match goal with |- Qs ?rel ?d ?f1 ?f2 ?q0 (match ?y with Go _ _ => _ | Exn _ _ _ => _ | Bad => _ | Fuel => _ end) =>
        change (Qs rel d f1 f2 q0 (Leave n c y)) end.
      pose proof (h_rod n Ha q l {| names := e1; dfr := [] |} [] (set_world m1 w) Hl1 eq_refl) as Hr.
      pose proof (leave_ok n _ _ _ _ c _ Ha Hr) as Hle.
      assert (Hff : ptcf = true -> existsb inner l && existsb is_defer l = false)
        by (intros Ht; rewrite andb_comm; apply Hl2; assumption).
      specialize (Hle Hff). eapply Qsc_Qs; [exact Hd| |exact Hle].
      intros w' r [e' [ds' [w0 [r0 [H1 H2]]]]]. cbn [names world set_world] in H1.
      eapply st_try_catch; [eassumption|eassumption|]. eapply sc; eassumption.
  - (* break *)
    intros t n q c ds m HI Hok Hd Hm.
    change (frag q (SBreak t)) with [@NStatus W E R X A F It (st_break t)].
    destruct n as [|n]; [exact I|]. rewrite seq_single. destruct n as [|n]; [exact I|].
    exists ds. split; [assumption|]. split; [auto|]. left. exists (OBreak t). split; [|reflexivity].
    exists (names c). split; [auto|]. apply st_break_.
  - (* continue *)
    intros t n q c ds m HI Hok Hd Hm.
    change (frag q (SContinue t)) with [@NStatus W E R X A F It (st_continue t)].
    destruct n as [|n]; [exact I|]. rewrite seq_single. destruct n as [|n]; [exact I|].
    exists ds. split; [assumption|]. split; [auto|]. left. exists (OContinue t). split; [|reflexivity].
    exists (names c). split; [auto|]. apply st_continue_.
  - (* throw *)
    intros e n q c ds m HI Hok Hd Hm.
    change (frag q (SThrow e)) with (gexp ptc_none (Some e) ++ [@NThrow W E R X A F It]).
    apply seq_cond; auto; [exact I| | |].
    + intros y m1 Hc. exists (names c), ds. split; [assumption|]. apply st_throw_throw. assumption.
    + intros v k m1 Hk Hs Hc _ Htop. destruct k as [|k]; [exact I|]. cbn [FlowModel.run]. rewrite Htop.
      exists (names c), ds. split; [assumption|]. apply st_throw. assumption.
    + intros y k m1 Hk Hs Hc Htop. destruct k as [|k]; [exact I|]. cbn [FlowModel.run]. rewrite Htop.
      exists (names c), ds. split; [assumption|]. apply st_throw_throw. assumption.
  - apply sok_return.
  - (* assert *)
    intros e x n q c ds m HI Hok Hd Hm.
    change (frag q (SAssert e x)) with (gexp ptc_none (Some e) ++ [@NAssert W E R X A F It x]).
    apply seq_cond; auto; [exact I| | |].
    + intros y m1 Hc. exists (names c), ds. split; [assumption|]. apply st_assert_throw. assumption.
    + intros v k m1 Hk Hs Hc _ Htop. destruct k as [|k]; [exact I|]. cbn [FlowModel.run]. rewrite Htop.
      pose proof (st_assert o body (names c) ds e x _ _ _ Hc) as Hx.
      destruct (test o v).
      * exists ds. split; [assumption|]. split; [auto|]. left. exists ONext. split; [|exact Hs].
        exists (names c). auto.
      * exists (names c), ds. auto.
    + intros y k m1 Hk Hs Hc Htop. destruct k as [|k]; [exact I|]. cbn [FlowModel.run]. rewrite Htop.
      exists (names c), ds. split; [assumption|]. apply st_assert_throw. assumption.
  - (* defer *)
    intros e n q c ds m HI Hok Hd Hm.
    change (frag q (SDefer e)) with [@NDefer W E R X A F It (gexp ptc_none (Some e))].
    destruct n as [|n]; [exact I|]. rewrite seq_single. destruct n as [|n]; [exact I|].
    exists ((names c, e) :: ds). split; [cbn [dfr map]; rewrite Hd; reflexivity|]. split; [auto|].
    left. exists ONext. split; [|exact Hm]. exists (names c). split; [auto|]. apply st_defer.
Qed.

Lemma all_ok : forall n, all n.
Proof.
  induction n as [n HI] using lt_wf_ind. destruct n as [|n].
  { constructor; intros; exact I. }
  assert (Ha : all n) by (apply HI; lia).
  assert (HIn : IH n) by (intros k Hk; apply HI; lia).
  constructor.
  - intros. apply step_expr; assumption.
  - intros q l c m Hok Hone.
    change (run (S n) (JBlock (code q l) c) m) with (Leave n c (run n (JRod (code q l) {| names := names c; dfr := [] |}) m)).
    pose proof (h_rod n Ha q l {| names := names c; dfr := [] |} [] m Hok eq_refl) as Hr.
    pose proof (leave_ok n _ _ _ _ c _ Ha Hr) as Hle.
    assert (Hff : ptcf = true -> existsb inner l && existsb is_defer l = false)
      by (intros Ht; rewrite andb_comm; apply Hone; assumption).
    eapply Qsc_weaken; [| |exact (Hle Hff)]; [|auto].
    intros w r [e' [ds' [w0 [r0 [H1 H2]]]]]. eapply sc; eassumption.
  - intros q l c ds m Hok Hd.
    change (run (S n) (JRod (code q l) c) m) with (run n (JSeq (code q l) c) (set_stat m st_next)).
    apply (list_ok l (proj2 (Forall_forall _ _) (fun s _ => sok_all s)) n q c ds (set_stat m st_next) HIn Hok Hd eq_refl).
  - intros e c m.
    change (run (S n) (JRod (gexp ptc_none (Some e)) c) m)
      with (run n (JSeq (gexp ptc_none (Some e)) c) (set_stat m st_next)).
    apply (seq_expr n e c (set_stat m st_next) HIn eq_refl).
  - intros. apply step_exit; assumption.
  - intros. apply step_loop; assumption.
  - intros. apply step_exn; assumption.
  - intros. apply step_find; assumption.
  - intros. apply step_clauses; assumption.
  - intros. apply step_do; assumption.
  - intros. apply step_while; assumption.
  - intros. apply step_each; assumption.
  - intros. apply step_for; assumption.
  - intros. apply step_invoke; assumption.
  - intros. apply step_ptc; assumption.
  - intros. apply step_use; assumption.
  - intros. apply step_return; assumption.
  - intros. apply step_unw; assumption.
Qed.

End Proofs.
