(* formatv accepts exactly the templates, and puts what their pieces put. *)
From Verif Require Import Base Text Monad NumPutModel ValueModel FmtModel FmtSpec FmtProofs1 FmtProofs2.

Local Open Scope Z_scope.

Lemma run_to_spec stop p r q : run_to stop p = (r, q) ->
  p = r ++ q /\ ~ In 0 r /\ ~ In stop r /\ (q = [] \/ exists c t, q = c :: t /\ (c = 0 \/ c = stop)).
Proof.
  revert r q; induction p as [|c p IH]; cbn; intros r q E.
  - injection E as <- <-. cbn. tauto.
  - destruct (c =? 0) eqn:E0; cbn in E; [|destruct (c =? stop) eqn:E1; cbn in E].
    + injection E as <- <-. apply Z.eqb_eq in E0. cbn. repeat split; auto. right. eauto.
    + injection E as <- <-. apply Z.eqb_eq in E1. cbn. repeat split; auto. right. eauto.
    + destruct (run_to stop p) as [r' q'] eqn:ER. injection E as <- <-.
      apply Z.eqb_neq in E0. apply Z.eqb_neq in E1.
      destruct (IH _ _ eq_refl) as (-> & A & B & C). cbn. intuition auto.
Qed.

Lemma run_to_all p : ~ In 0 p -> run_to 0 p = (p, []).
Proof.
  induction p as [|c p IH]; cbn; intros H; [reflexivity|].
  destruct (Z.eqb_spec c 0); [tauto|]. cbn. rewrite IH by tauto. reflexivity.
Qed.

Lemma run_to_cut stop a b : ~ In 0 a -> ~ In stop a -> run_to stop (a ++ stop :: b) = (a, stop :: b).
Proof.
  induction a as [|c a IH]; cbn; intros H0 H1.
  - rewrite Z.eqb_refl, orb_true_r. reflexivity.
  - destruct (Z.eqb_spec c 0); [tauto|]. destruct (Z.eqb_spec c stop); [tauto|]. cbn.
    rewrite IH by tauto. reflexivity.
Qed.

(* numbers *)
Definition is_digit (c : Z) : Prop := 48 <= c <= 57.
Definition val (acc : Z) (ds : bytes) : Z := fold_left (fun a c => 10 * a + (c - 48)) ds acc.

Lemma numeral_val ds n : numeral ds n <-> Forall is_digit ds /\ n = val 0 ds.
Proof.
  split.
  - induction 1 as [|ds n d H [F E] Hd]; [split; [constructor|reflexivity]|]. split.
    + apply Forall_app; split; [exact F|]. constructor; [|constructor]. red. lia.
    + unfold val in *. rewrite fold_left_app, <- E. cbn. lia.
  - intros [F ->]. induction ds as [|c ds IH] using rev_ind; [constructor|].
    apply Forall_app in F as [F1 F2]. inversion F2; subst. unfold val. rewrite fold_left_app. cbn [fold_left].
    replace [c] with [48 + (c - 48)] by (f_equal; lia). red in H1. constructor; [apply IH, F1|lia].
Qed.

Lemma val_low ds acc : Forall is_digit ds -> 0 <= acc -> acc <= val acc ds.
Proof.
  revert acc; induction ds as [|c ds IH]; intros acc F H; [cbn; lia|]. inversion F; subst. red in H2.
  cbn [val fold_left]. change (acc <= val (10 * acc + (c - 48)) ds).
  eapply Z.le_trans; [|apply IH; [exact H3|lia]]. lia.
Qed.

Lemma index_digits ds acc : Forall is_digit ds -> 0 <= acc <= 655349 ->
  index_of ds acc = if val acc ds <=? 655349 then val acc ds else uint32_max.
Proof.
  revert acc; induction ds as [|c ds IH]; intros acc F H.
  - cbn. destruct (Z.leb_spec acc 655349); [reflexivity|lia].
  - inversion F; subst. assert (D := H2). red in D. cbn [index_of].
    destruct (Z.ltb_spec c 48); [lia|]. destruct (Z.gtb_spec c 57); [lia|]. cbn [orb].
    change (val acc (c :: ds)) with (val (10 * acc + (c - 48)) ds).
    destruct (Z.geb_spec acc 65535).
    + pose proof (val_low ds (10 * acc + (c - 48)) H3 ltac:(lia)).
      destruct (Z.leb_spec (val (10 * acc + (c - 48)) ds) 655349); [lia|reflexivity].
    + rewrite (u32_ok (acc * 10)) by lia. rewrite u32_ok by lia. rewrite IH; [|exact H3|lia].
      replace (acc * 10 + (c - 48)) with (10 * acc + (c - 48)) by lia. reflexivity.
Qed.

Lemma index_other ds acc : ~ Forall is_digit ds -> index_of ds acc = uint32_max.
Proof.
  revert acc; induction ds as [|c ds IH]; intros acc F; [exfalso; apply F; constructor|].
  cbn [index_of]. destruct (Z.ltb_spec c 48); [reflexivity|]. destruct (Z.gtb_spec c 57); [reflexivity|].
  cbn [orb]. destruct (acc >=? 65535); [reflexivity|]. apply IH. intros G. apply F. constructor; [|exact G].
  red. lia.
Qed.

Lemma digits_dec ds : {Forall is_digit ds} + {~ Forall is_digit ds}.
Proof. apply Forall_dec. intros c. unfold is_digit. destruct (Z_le_dec 48 c), (Z_le_dec c 57); (left; lia) || (right; lia). Qed.

(* names *)
Lemma bytes_eqb_eq a b : bytes_eqb a b = true <-> a = b.
Proof.
  revert b; induction a as [|x a IH]; intros [|y b]; cbn; try (split; congruence).
  rewrite andb_true_iff, Z.eqb_eq, IH. split; [intros [-> ->]|intros [= -> ->]]; auto.
Qed.

Lemma builtin_not_numeral name p n : name <> [] -> builtin name p -> ~ numeral name n.
Proof.
  intros NE B. rewrite numeral_val. intros [F _].
  destruct B as [[-> _]|[[-> _]|[[-> _]|[[-> _]|[[-> _]|[-> _]]]]]]; try congruence; inversion F; unfold is_digit in *; lia.
Qed.

Lemma builtin_fun name p q : builtin name p -> builtin name q -> p = q.
Proof.
  unfold builtin. intros [[-> ->]|[[-> ->]|[[-> ->]|[[-> ->]|[[-> ->]|[-> ->]]]]]]
    [[E ->]|[[E ->]|[[E ->]|[[E ->]|[[E ->]|[E ->]]]]]]; try reflexivity; discriminate E.
Qed.

Lemma named_fun name p q : named name p -> named name q -> p = q.
Proof.
  intros [p' B|n N M|B N] H; inversion H; subst.
  - eauto using builtin_fun.
  - exfalso. eapply builtin_not_numeral; eauto.
  - exfalso. eapply H0; eauto.
  - exfalso. eapply builtin_not_numeral; eauto.
  - apply numeral_val in M as [_ ->]. apply numeral_val in H1 as [_ ->]. reflexivity.
  - exfalso. eapply H1; eauto.
  - exfalso. eapply B; eauto.
  - exfalso. eapply N; eauto.
  - reflexivity.
Qed.

Section Format.
  Variables (s : system) (templ : bytes) (args : list bytes).
  Hypothesis HS : sys_ok s.
  Hypothesis HT : ~ In 0 templ.
  Hypothesis HA : Z.of_nat (length args) <= max_args.

  Lemma put_arg_small n : 0 <= n -> exists t, put_arg templ args n = Ok t /\ puts s templ args (Num n) t.
  Proof.
    intros Hn. unfold put_arg. destruct (Z.eqb_spec n 0) as [->|].
    - rewrite run_to_all by exact HT. eexists; split; [reflexivity|constructor].
    - destruct (Z.leb_spec n (Z.of_nat (length args))).
      + destruct (nth_error args (Z.to_nat (n - 1))) eqn:E.
        * eexists; split; [reflexivity|]. apply P_arg; [lia|exact E].
        * apply nth_error_None in E. lia.
      + eexists; split; [reflexivity|]. now apply P_none.
  Qed.

  Lemma put_arg_big : put_arg templ args uint32_max = Ok (str "(no arg)").
  Proof.
    unfold put_arg, uint32_max. cbn [Z.eqb]. unfold max_args in HA.
    destruct (Z.leb_spec 4294967295 (Z.of_nat (length args))); [lia|reflexivity].
  Qed.

  Lemma composite_ok name : exists p t, named name p /\ put_composite s templ args name = Ok t /\ puts s templ args p t.
  Proof.
    unfold put_composite.
    destruct (bytes_eqb name (str "errno")) eqn:E1.
    { apply bytes_eqb_eq in E1. destruct (errno_text s args templ HS) as (t & E & P). exists Errno, t.
      repeat split; auto. apply Nm_builtin. red. tauto. }
    destruct (bytes_eqb name (str "errno:str")) eqn:E2.
    { apply bytes_eqb_eq in E2. exists Errno_str, (strerror s).
      repeat split; auto; [apply Nm_builtin; red; tauto|constructor]. }
    destruct (bytes_eqb name (str "errno:full")) eqn:E3.
    { apply bytes_eqb_eq in E3. destruct (errno_text s args templ HS) as (t & E & P). rewrite E. cbn [obind].
      eexists Errno_full, _. repeat split; [apply Nm_builtin; red; tauto|]. now constructor. }
    destruct HS as (_ & HN & HL & HU & _).
    destruct (bytes_eqb name (str "time")) eqn:E4.
    { apply bytes_eqb_eq in E4. rewrite time_iso by assumption. eexists Time, _.
      repeat split; [apply Nm_builtin; red; tauto|constructor]. }
    destruct (bytes_eqb name (str "time:utc")) eqn:E5.
    { apply bytes_eqb_eq in E5. rewrite time_iso by assumption. eexists Time_utc, _.
      repeat split; [apply Nm_builtin; red; tauto|constructor]. }
    destruct (bytes_eqb name []) eqn:E6.
    { apply bytes_eqb_eq in E6. eexists Empty, _.
      repeat split; [apply Nm_builtin; red; tauto|constructor]. }
    destruct (digits_dec name) as [D|D].
    - rewrite index_digits by (exact D || lia). pose proof (val_low name 0 D ltac:(lia)).
      assert (NM : named name (Num (val 0 name))).
      { apply Nm_num; [intros ->; discriminate|]. now apply numeral_val. }
      destruct (Z.leb_spec (val 0 name) 655349).
      + destruct (put_arg_small (val 0 name)) as (t & E & P); [lia|]. eauto.
      + rewrite put_arg_big. exists (Num (val 0 name)), (str "(no arg)"). repeat split; auto.
        apply P_none. unfold max_args in HA. lia.
    - rewrite index_other by exact D. rewrite put_arg_big. exists Unknown, (str "(no arg)").
      repeat split; [|constructor]. apply Nm_unknown.
      + unfold builtin. intros p B. destruct B as [[-> _]|[[-> _]|[[-> _]|[[-> _]|[[-> _]|[-> _]]]]]]; discriminate.
      + intros n N. apply numeral_val in N as [F _]. contradiction.
  Qed.

  Lemma template_lits r t ps : ~ In 0 r -> ~ In 36 r -> template t ps ->
    template (r ++ t) (map Lit r ++ ps).
  Proof.
    intros H0 H1 H. induction r as [|c r IH]; cbn in *; [exact H|]. constructor; tauto.
  Qed.
  Lemma template_lits_inv r t ps : ~ In 36 r -> template (r ++ t) ps ->
    exists qs, ps = map Lit r ++ qs /\ template t qs.
  Proof.
    revert ps; induction r as [|c r IH]; cbn; intros ps H HP; [eauto|].
    inversion HP; subst; try (exfalso; tauto). destruct (IH ps0) as (qs & -> & G); [tauto|assumption|].
    eauto.
  Qed.

  Lemma composed_lits r ps o : composed s templ args ps o ->
    composed s templ args (map Lit r ++ ps) (r ++ o).
  Proof.
    intros (ts & F & ->). exists (map (fun c => [c]) r ++ ts). split.
    - apply Forall2_app; [|exact F]. induction r; cbn; constructor; auto. constructor.
    - rewrite concat_app. f_equal. induction r; cbn; congruence.
  Qed.
  Lemma composed_cons p t ps o : puts s templ args p t -> composed s templ args ps o ->
    composed s templ args (p :: ps) (t ++ o).
  Proof. intros P (ts & F & ->). exists (t :: ts). split; [now constructor|reflexivity]. Qed.
  Lemma composed_nil : composed s templ args [] [].
  Proof. exists []. split; [constructor|reflexivity]. Qed.

  Lemma name_unique a b x y : ~ In 125 a -> ~ In 125 b -> a ++ 125 :: x = b ++ 125 :: y -> a = b /\ x = y.
  Proof.
    revert b; induction a as [|c a IH]; intros [|d b]; cbn; intros H1 H2 E.
    - now injection E.
    - injection E as E _. exfalso. apply H2. left. congruence.
    - injection E as E _. exfalso. apply H1. left. congruence.
    - injection E as -> E. destruct (IH b) as [-> ->]; auto.
  Qed.

  Definition sem (next : bytes) (r : outcome bytes) : Prop :=
    (exists ps o, r = Ok o /\ template next ps /\ composed s templ args ps o) \/
    (r = Throw /\ forall ps, ~ template next ps).

  (* one placeholder, then the rest *)
  Lemma sem_piece run p t head rest r :
    ~ In 0 run -> ~ In 36 run -> puts s templ args p t ->
    (forall qs, template rest qs -> template (36 :: head ++ rest) (p :: qs)) ->
    (forall qs, template (36 :: head ++ rest) qs -> exists qs', template rest qs') ->
    sem rest r ->
    sem (run ++ 36 :: head ++ rest) (do x <- r ; Ok (run ++ t ++ x)).
  Proof.
    intros H0 H36 P F B [(ps & o & -> & T & C)|[-> N]].
    - left. exists (map Lit run ++ p :: ps), (run ++ t ++ o). repeat split.
      + apply template_lits; auto.
      + apply composed_lits, composed_cons; auto.
    - right. split; [reflexivity|]. intros ps T. apply template_lits_inv in T as (qs & -> & T); [|exact H36].
      apply B in T as (qs' & T). eapply N; eauto.
  Qed.

  Lemma sem_throw run rest : ~ In 36 run -> (forall qs, ~ template (36 :: rest) qs) ->
    sem (run ++ 36 :: rest) Throw.
  Proof.
    intros H N. right. split; [reflexivity|]. intros ps T.
    apply template_lits_inv in T as (qs & -> & T); [|exact H]. eapply N; eauto.
  Qed.

  Lemma loop_sem fuel : forall next, (length next < fuel)%nat -> ~ In 0 next ->
    sem next (formatv_loop fuel s templ args next).
  Proof.
    induction fuel as [|fuel IH]; intros next L H0; [lia|]. cbn [formatv_loop].
    destruct (run_to 36 next) as [run q] eqn:ER.
    apply run_to_spec in ER as (-> & R0 & R36 & Q).
    destruct Q as [->|(c & q' & -> & Q)].
    { cbn [peek]. change (0 =? 0) with true. cbv iota. left. exists (map Lit run ++ []), (run ++ []). rewrite !app_nil_r.
      split; [reflexivity|]. split.
      - rewrite <- (app_nil_r run) at 1. rewrite <- (app_nil_r (map Lit run)). apply template_lits; auto. constructor.
      - rewrite <- (app_nil_r run) at 2. rewrite <- (app_nil_r (map Lit run)). apply composed_lits, composed_nil. }
    rewrite in_app_iff in H0. cbn in H0.
    destruct Q as [->| ->]; [tauto|]. cbn [peek tl]. change (36 =? 0) with false. cbv iota.
    destruct q' as [|d rest].
    { cbn [peek]. change (0 =? 0) with true. cbv iota. cbn [obind].
      apply sem_throw; [exact R36|]. intros qs T. inversion T; subst; tauto. }
    cbn [peek tl].
    destruct (Z.eqb_spec d 0) as [->|D0]; [cbn in H0; tauto|].
    assert (LR : (length rest < fuel)%nat) by (rewrite app_length in L; cbn in L; lia).
    assert (H0R : ~ In 0 rest) by (cbn in H0; tauto).
    destruct (Z.eqb_spec d 36) as [->|D36].
    { cbn [obind snd fst tl]. apply (sem_piece run (Lit 36) [36] [36] rest); auto.
      - constructor.
      - intros qs T. now constructor.
      - cbn. intros qs T. inversion T; subst; [tauto|eauto|exfalso; lia]. }
    destruct ((48 <=? d) && (d <=? 57)) eqn:DD.
    { apply andb_true_iff in DD as [D1 D2]. apply Z.leb_le in D1. apply Z.leb_le in D2.
      destruct (put_arg_small (d - 48)) as (t & -> & P); [lia|]. cbn [obind snd fst tl].
      apply (sem_piece run (Num (d - 48)) t [d] rest); auto.
      - intros qs T. cbn. replace d with (48 + (d - 48)) at 1 by lia. constructor; [lia|exact T].
      - cbn. intros qs T. inversion T; subst; [tauto|tauto|eauto|exfalso; lia]. }
    destruct (Z.eqb_spec d 123) as [->|D123].
    2:{ cbn [obind]. apply sem_throw; [exact R36|]. intros qs T.
        inversion T; subst; try tauto.
        apply andb_false_iff in DD as [E|E]; apply Z.leb_gt in E; lia. }
    destruct (run_to 125 rest) as [name q] eqn:EN.
    apply run_to_spec in EN as (-> & N0 & N125 & Q).
    rewrite in_app_iff in H0R.
    destruct Q as [->|(c & q' & -> & Q)].
    { cbn [peek]. change (0 =? 0) with true. cbv iota. cbn [obind]. apply sem_throw; [exact R36|].
      intros qs T. inversion T; subst; try tauto; try (exfalso; lia).
      match goal with E : _ ++ 125 :: _ = _ |- _ => rewrite app_nil_r in E; apply N125; rewrite <- E end.
      apply in_or_app. right. now left. }
    destruct Q as [->| ->]; [cbn in H0R; tauto|]. cbn [peek]. change (125 =? 0) with false. cbv iota.
    destruct (composite_ok name) as (p & t & NM & -> & P). cbn [obind snd fst tl].
    replace (36 :: 123 :: name ++ 125 :: q') with (36 :: (123 :: name ++ [125]) ++ q')
      by (cbn; rewrite <- app_assoc; reflexivity).
    apply (sem_piece run p t (123 :: name ++ [125]) q'); auto.
    - intros qs T. cbn. rewrite <- app_assoc. cbn. constructor; auto.
    - cbn. rewrite <- app_assoc. cbn. intros qs T. inversion T; subst; try tauto; try (exfalso; lia).
      match goal with E : _ ++ 125 :: _ = _ |- _ => apply name_unique in E as [_ ->]; eauto end.
    - apply IH; [rewrite app_length in LR; cbn in LR; lia|cbn in H0R; tauto].
  Qed.
End Format.

Lemma template_fun t : forall ps qs, template t ps -> template t qs -> ps = qs.
Proof.
  intros ps qs H. revert qs. induction H; intros qs G.
  - inversion G. reflexivity.
  - inversion G; subst; try tauto. f_equal; auto.
  - inversion G; subst; try tauto; try (exfalso; lia). f_equal; auto.
  - inversion G; subst; try tauto; try (exfalso; lia).
    assert (d0 = d) by lia. subst. f_equal; auto.
  - inversion G; subst; try tauto; try (exfalso; lia).
    match goal with E : _ ++ 125 :: _ = _ |- _ => apply name_unique in E as [-> ->]; auto end.
    f_equal; auto. eauto using named_fun.
Qed.

Lemma template_nul t ps : template t ps -> ~ In 0 t.
Proof.
  induction 1; cbn; try rewrite in_app_iff; cbn; intuition (try lia).
Qed.

Lemma composed_fun s templ args ps a b : composed s templ args ps a -> composed s templ args ps b -> a = b.
Proof.
  intros (x & F & ->) (y & G & ->). f_equal. revert y G. induction F; intros z G; inversion G; subst; [reflexivity|].
  f_equal; eauto using puts_fun.
Qed.

Lemma safe_ok t : ~ In 0 t -> safe_c_str t = Ok t.
Proof. intros H. unfold safe_c_str. rewrite run_to_all by exact H. cbn [fst]. now rewrite Z.eqb_refl. Qed.
Lemma safe_nul t : In 0 t -> safe_c_str t = Throw.
Proof.
  intros H. unfold safe_c_str. destruct (run_to 0 t) as [r q] eqn:E. apply run_to_spec in E as (-> & A & _ & _).
  cbn [fst]. destruct q; [rewrite app_nil_r in H; contradiction|].
  rewrite app_length. cbn [length]. destruct (Z.eqb_spec (Z.of_nat (length r)) (Z.of_nat (length r + S (length q)))); [lia|reflexivity].
Qed.

Lemma format_sem print s templ values : sys_ok s -> Z.of_nat (length values) <= max_args ->
  sem s templ (map (insert print) values) templ (string_format print s templ values).
Proof.
  intros HS HA. unfold string_format. destruct (in_dec Z.eq_dec 0 templ) as [I|I].
  - rewrite safe_nul by exact I. right. split; [reflexivity|]. intros ps T. now apply template_nul in T.
  - rewrite safe_ok by exact I. apply loop_sem; auto. now rewrite map_length.
Qed.
