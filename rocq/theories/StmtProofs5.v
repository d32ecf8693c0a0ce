(* C64: the parser of statements always comes to an end. *)
From Verif Require Import Base Text ExprModel ExprSpec ExprProofs ExprFullProofs ExprSoundProofs
  StmtModel StmtSpec StmtProofs1.

(* there is enough fuel, and less than [c] tokens are left *)
Definition good {A} (c : nat) (r : res A) : Prop :=
  match r with Acc _ t => (length t < c)%nat | Fuel => False | _ => True end.
Lemma good_bind {A B} c c' (r : res A) (k : A -> list token -> res B) :
  good c' r -> (forall a t, (length t < c')%nat -> good c (k a t)) -> good c (bind r k).
Proof. destruct r; cbn; auto. Qed.
Lemma good_need {A} c (r : res A) : good c r -> good c (need r).
Proof. destruct r; cbn; auto. Qed.
Lemma good_or {A} c (r s : res A) : good c r -> good c s -> good c (or_else r s).
Proof. destruct r; cbn; auto. Qed.
Lemma good_weaken {A} c c' (r : res A) : good c' r -> (c' <= c)%nat -> good c r.
Proof. destruct r; cbn; auto. lia. Qed.
Lemma good_default {A} (a : A) ts r : good (S (length ts)) r -> good (S (length ts)) (default a ts r).
Proof. destruct r; cbn; auto. Qed.
Lemma good_kw s ts : good (length ts) (kw s ts).
Proof. destruct ts as [|t r]; cbn; auto. destruct (is_kw s t); cbn; auto. Qed.
Lemma good_pu s ts : good (length ts) (pu s ts).
Proof. destruct ts as [|t r]; cbn; auto. destruct (is_punct s t); cbn; auto. Qed.
Lemma good_one {A} f (l : list (bytes * A)) ts :
  (forall s, good (length ts) (f s ts)) -> good (length ts) (one_of f l ts).
Proof.
  intros H. induction l as [|(s, a) l IH]; cbn [one_of]; [exact I|]. apply good_or; [|assumption].
  eapply good_bind; [apply H|]. intros; cbn; assumption.
Qed.
Lemma good_ident ts : good (length ts) (ident ts).
Proof. destruct ts as [|[] r]; cbn; auto. destruct (_ && _); cbn; auto. Qed.
Lemma good_text ts : good (length ts) (text ts).
Proof. destruct ts as [|[] r]; cbn; auto. Qed.
Lemma good_parse ts : good (length ts) (parse ts).
Proof.
  pose proof (parse_total ts). destruct (parse ts) eqn:E; cbn; auto.
  eapply sound_shrinks; [apply parse_sound | eassumption].
Qed.
Lemma good_rvalue ts : good (length ts) (rvalue ts).
Proof. unfold rvalue, expr_and_check. pose proof (good_parse ts). destruct (parse ts); cbn in *; auto. Qed.
Lemma good_ref ts : (length (snd (accept_ref ts)) <= length ts)%nat.
Proof. destruct ts as [|t r]; cbn; auto. destruct (_ || _); cbn; lia. Qed.

Ltac le := first [apply le_n | cbn [length] in *; lia].
(* go through the parts; [x] knows further acceptors *)
Ltac gx x :=
  match goal with
  | |- good _ (Acc _ _) => cbn [good]; lia
  | |- good _ Err => exact I
  | |- good _ Rej => exact I
  | |- good _ (kw _ _) => eapply good_weaken; [apply good_kw | le]
  | |- good _ (pu _ _) => eapply good_weaken; [apply good_pu | le]
  | |- good _ (one_of kw _ _) => eapply good_weaken; [apply good_one; intros; apply good_kw | le]
  | |- good _ (one_of pu _ _) => eapply good_weaken; [apply good_one; intros; apply good_pu | le]
  | |- good _ (ident _) => eapply good_weaken; [apply good_ident | le]
  | |- good _ (text _) => eapply good_weaken; [apply good_text | le]
  | |- good _ (parse _) => eapply good_weaken; [apply good_parse | le]
  | |- good _ (rvalue _) => eapply good_weaken; [apply good_rvalue | le]
  | |- good _ (bind _ _) => eapply good_bind; [solve [gx x] | intros ? ? ?; gx x]
  | |- good _ (need _) => apply good_need; gx x
  | |- good _ (default _ _ _) => eapply good_weaken; [apply good_default; gx x | le]
  | _ => solve [x tt]
  | _ => idtac
  end.
Ltac g := gx ltac:(fun _ => fail).
Ltac gl L := gx ltac:(fun _ => eapply good_weaken; [apply L; lia | le]).
Lemma good_negation ts : good (S (length ts)) (negation ts).
Proof. unfold negation. apply good_default. apply good_or; g. Qed.
Lemma good_condition ts : good (length ts) (condition ts).
Proof. unfold condition. g. Qed.
Lemma good_names n : forall seen ts, (length ts < n)%nat -> good (S (length ts)) (names n seen ts).
Proof.
  induction n as [|n IH]; intros seen ts L; [lia|]. cbn [names].
  pose proof (good_ident ts) as G. destruct (ident ts) as [x r| | |]; cbn in G; try contradiction; g.
  destruct (existsb _ _); g. pose proof (good_pu (str ",") r) as G'.
  destruct (pu (str ",") r); cbn in G'; gl IH.
Qed.
Lemma good_binding n p q ts : (length ts < n)%nat -> good (length ts) (binding n p q ts).
Proof.
  intros L. unfold binding. gl good_names.
  match goal with |- good _ (match ?l with [] => _ | _ => _ end) => destruct l; g end.
Qed.
Lemma good_declarator n ts : (length ts < n)%nat -> good (length ts) (declarator n ts).
Proof.
  intros L. unfold declarator. repeat apply good_or; [g | apply good_binding; assumption..].
Qed.
Lemma good_initializer s ts : good (length ts) (initializer s ts).
Proof. unfold initializer. g. Qed.
Lemma good_declarations n : forall im ts, (length ts < n)%nat -> good (length ts) (declarations n im ts).
Proof.
  induction n as [|n IH]; intros im ts L; [lia|]. cbn [declarations].
  eapply good_bind; [apply good_need, good_declarator; assumption|]. intros d t Q.
  eapply (good_bind _ (S (length t))).
  { destruct im; [apply good_need|apply good_default]; (eapply good_weaken; [apply good_initializer | le]). }
  intros e t' Q'. pose proof (good_pu (str ",") t') as G. destruct (pu (str ",") t'); cbn in G; gl IH.
Qed.
Lemma good_references n : forall ts, (length ts < n)%nat -> good (length ts) (references n ts).
Proof.
  induction n as [|n IH]; intros ts L; [lia|]. cbn [references].
  gx ltac:(fun _ => eapply good_weaken; [apply good_initializer | le]).
  match goal with |- good _ (match pu _ ?t with _ => _ end) => pose proof (good_pu (str ",") t) as G; destruct (pu (str ",") t) end;
    cbn in G; gl IH.
Qed.
Lemma good_parameters n : forall seen ts, (length ts < n)%nat -> good (S (length ts)) (parameters n seen ts).
Proof.
  induction n as [|n IH]; intros seen ts L; [lia|]. cbn [parameters].
  assert (X : good (S (length ts)) (match ident ts with
          | Acc x r =>
              if existsb (beq x) seen then Err
              else
                match pu (str ",") r with
                | Acc _ r => get l, r <- parameters n (seen ++ [x]) r; Acc (x :: l) r
                | _ => Acc [x] r
                end
          | Rej => Acc [] ts
          | Err => Err
          | Fuel => Fuel
          end)).
  { pose proof (good_ident ts) as G. destruct (ident ts) as [x r| | |]; cbn in G; try contradiction; g.
    destruct (existsb _ _); g. pose proof (good_pu (str ",") r) as G'.
    destruct (pu (str ",") r); cbn in G'; gl IH. }
  pose proof (good_pu (str "...") ts) as G. destruct (pu (str "...") ts); cbn in G; try assumption. g.
Qed.
Lemma good_definition n k im ts : (length ts < n)%nat -> good (length ts) (definition n k im ts).
Proof. intros L. unfold definition. gl good_declarations. Qed.
Lemma good_reference n ts : (length ts < n)%nat -> good (length ts) (reference_definition n ts).
Proof. intros L. unfold reference_definition. gl good_references. Qed.
Lemma good_null ts : good (length ts) (null_statement ts).
Proof. unfold null_statement. g. Qed.
Lemma good_expression ts : good (length ts) (expression_statement ts).
Proof. unfold expression_statement. g. Qed.
Lemma good_initializers n ts : (length ts < n)%nat -> good (length ts) (for_initializer n ts).
Proof.
  intros L. unfold for_initializer.
  repeat apply good_or; auto using good_definition, good_reference, good_null, good_expression.
Qed.

Section Good.
Variable m : nat.
Variable st : Z -> list token -> res stmt.
Variable bl : Z -> list token -> res (list stmt).
Hypothesis st_good : forall sc ts, (length ts < m)%nat -> good (length ts) (st sc ts).
Hypothesis bl_good : forall sc ts, (length ts < m)%nat -> good (length ts) (bl sc ts).

Lemma good_statements n : forall sc ts, (length ts < m)%nat -> (length ts < n)%nat ->
  good (S (length ts)) (statements st n sc ts).
Proof.
  induction n as [|n IH]; intros sc ts L L'; [lia|]. cbn [statements].
  pose proof (st_good sc ts L) as G. destruct (st sc ts) as [s t| | |]; cbn in G; try contradiction; gl IH.
Qed.
Ltac bl1 := eapply good_weaken; [apply bl_good; lia | le].
Ltac neg1 := eapply good_weaken; [apply good_negation | le].
Ltac con1 := eapply good_weaken; [apply good_condition | le].
Ltac sts1 := eapply good_weaken; [apply good_statements; lia | le].
Ltac t := gx ltac:(fun _ => first [bl1 | neg1 | con1 | sts1]).
Ltac tl L := gx ltac:(fun _ => first [bl1 | neg1 | con1 | sts1 | eapply good_weaken; [apply L; lia | le]]).
Lemma good_label k ts : good (S (length ts)) (one_label k ts).
Proof. destruct k; cbn [one_label]; t. Qed.
Lemma good_clauses n : forall sc hd ts, (length ts < m)%nat -> (length ts < n)%nat ->
  good (S (length ts)) (clauses st n sc hd ts).
Proof.
  induction n as [|n IH]; intros sc hd ts L L'; [lia|]. cbn [clauses].
  pose proof (good_one kw [(str "default", LDefault); (str "case", LCase []); (str "each", LEach false false [] [])] ts
    (fun s => good_kw s ts)) as G.
  destruct (one_of kw _ ts) as [k r| | |]; cbn in G; t. destruct (_ && _); [t|].
  eapply good_bind; [apply good_label|]. intros. tl IH.
Qed.
Variable ts : list token.
Variable n : nat.
Hypothesis L : (length ts < S m)%nat.
Hypothesis L' : (length ts < n)%nat.
Lemma good_function : good (length ts) (function_definition st n ts).
Proof.
  assert (X : good (length ts) (get u, ts <- kw (str "func") ts;
      get x, ts <- need (ident ts);
      get u, ts <- need (pu (str "(") ts);
      get ps, ts <- parameters n [] ts;
      get u, ts <- need (pu (str ")") ts);
      get u, ts <- need (pu (str "{") ts);
      get b, ts <- statements st n scope_plain ts;
      get u, ts <- need (pu (str "}") ts);
      Acc (SFunc x ps (b ++ [SReturn true []])) ts)).
  { tl good_parameters. }
  unfold function_definition. destruct ts as [|[] r]; assumption || exact I.
Qed.
Lemma good_defer : good (length ts) (defer_statement ts).
Proof. unfold defer_statement. t. Qed.
Lemma good_complete sc r : (length r < m)%nat -> good (length r) (if_complete bl sc r).
Proof. intros. unfold if_complete. t. Qed.
Lemma good_if sc : good (length ts) (if_statement bl sc ts).
Proof. unfold if_statement. t. Qed.
Lemma good_switch sc : good (length ts) (switch_statement st n sc ts).
Proof. unfold switch_statement. tl good_clauses. Qed.
Lemma good_do sc : good (length ts) (do_statement bl sc ts).
Proof.
  unfold do_statement.
  gx ltac:(fun _ => first [bl1 | neg1 | con1 |
    match goal with |- good _ (or_else (if_complete _ _ ?r) _) => apply (good_weaken _ (length r)); [|le] end;
    apply good_or; [apply good_complete; lia | t]]).
Qed.
Lemma good_while sc : good (length ts) (while_statement bl sc ts).
Proof. unfold while_statement. tl good_complete. Qed.
Lemma good_for sc : good (length ts) (for_statement bl n sc ts).
Proof.
  unfold for_statement. t. apply good_or.
  - unfold for_range. tl good_complete.
  - unfold for_triplet. eapply good_bind; [apply good_initializers; lia|]. intros. tl good_complete.
Qed.
Lemma good_break sc : good (length ts) (break_statement sc ts).
Proof. unfold break_statement. t. destruct (_ =? 0); t. Qed.
Lemma good_continue sc : good (length ts) (continue_statement sc ts).
Proof. unfold continue_statement. t. destruct (_ =? 0); t. Qed.
Lemma good_throw : good (length ts) (throw_statement ts).
Proof. unfold throw_statement. t. Qed.
Lemma good_return : good (length ts) (return_statement ts).
Proof.
  unfold return_statement. t.
  match goal with |- good _ (let '(_, _) := accept_ref ?r in _) =>
    pose proof (good_ref r) as R; destruct (accept_ref r) as [b q]; cbn in R end.
  eapply (good_bind _ (S (length q))); [destruct b; t|]. intros. t.
Qed.
Lemma good_assert : good (length ts) (assert_statement ts).
Proof. unfold assert_statement. t. Qed.
Lemma good_try sc : good (length ts) (try_statement bl sc ts).
Proof. unfold try_statement. t. Qed.
Lemma good_block sc : good (length ts) (statement_block st n sc ts).
Proof. unfold statement_block. t. Qed.
Lemma good_nondeclarative sc : good (length ts) (nondeclarative st bl n sc ts).
Proof.
  unfold nondeclarative. repeat apply good_or;
    auto using good_if, good_switch, good_do, good_while, good_for, good_break, good_continue,
      good_throw, good_return, good_assert, good_try, good_block, good_expression.
Qed.
Lemma good_any sc : good (length ts) (any_statement st bl n sc ts).
Proof.
  unfold any_statement. do 6 (apply good_or;
    [solve [auto using good_definition, good_reference, good_function, good_defer, good_null]|]).
  apply good_nondeclarative.
Qed.
End Good.

Lemma good_stmt_at n : forall d sc ts, (length ts < n)%nat -> good (length ts) (stmt_at n d sc ts).
Proof.
  induction n as [|n IH]; intros d sc ts L; [lia|]. cbn [stmt_at].
  assert (B : forall sc ts, (length ts < n)%nat ->
    good (length ts) (get s, t <- stmt_at n false sc ts; Acc (blockify s) t)).
  { intros sc' ts' L'. eapply good_bind; [apply IH; assumption|]. intros; cbn; assumption. }
  destruct d; [eapply good_any | eapply good_nondeclarative]; try exact (S n); try eassumption; intros; auto.
Qed.
Lemma reload_total ts : reload ts <> Fuel.
Proof.
  unfold reload.
  assert (G : good (S (length ts)) (statements (stmt_at (S (S (length ts))) true) (S (S (length ts))) scope_plain ts)).
  { apply (good_statements (S (S (length ts))) _ (fun _ _ => Rej)); try lia; try (intros; exact I).
    intros. apply good_stmt_at. assumption. }
  destruct (statements _ _ _ _) as [l [|]| | |]; try discriminate. contradiction.
Qed.
