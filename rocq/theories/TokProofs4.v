(* Tokenizer: texts are read back; comments. *)
From Verif Require Import Base Monad Text UtfModel UtfSpec UtfProofs CsvModel TokModel TokSpec TokProofs1 TokProofs2 TokProofs3.
Opaque punctuators keywords documented_punctuators documented_keywords.

Definition plain (c : Z) : Prop := 0 < c < 128 /\ c <> 10.
Lemma plain_ascii c : plain c -> ascii c. Proof. unfold plain, ascii. lia. Qed.
Lemma plain_b w : forallb (fun c => (0 <? c) && (c <? 128) && negb (c =? 10)) w = true -> Forall plain w.
Proof.
  intros H. rewrite forallb_forall in H. apply Forall_forall. intros c I. apply H in I.
  apply andb_prop in I as [I Z]. apply andb_prop in I as [X Y].
  apply Bool.negb_true_iff, Z.eqb_neq in Z. unfold plain. lia.
Qed.
Lemma ascii_wf s : Forall ascii s -> utf8_wf s.
Proof.
  intros H. exists s. split.
  - eapply Forall_impl; [|exact H]. intros c A. unfold ascii, scalar in *. lia.
  - induction H as [|c s A _ IH]; [reflexivity|]. cbn [map concat].
    rewrite rfc_ascii; [cbn; congruence | unfold ascii, scalar in *; lia | unfold ascii in A; lia].
Qed.

Section Conv.
Variable conv : bool -> bytes -> option token.

Lemma run_plain (P : Z -> Prop) w : (forall c, P c -> plain c) -> run P w -> Forall plain w.
Proof.
  intros H R. eapply Forall_impl; [|exact R]. intros c [-> | X]; [unfold plain; lia | auto].
Qed.
Lemma digit_plain c : digit c -> plain c. Proof. unfold digit, plain. lia. Qed.
Lemma xdigit_plain c : xdigit c -> plain c. Proof. unfold plain. unb. lia. Qed.
Lemma sign_plain w : optional_sign w -> Forall plain w.
Proof. intros [-> | [-> | ->]]; repeat constructor; unfold plain; lia. Qed.
Lemma fraction_plain (P : Z -> Prop) hp w : (forall c, P c -> plain c) -> fraction P hp w -> Forall plain w.
Proof.
  intros H [[-> _] | (d & -> & R & _)]; [constructor|]. constructor; [unfold plain; lia | eapply run_plain; eauto].
Qed.
Lemma exponent_plain a b w : plain a -> plain b -> exponent a b w -> Forall plain w.
Proof.
  intros A B [-> | (c & sg & d & -> & C & S & R)]; [constructor|].
  constructor; [destruct C; subst; assumption|]. apply Forall_app. split; [apply sign_plain, S|].
  eapply run_plain; [apply digit_plain | exact R].
Qed.
Lemma numeral_plain hp w : numeral hp w -> Forall plain w.
Proof.
  intros [c i hp' f e C I F E | m i hp' f e M I F E].
  - constructor; [apply digit_plain, C|]. repeat (apply Forall_app; split).
    + eapply run_plain; [apply digit_plain | exact I].
    + eapply fraction_plain; [apply digit_plain | exact F].
    + eapply exponent_plain; [| | exact E]; unfold plain; lia.
  - constructor; [unfold plain; lia|]. constructor; [unfold plain; lia|]. repeat (apply Forall_app; split).
    + eapply run_plain; [apply xdigit_plain | exact I].
    + eapply fraction_plain; [apply xdigit_plain | exact F].
    + eapply exponent_plain; [| | exact E]; unfold plain; lia.
Qed.
Lemma name_plain w : name w -> Forall plain w.
Proof.
  intros H. destruct (name_split w H) as (_ & _ & _ & _ & A). eapply Forall_impl; [|exact A].
  intros c X. unfold plain. unb. lia.
Qed.

(* what a token looks like at its beginning *)
Definition first_ok (w : bytes) : Prop :=
  match w with
  | [] => False
  | c :: w' => ~ space c /\ plain c
    /\ (c = 47 -> match w' with d :: _ => d <> 47 /\ d <> 42 | [] => True end)
    /\ (c = 35 -> w' = [])
    /\ (In c [60; 124; 61; 62] -> (length w <= 4)%nat)
  end.

Lemma plain_first w : Forall plain w -> first_ok w \/ w = [] ->
  forall sg, sg = [] \/ sg = [43] \/ sg = [45] -> w <> [] -> first_ok (sg ++ w).
Proof.
  intros P F sg S N. destruct F as [F | F]; [|congruence].
  destruct S as [-> | [-> | ->]]; [exact F | |]; cbn; unfold space, plain; repeat split; try lia.
Qed.

Lemma spelled_shape last t w : spelled conv last t w -> Forall plain w /\ first_ok w.
Proof.
  intros [k w' H | p w' H | w' Hn Hk Hs | w' v Hp Hd | w' Hp Hd | sg hp w' t' Hsg L Hn C | neg sg w' Hsg L W | neg sg w' Hsg L W].
  - destruct (keyword_name k w' H) as [Hn _]. split; [apply name_plain, Hn|].
    destruct Hn as (c & v & -> & S & _). cbn. unfold plain. unb. repeat split; lia.
  - pose proof (punct_shape p w' H) as K. unfold punct_ok in K. repeat apply andb_prop in K as [K ?].
    assert (A : Forall plain w').
    { apply Forall_forall. intros x Hx. rewrite forallb_forall in H1. apply H1 in Hx.
      apply andb_prop in Hx as [Hx Z]. apply andb_prop in Hx as [X Y]. unfold plain.
      apply Bool.negb_true_iff, Z.eqb_neq in Z. lia. }
    split; [exact A|]. destruct w' as [|c v]; [discriminate|]. cbn [first_ok].
    inversion A as [|? ? A1 A2]; subst. repeat split; auto.
    + intros S. cbn [forallb] in H4. apply andb_prop in H4 as [H4 _].
      assert (spacing_b c = true); [|rewrite H5 in H4; discriminate].
      apply spacing_b_iff. unfold plain in A1. unfold spacing. unb. lia.
    + unfold plain in *; lia.
    + unfold plain in *; lia.
    + unfold plain in *; lia.
    + intros ->. destruct v as [|d v]; [exact I|]. change (47 =? 47) with true in H2. cbn [negb orb] in H2.
      apply Bool.negb_true_iff, Bool.orb_false_iff in H2 as [X Y]. lia.
    + intros ->. destruct v as [|d v]; [reflexivity | discriminate].
    + intros _. apply Nat.leb_le. assumption.
  - split; [apply name_plain, Hn|]. destruct Hn as (c & v & -> & S & _). cbn. unfold plain. unb. repeat split; lia.
  - split; [|cbn; unfold space, plain; repeat split; lia].
    constructor; [unfold plain; lia|]. apply Forall_app. split; [exact Hp|]. repeat constructor; lia.
  - split; [|cbn; unfold space, plain; repeat split; lia].
    constructor; [unfold plain; lia|]. apply Forall_app. split; [exact Hp|]. repeat constructor; lia.
  - pose proof (numeral_plain hp w' Hn) as P. split; [apply Forall_app; split; [apply sign_plain, Hsg | exact P]|].
    assert (X : first_ok w' /\ w' <> []).
    { destruct Hn; (split; [|discriminate]); cbn; unfold plain; unb; repeat split; lia. }
    destruct X. apply plain_first; auto.
  - assert (S : sg = [] \/ sg = [43] \/ sg = [45]) by (destruct neg; cbn in Hsg; tauto).
    split.
    + apply Forall_app. split; [apply sign_plain, S|].
      destruct W as [-> | ->]; apply plain_b; reflexivity.
    + apply plain_first; auto; destruct W as [-> | ->]; try discriminate.
      all: try (apply plain_b; reflexivity).
      all: left; cbn; unfold space, plain; repeat split; lia.
  - assert (S : sg = [] \/ sg = [43] \/ sg = [45]) by (destruct neg; cbn in Hsg; tauto).
    split.
    + apply Forall_app. split; [apply sign_plain, S|].
      destruct W as [-> | ->]; apply plain_b; reflexivity.
    + apply plain_first; auto; destruct W as [-> | ->]; try discriminate.
      all: try (apply plain_b; reflexivity).
      all: left; cbn; unfold space, plain; repeat split; lia.
Qed.

Lemma spacing_plain c : spacing c -> plain c. Proof. unfold spacing, plain. lia. Qed.
Lemma line_plain last ts s : line_of conv last ts s -> Forall plain s.
Proof.
  induction 1 as [last | last ts c s S H IH | last w C | last ts w s C N H IH | last t w H | last t w c ts s H S L IH].
  - constructor.
  - constructor; [apply spacing_plain, S | exact IH].
  - apply Forall_app. split; [apply plain_b; reflexivity | exact C].
  - repeat (apply Forall_app; split); auto; apply plain_b; reflexivity.
  - apply (spelled_shape _ _ _ H).
  - apply Forall_app. split; [apply (spelled_shape _ _ _ H)|]. constructor; [apply spacing_plain, S | exact IH].
Qed.
Lemma plain_list_wf s : Forall plain s -> utf8_wf s.
Proof. intros H. apply ascii_wf. eapply Forall_impl; [|exact H]. apply plain_ascii. Qed.

(* one step of the loop *)
Lemma step_token fuel acc w r t : first_ok w -> utf8_wf (w ++ r) ->
  (length w = 1%nat -> w = [47] -> peek r 0 <> 47 /\ peek r 0 <> 42) ->
  accept_any conv (hd_error acc) (w ++ r) = Ok (Some (t, r)) ->
  (length (w ++ r) <= S fuel)%nat ->
  lex_line conv (S fuel) (mk_lexer acc false) (w ++ r) = lex_line conv fuel (mk_lexer (t :: acc) false) r.
Proof.
  intros F W SL A L. pose proof (any_cut _ _ _ _ _ A) as C.
  destruct (consume_wf _ _ W C) as [E _].
  destruct w as [|c w]; [contradiction|]. destruct F as (F1 & F2 & F3 & F4 & F5).
  change ((c :: w) ++ r) with (c :: w ++ r) in *.
  cbn [lex_line bcomm toks].
  rewrite is_space. destruct (space_b c) eqn:SP; [apply space_b_iff in SP; contradiction|].
  assert (NC : c = 47 -> peek (c :: w ++ r) 1 <> 47 /\ peek (c :: w ++ r) 1 <> 42).
  { intros ->. destruct w as [|d w]; [apply SL; reflexivity|]. cbn. apply (F3 eq_refl). }
  destruct (Z.eqb_spec c 47) as [X|X]; cbn [andb].
  - destruct (NC X) as [N1 N2]. apply Z.eqb_neq in N1, N2. rewrite N1, N2. rewrite A. cbn [lift]. rewrite E. reflexivity.
  - rewrite A. cbn [lift]. rewrite E. reflexivity.
Qed.

Lemma spacing_peek c r : spacing c -> peek (c :: r) 0 <> 47 /\ peek (c :: r) 0 <> 42.
Proof. unfold spacing. cbn. lia. Qed.

Lemma find_char_none c : forall a b, ~ In c a -> find_char c (a ++ c :: b) = Some (length a).
Proof.
  induction a as [|x a IH]; intros b N; cbn.
  - rewrite Z.eqb_refl. reflexivity.
  - destruct (Z.eqb_spec x c) as [->|]; [exfalso; apply N; left; reflexivity|].
    rewrite IH by (intros H; apply N; right; exact H). reflexivity.
Qed.

Lemma step_consume fuel x s n r y : (exists c s', s = c :: s') -> consume n s = Ok r ->
  lex_line conv (S fuel) x s = lift (consume n s) (lex_line conv fuel y) ->
  lex_line conv (S fuel) x s = lex_line conv fuel y r.
Proof. intros _ E H. rewrite H, E. reflexivity. Qed.

Lemma close_comment fuel acc a r : ~ In 42 a -> utf8_wf (a ++ 42 :: 47 :: r) ->
  lex_line conv (S fuel) (mk_lexer acc true) (a ++ 42 :: 47 :: r) = lex_line conv fuel (mk_lexer acc false) r.
Proof.
  intros N W. pose proof (find_char_none 42 a (47 :: r) N) as F.
  assert (P : peek (a ++ 42 :: 47 :: r) (length a + 1) = 47) by (rewrite peek_app; reflexivity).
  destruct (consume_wf_n (length a + 2) _ r W) as [Ec _].
  { exists (a ++ [42]), 47. split; [rewrite <- app_assoc; reflexivity | unfold ascii; lia]. }
  { rewrite app_length. cbn. lia. }
  destruct (a ++ 42 :: 47 :: r) as [|c s] eqn:Es; [destruct a; discriminate|].
  cbn [lex_line bcomm toks]. rewrite F, P. change (47 =? 47) with true. cbv iota. rewrite Ec. reflexivity.
Qed.

Lemma keep_comment fuel acc s : (forall k, find_char 42 s = Some k -> peek s (k + 1) <> 47) -> (length s <= fuel)%nat ->
  lex_line conv fuel (mk_lexer acc true) s = Lexed (mk_lexer acc true).
Proof.
  intros H L. destruct s as [|c s]; [destruct fuel; reflexivity|]. destruct fuel as [|fuel]; [cbn in L; lia|].
  cbn [lex_line bcomm toks].
  destruct (find_char 42 (c :: s)) as [k|] eqn:F; [|reflexivity]. specialize (H k eq_refl).
  destruct (Z.eqb_spec (peek (c :: s) (k + 1)) 47); [contradiction | reflexivity].
Qed.

Lemma open_comment fuel acc r : utf8_wf (47 :: 42 :: r) ->
  lex_line conv (S fuel) (mk_lexer acc false) (47 :: 42 :: r) = lex_line conv fuel (mk_lexer acc true) r.
Proof.
  intros W. destruct (consume_wf_n 2 (47 :: 42 :: r) r W) as [E _].
  - exists [47], 42. split; [reflexivity | unfold ascii; lia].
  - reflexivity.
  - cbn [lex_line bcomm toks]. rewrite E. reflexivity.
Qed.

Lemma skip_space fuel acc c r : spacing c -> utf8_wf (c :: r) ->
  lex_line conv (S fuel) (mk_lexer acc false) (c :: r) = lex_line conv fuel (mk_lexer acc false) r.
Proof.
  intros S W. destruct (consume_wf_n 1 (c :: r) r W) as [E _].
  - exists [], c. split; [reflexivity | unfold ascii, spacing in *; lia].
  - reflexivity.
  - cbn [lex_line bcomm toks]. rewrite is_space, (proj2 (space_b_iff c)) by (unfold space, spacing in *; lia).
    rewrite E. reflexivity.
Qed.

(* more fuel gives the same result *)
Lemma line_read last ts s : line_of conv last ts s -> forall fuel acc, (length s <= fuel)%nat ->
  hd_error acc = last ->
  lex_line conv fuel (mk_lexer acc false) s = Lexed (mk_lexer (rev ts ++ acc) false).
Proof.
  induction 1 as [last | last ts c s S H IH | last w C | last ts w s C N H IH | last t w H | last t w c ts s H S L IH];
    intros fuel acc Lf Hl.
  - destruct fuel; reflexivity.
  - destruct fuel as [|fuel]; [cbn in Lf; lia|]. cbn in Lf.
    rewrite skip_space; [apply IH; [lia | exact Hl] | exact S|].
    apply plain_list_wf. constructor; [apply spacing_plain, S | eapply line_plain, H].
  - destruct fuel as [|fuel]; [cbn in Lf; lia|]. reflexivity.
  - destruct fuel as [|[|fuel]]; try (cbn in Lf; lia).
    assert (P : Forall plain (str "/*" ++ w ++ str "*/" ++ s)).
    { eapply line_plain. apply line_block_comment; [exact C | exact N | exact H]. }
    change (str "/*" ++ w ++ str "*/" ++ s) with (47 :: 42 :: w ++ 42 :: 47 :: s) in *.
    rewrite open_comment by (apply plain_list_wf, P).
    rewrite close_comment; [|exact N | apply plain_list_wf; inversion P as [|? ? ? P1]; inversion P1; assumption].
    apply IH; [|exact Hl]. cbn in Lf. rewrite app_length in Lf. cbn in Lf. lia.
  - destruct (spelled_shape _ _ _ H) as [P F].
    destruct fuel as [|fuel]; [destruct w; [contradiction | cbn in Lf; lia]|].
    rewrite <- (app_nil_r w) in Lf |- *.
    rewrite (step_token fuel acc w [] t); auto.
    + destruct fuel; reflexivity.
    + rewrite app_nil_r. apply plain_list_wf, P.
    + intros _ _. cbn. lia.
    + rewrite Hl. apply token_read; [exact H | left; reflexivity].
  - destruct (spelled_shape _ _ _ H) as [P F].
    destruct fuel as [|fuel]; [destruct w; [contradiction | cbn in Lf; lia]|].
    assert (Pall : Forall plain (c :: s)) by (constructor; [apply spacing_plain, S | eapply line_plain, L]).
    rewrite (step_token fuel acc w (c :: s) t); auto.
    + rewrite app_length in Lf. cbn in Lf.
      assert (0 < length w)%nat by (destruct w; [contradiction | cbn; lia]).
      destruct fuel as [|fuel]; [lia|].
      rewrite skip_space; [|exact S | apply plain_list_wf, Pall].
      rewrite (IH fuel (t :: acc)); [|lia | reflexivity]. cbn [rev]. rewrite <- app_assoc. reflexivity.
    + apply plain_list_wf. apply Forall_app. auto.
    + intros _ _. apply spacing_peek, S.
    + rewrite Hl. apply token_read; [exact H | right; eauto].
Qed.

(* ---------- what precedes the loop ---------- *)
Lemma starts_with_nth m : forall s k, starts_with m s = true -> (k < length m)%nat -> peek s k = nth k m 0.
Proof.
  intros s k H L. apply starts_with_iff in H as [r ->]. unfold peek. rewrite app_nth1 by exact L. reflexivity.
Qed.

Lemma marker_first m s : In m markers -> starts_with m s = true ->
  exists c, In c [60; 124; 61; 62] /\ forall k, (k < 7)%nat -> peek s k = c.
Proof.
  intros I H.
  assert (X : exists c, In c [60; 124; 61; 62] /\ m = repeat c 7).
  { cbn in I. destruct I as [<- | [<- | [<- | [<- | []]]]];
      [exists 60 | exists 124 | exists 61 | exists 62]; cbn; tauto. }
  destruct X as (c & C & ->). exists c. split; [exact C|]. intros k Hk.
  rewrite (starts_with_nth _ _ k H) by (rewrite repeat_length; exact Hk).
  do 7 (destruct k as [|k]; [reflexivity|]). lia.
Qed.

Lemma line_no_marker last ts s : line_of conv last ts s -> existsb (fun m => starts_with m s) markers = false.
Proof.
  intros H. apply Bool.not_true_is_false. intros E. apply existsb_exists in E as (m & I & E).
  destruct (marker_first m s I E) as (x & X & K).
  pose proof (K 0%nat ltac:(lia)) as K0. pose proof (K 4%nat ltac:(lia)) as K4.
  assert (TK : forall t w r, spelled conv last t w -> s = w ++ r -> ended r -> False).
  { intros t w r Sp -> En. destruct (spelled_shape _ _ _ Sp) as [P F].
    destruct w as [|c w]; [contradiction|]. destruct F as (_ & _ & _ & _ & F5). cbn in K0. subst c.
    specialize (F5 X). pose proof (K (length (x :: w)) ltac:(lia)) as Ke.
    replace (length (x :: w)) with (length (x :: w) + 0)%nat in Ke by lia. rewrite peek_app in Ke.
    assert (NB : x <> 0 /\ ~ spacing x) by (unfold spacing; cbn in X; lia).
    destruct En as [-> | (c & r' & -> & S)]; cbn in Ke; [lia | subst c; tauto]. }
  destruct H as [last | last ts c s S H | last w C | last ts w s C N H | last t w H | last t w c ts s H S L].
  - cbn in K0. subst x. cbn in X. lia.
  - cbn in K0. subst x. unfold spacing in S. cbn in X. lia.
  - cbn in K0. subst x. cbn in X. lia.
  - cbn in K0. subst x. cbn in X. lia.
  - apply (TK t w []); [exact H | symmetry; apply app_nil_r | left; reflexivity].
  - apply (TK t w (c :: s)); [exact H | reflexivity | right; eauto].
Qed.

Lemma line_starts last ts s first : line_of conv last ts s -> start_line first s = Some s.
Proof.
  intros H. pose proof (line_plain _ _ _ H) as P. unfold start_line.
  assert (B : starts_with [239; 187; 191] s = false).
  { destruct s as [|c s]; [reflexivity|]. inversion P; subst. cbn [starts_with]. destruct (Z.eqb_spec 239 c); [unfold plain in *; lia | reflexivity]. }
  rewrite B. rewrite Bool.andb_false_r.
  assert (S : starts_with (str "#!") s = false).
  { apply Bool.not_true_is_false. intros E.
    pose proof (starts_with_nth _ _ 0%nat E ltac:(cbn; lia)) as K0.
    pose proof (starts_with_nth _ _ 1%nat E ltac:(cbn; lia)) as K1. cbn [str nth] in K0, K1.
    change (peek s 0 = 35) in K0. change (peek s 1 = 33) in K1.
    assert (TK : forall t w r, spelled conv last t w -> s = w ++ r -> ended r -> False).
    { intros t w r Sp -> En. destruct (spelled_shape _ _ _ Sp) as [_ F].
      destruct w as [|c w]; [contradiction|]. destruct F as (_ & _ & _ & F4 & _). cbn in K0. subst c.
      rewrite (F4 eq_refl) in K1. cbn in K1.
      destruct En as [-> | (c & r' & -> & S)]; cbn in K1; [lia | unfold spacing in S; lia]. }
    destruct H as [last | last ts c s S H | last w C | last ts w s C N H | last t w H | last t w c ts s H S L].
    - cbn in K0. lia.
    - cbn in K0. unfold spacing in S. lia.
    - cbn in K0. lia.
    - cbn in K0. lia.
    - apply (TK t w []); [exact H | symmetry; apply app_nil_r | left; reflexivity].
    - apply (TK t w (c :: s)); [exact H | reflexivity | right; eauto]. }
  cbv zeta. rewrite S, Bool.andb_false_r. reflexivity.
Qed.

Lemma line_checked last ts s : line_of conv last ts s -> check_line s = true.
Proof.
  intros H. pose proof (line_plain _ _ _ H) as P. unfold check_line.
  rewrite (utf8_validate_complete s (plain_list_wf s P)), (line_no_marker _ _ _ H).
  assert (N : has_nul s = false).
  { apply Bool.not_true_is_false. intros E. apply existsb_exists in E as (c & I & E). apply Z.eqb_eq in E. subst c.
    rewrite Forall_forall in P. apply P in I. unfold plain in I. lia. }
  rewrite N. reflexivity.
Qed.

Lemma lines_plain : forall s l t, Forall plain s -> lines l (s ++ 10 :: t) = (l ++ s) :: lines [] t.
Proof.
  induction s as [|c s IH]; intros l t P.
  - cbn. rewrite app_nil_r. reflexivity.
  - inversion P as [|? ? P1 P2]; subst. cbn [app lines]. destruct (Z.eqb_spec c lf) as [->|]; [unfold plain, lf in P1; lia|].
    rewrite IH by exact P2. rewrite <- app_assoc. reflexivity.
Qed.
Lemma lines_plain_end : forall s l, Forall plain s -> lines l s = match l ++ s with [] => [] | x => [x] end.
Proof.
  induction s as [|c s IH]; intros l P.
  - cbn. rewrite app_nil_r. destruct l; reflexivity.
  - inversion P as [|? ? P1 P2]; subst. cbn [lines]. destruct (Z.eqb_spec c lf) as [->|]; [unfold plain, lf in P1; lia|].
    rewrite IH by exact P2. rewrite <- app_assoc. reflexivity.
Qed.

Lemma last_of_acc last ts acc : hd_error acc = last -> hd_error (rev ts ++ acc) = last_of last ts.
Proof. intros H. unfold last_of. destruct (rev ts); [exact H | reflexivity]. Qed.

Lemma text_read last ts s : text_of conv last ts s -> forall first acc, hd_error acc = last ->
  lex_lines conv first (mk_lexer acc false) (lines [] s) = Lexed (mk_lexer (rev ts ++ acc) false).
Proof.
  induction 1 as [last ts s H | last ts s ts' s' H H' IH]; intros first acc Hl.
  - rewrite lines_plain_end by (eapply line_plain, H). cbn [app].
    destruct s as [|c s].
    + pose proof (line_read _ _ _ H 0 acc (Nat.le_refl _) Hl) as E. cbn in E. cbn. congruence.
    + cbn [lex_lines]. rewrite (line_starts _ _ _ first H), (line_checked _ _ _ H).
      rewrite (line_read _ _ _ H _ acc (Nat.le_refl _) Hl). reflexivity.
  - rewrite lines_plain by (eapply line_plain, H). cbn [app lex_lines].
    rewrite (line_starts _ _ _ first H), (line_checked _ _ _ H).
    rewrite (line_read _ _ _ H _ acc (Nat.le_refl _) Hl).
    rewrite IH by (apply last_of_acc, Hl). rewrite rev_app_distr, app_assoc. reflexivity.
Qed.

Lemma text_tokenized ts s : text_of conv None ts s -> tokenize conv s = Lexed ts.
Proof.
  intros H. unfold tokenize. rewrite (text_read _ _ _ H true [] eq_refl). cbn [bcomm toks].
  rewrite app_nil_r, rev_involutive. reflexivity.
Qed.


Lemma lines_take : forall u l t, ~ In 10 u -> lines l (u ++ 10 :: t) = (l ++ u) :: lines [] t.
Proof.
  induction u as [|c u IH]; intros l t N.
  - cbn. rewrite app_nil_r. reflexivity.
  - cbn [app lines]. destruct (Z.eqb_spec c lf) as [->|]; [exfalso; apply N; left; reflexivity|].
    rewrite IH by (intros X; apply N; right; exact X). rewrite <- app_assoc. reflexivity.
Qed.
(* the byte order mark and the first line of an executable script *)
Definition opening (u : bytes) : Prop :=
  u = [] \/ u = [0xEF; 0xBB; 0xBF].
Lemma start_bom s : start_line true ([0xEF; 0xBB; 0xBF] ++ s) = if starts_with (str "#!") s then None else Some s.
Proof. unfold start_line. cbn [andb]. replace (starts_with [239; 187; 191] ([239; 187; 191] ++ s)) with true by reflexivity. reflexivity. Qed.
Lemma starts_app w s t : starts_with w s = true -> starts_with w (s ++ t) = true.
Proof. intros H. apply starts_with_iff in H as [r ->]. apply starts_with_iff. exists (r ++ t). rewrite app_assoc. reflexivity. Qed.

Lemma bom_skipped ts s : text_of conv None ts s -> tokenize conv ([0xEF; 0xBB; 0xBF] ++ s) = Lexed ts.
Proof.
  intros H. unfold tokenize. 
  enough (E : lex_lines conv true (mk_lexer [] false) (lines [] ([0xEF; 0xBB; 0xBF] ++ s)) = Lexed (mk_lexer (rev ts ++ []) false)).
  { rewrite E. cbn [bcomm toks]. rewrite app_nil_r, rev_involutive. reflexivity. }
  change (lines [] ([239; 187; 191] ++ s)) with (lines [239; 187; 191] s).
  inversion H as [? ? ? L | ? ts1 s1 ts2 s2 L T]; subst.
  - rewrite lines_plain_end by (eapply line_plain, L). cbn [app lex_lines]. change (239 :: 187 :: 191 :: s) with ([239; 187; 191] ++ s).
    rewrite start_bom. pose proof (line_starts _ _ _ true L) as Q. unfold start_line in Q. cbn [andb] in Q.
    replace (starts_with [239; 187; 191] s) with false in Q.
    2:{ symmetry. apply Bool.not_true_iff_false. intros E. apply starts_with_iff in E as [r ->]. apply line_plain in L. inversion L as [|? ? X _]. unfold plain in X. lia. }
    destruct (starts_with (str "#!") s); [discriminate|]. rewrite (line_checked _ _ _ L), (line_read _ _ _ L _ [] (Nat.le_refl _) eq_refl). reflexivity.
  - rewrite lines_plain by (eapply line_plain, L). cbn [app lex_lines]. change (239 :: 187 :: 191 :: s1) with ([239; 187; 191] ++ s1).
    rewrite start_bom. pose proof (line_starts _ _ _ true L) as Q. unfold start_line in Q. cbn [andb] in Q.
    replace (starts_with [239; 187; 191] s1) with false in Q.
    2:{ symmetry. apply Bool.not_true_iff_false. intros E. apply starts_with_iff in E as [r ->]. apply line_plain in L. inversion L as [|? ? X _]. unfold plain in X. lia. }
    destruct (starts_with (str "#!") s1); [discriminate|]. rewrite (line_checked _ _ _ L), (line_read _ _ _ L _ [] (Nat.le_refl _) eq_refl).
    rewrite (text_read _ _ _ T false (rev ts1 ++ []) (last_of_acc None ts1 [] eq_refl)). rewrite rev_app_distr, app_assoc. reflexivity.
Qed.
Lemma shebang_skipped u l ts s : opening u -> ~ In 10 l -> text_of conv None ts s ->
  tokenize conv (u ++ str "#!" ++ l ++ 10 :: s) = Lexed ts.
Proof.
  intros U N H. unfold tokenize. replace (u ++ str "#!" ++ l ++ 10 :: s) with ((u ++ str "#!" ++ l) ++ 10 :: s) by (rewrite <- !app_assoc; reflexivity).
  rewrite lines_take.
  2:{ intros X. apply in_app_iff in X as [X|X]; [destruct U as [-> | ->]; cbn in X; lia|]. apply in_app_iff in X as [X|X]; [cbn in X; lia | contradiction]. }
  cbn [app lex_lines].
  replace (start_line true (u ++ str "#!" ++ l)) with (@None bytes).
  - rewrite (text_read _ _ _ H false [] eq_refl). cbn [bcomm toks]. rewrite app_nil_r, rev_involutive. reflexivity.
  - symmetry. destruct U as [-> | ->]; [reflexivity|]. rewrite start_bom. reflexivity.
Qed.
(* a line that a merge left behind *)
Lemma marker_refused m a b : In m markers -> ~ In 10 a -> tokenize conv (m ++ a ++ 10 :: b) = Lex_error.
Proof.
  intros M N. unfold tokenize. replace (m ++ a ++ 10 :: b) with ((m ++ a) ++ 10 :: b) by (rewrite <- app_assoc; reflexivity).
  assert (S : starts_with m (m ++ a) = true) by (apply starts_with_iff; exists a; reflexivity).
  rewrite lines_take.
  2:{ intros X. apply in_app_iff in X as [X|X]; [|contradiction]. repeat (destruct M as [<- | M]; [cbn in X; lia|]). destruct M. }
  cbn [app lex_lines].
  assert (Q : start_line true (m ++ a) = Some (m ++ a)) by (repeat (destruct M as [<- | M]; [reflexivity|]); destruct M).
  rewrite Q. unfold check_line. replace (existsb (fun m0 => starts_with m0 (m ++ a)) markers) with true; [rewrite Bool.andb_false_r; reflexivity|].
  symmetry. apply existsb_exists. exists m. auto.
Qed.

(* ---------- fuel ---------- *)
Lemma lex_line_enough : forall f g x s, (length s <= f)%nat -> (length s <= g)%nat -> utf8_wf s ->
  lex_line conv f x s = lex_line conv g x s.
Proof.
  induction f as [|f IH]; intros g x s Lf Lg W.
  - destruct s; [destruct g; reflexivity | cbn in Lf; lia].
  - destruct s as [|c s']; [destruct g; reflexivity|]. destruct g as [|g]; [cbn in Lg; lia|]. set (s := c :: s') in *.
    assert (Step : forall n y r, cut s r -> length s = (n + length r)%nat ->
       lift (consume n s) (lex_line conv f y) = lift (consume n s) (lex_line conv g y)).
    { intros n y r C Ln. destruct (consume_wf_n n s r W C Ln) as [E W']. rewrite E. cbn [lift].
      apply cut_length in C. apply IH; [lia | lia | exact W']. }
    unfold s at 1 2. cbn [lex_line]. fold s.
    destruct (bcomm x).
    { destruct (find_char 42 s) as [k|] eqn:F; [|reflexivity].
      destruct (Z.eqb_spec (peek s (k + 1)) 47) as [P|]; [|reflexivity].
      destruct (find_char_split _ _ _ F) as (a & b & Es & L & NI). rewrite Es, <- L, peek_app in P. cbn in P.
      destruct b as [|y b]; cbn in P; [lia|]. subst y.
      apply (Step _ _ b).
      - exists (a ++ [42]), 47. split; [rewrite <- app_assoc; exact Es | unfold ascii; lia].
      - rewrite Es, app_length. cbn. lia. }
    destruct (is_cmask c cmask_space) eqn:SP.
    { apply (Step _ _ s'); [|unfold s; cbn; lia]. exists [], c. split; [reflexivity|].
      apply (cmask_ascii c cmask_space); [reflexivity | exact SP]. }
    destruct ((c =? 47) && (peek s 1 =? 47)); [reflexivity|].
    destruct ((c =? 47) && (peek s 1 =? 42)) eqn:BC.
    { lb. destruct BC as [B1 B2]. unfold s in B2. destruct s' as [|d s'']; [cbn in B2; lia|]. cbn in B2. subst d.
      apply (Step _ _ s''); [|unfold s; cbn; lia]. exists [c], 42. split; [reflexivity | unfold ascii; lia]. }
    destruct (accept_any conv (hd_error (toks x)) s) as [[[t r]|]| |] eqn:A; cbn [lift]; try reflexivity.
    apply any_cut in A. apply (Step _ _ r); [exact A|]. apply cut_length in A. lia.
Qed.

Lemma comment_exact acc s : utf8_wf s ->
  (forall a r, s = a ++ str "*/" ++ r -> ~ In 42 a ->
     lex_line conv (length s) (mk_lexer acc true) s = lex_line conv (length r) (mk_lexer acc false) r)
  /\ ((forall a r, s = a ++ str "*/" ++ r -> In 42 a) ->
     lex_line conv (length s) (mk_lexer acc true) s = Lexed (mk_lexer acc true)).
Proof.
  intros W. split.
  - intros a r E N. change (str "*/" ++ r) with (42 :: 47 :: r) in E. subst s.
    assert (L : exists n, length (a ++ 42 :: 47 :: r) = S n /\ (length r <= n)%nat).
    { exists (length a + 1 + length r)%nat. rewrite app_length. cbn. lia. }
    destruct L as (n & -> & Ln). rewrite close_comment by assumption.
    apply lex_line_enough; [exact Ln | apply Nat.le_refl|].
    apply (wf_split (a ++ [42]) 47 r); [rewrite <- app_assoc; exact W | unfold ascii; lia].
  - intros H. apply keep_comment; [|apply Nat.le_refl]. intros k F P.
    destruct (find_char_split _ _ _ F) as (a & b & E & L & N). subst s. rewrite <- L, peek_app in P. cbn in P.
    destruct b as [|y b]; cbn in P; [lia|]. subst y. apply N, (H a b). reflexivity.
Qed.

Lemma comment_opens acc s : utf8_wf (str "/*" ++ s) ->
  lex_line conv (length (str "/*" ++ s)) (mk_lexer acc false) (str "/*" ++ s) =
  lex_line conv (length s) (mk_lexer acc true) s.
Proof.
  intros W. change (str "/*" ++ s) with (47 :: 42 :: s) in *. cbn [length].
  rewrite open_comment by exact W. apply lex_line_enough; [cbn; lia | apply Nat.le_refl|].
  apply (wf_split [47] 42 s); [exact W | unfold ascii; lia].
Qed.

Lemma comment_refuted : exists w, (forall a r, w <> a ++ str "*/" ++ r) /\
  tokenize conv (str "/*" ++ w ++ str "*/") <> Lexed [].
Proof.
  exists (str " 2 * 3 "). split.
  - intros a r E. do 7 (destruct a as [|? a]; [discriminate | injection E as _ E]). destruct a; discriminate.
  - vm_compute. discriminate.
Qed.

Lemma undefined_refuted : exists text, utf8_validate text = Some true /\ tokenize conv text = Lex_undefined.
Proof. exists [34; 0xE2; 34; 120]. split; reflexivity. Qed.

Lemma quote_tokenized s : all_bytes s -> tokenize conv (print_string s) = Lexed [T_string s].
Proof.
  intros H. rewrite print_string_cons. apply text_tokenized, text_end, line_last_token, spelled_literal; [|apply quote_denotes, H].
  pose proof (print_string_printable s H) as P. rewrite print_string_cons in P. inversion P as [|? ? _ P2]; subst.
  apply Forall_app in P2 as [P2 _]. eapply Forall_impl; [|exact P2]. intros c X. cbv beta in X. lia.
Qed.

End Conv.

(* ---- lines that are accepted ---- *)
Lemma lines_checked : forall conv ls x y, lex_lines conv false x ls = Lexed y ->
  Forall (fun l => utf8_validate l = Some true /\ ~ In 0 l /\
    forall m, In m [str "<<<<<<<"; str "|||||||"; str "======="; str ">>>>>>>"] -> starts_with m l = false) ls.
Proof.
  intros conv. induction ls as [|l ls IH]; intros x y H; [constructor|].
  cbn [lex_lines start_line andb] in H. destruct (check_line l) eqn:E; [|discriminate H].
  destruct (lex_line conv (length l) x l) as [z| | |]; try discriminate H.
  constructor; [|exact (IH _ _ H)].
  unfold check_line in E. apply andb_true_iff in E as [E E3]. apply andb_true_iff in E as [E1 E2].
  apply negb_true_iff in E2, E3. repeat split.
  - destruct (utf8_validate l) as [[]|]; try discriminate E1. reflexivity.
  - intros K. unfold has_nul in E2. assert (T : existsb (Z.eqb 0) l = true).
    { apply existsb_exists. exists 0. split; [exact K|reflexivity]. }
    congruence.
  - intros m K. destruct (starts_with m l) eqn:Em; [|reflexivity].
    assert (T : existsb (fun m => starts_with m l) markers = true).
    { apply existsb_exists. exists m. split; [exact K|exact Em]. }
    congruence.
Qed.
Lemma tokenize_checked : forall conv text ts l ls, tokenize conv text = Lexed ts -> CsvModel.lines [] text = l :: ls ->
  Forall (fun l => utf8_validate l = Some true /\ ~ In 0 l /\
    forall m, In m [str "<<<<<<<"; str "|||||||"; str "======="; str ">>>>>>>"] -> starts_with m l = false) ls.
Proof.
  intros conv text ts l ls H Hl. unfold tokenize in H. rewrite Hl in H. cbn [lex_lines] in H.
  destruct (start_line true l) as [s|].
  - destruct (check_line s); [|discriminate H]. destruct (lex_line conv (length s) (mk_lexer [] false) s) as [x| | |]; try discriminate H.
    destruct (lex_lines conv false x ls) as [y| | |] eqn:E; try discriminate H. eapply lines_checked; exact E.
  - destruct (lex_lines conv false (mk_lexer [] false) ls) as [y| | |] eqn:E; try discriminate H. eapply lines_checked; exact E.
Qed.
