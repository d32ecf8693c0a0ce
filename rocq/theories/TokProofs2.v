(* Tokenizer: a token that is followed by a space or nothing is read back. *)
From Verif Require Import Base Monad Text UtfModel UtfSpec UtfProofs CsvModel TokModel TokSpec TokProofs1.

Opaque punctuators keywords documented_punctuators documented_keywords.

Definition ended (r : bytes) : Prop := r = [] \/ exists c r', r = c :: r' /\ spacing c.

Lemma ended_cases (P : bytes -> Prop) :
  P [] -> (forall r, P (32 :: r)) -> (forall r, P (9 :: r)) -> (forall r, P (11 :: r)) ->
  (forall r, P (12 :: r)) -> (forall r, P (13 :: r)) -> forall r, ended r -> P r.
Proof.
  intros H0 H1 H2 H3 H4 H5 r [-> | (c & r' & -> & S)]; [exact H0|].
  destruct S as [-> | [-> | [-> | [-> | ->]]]]; auto.
Qed.

Lemma ended_no_name r : ended r -> no_name_follows r.
Proof.
  intros [-> | (c & r' & -> & S)] d q E; [discriminate|]. injection E as <- <-.
  unfold spacing in S. unb. lia.
Qed.

Section Conv.
Variable conv : bool -> bytes -> option token.

Lemma infix_iff last : may_infix_operators_follow last = true <-> ends_a_value last.
Proof.
  destruct last as [[k | p | w | v | b | s]|]; cbn [may_infix_operators_follow ends_a_value];
    try tauto; try (split; [discriminate | tauto]).
  - split.
    + intros H. apply existsb_exists in H as (x & I & E). apply Z.eqb_eq in E. subst x.
      assert (X : forallb (fun k => existsb (fun w => if in_dec swapped_dec (k, w) documented_keywords then true else false) value_keywords)
                    [19; 20; 21; 24] = true) by (vm_compute; reflexivity).
      rewrite forallb_forall in X. apply X, existsb_exists in I as (w & W & D).
      exists w. destruct (in_dec _ _ _); [auto | discriminate].
    + intros (w & A & B). apply keywords_documented in A.
      assert (E : forallb (fun e => if in_dec (list_eq_dec Z.eq_dec) (fst e) value_keywords
                                  then existsb (Z.eqb (snd e)) [19; 20; 21; 24] else true) keywords = true)
        by (vm_compute; reflexivity).
      rewrite forallb_forall in E. specialize (E _ A). cbn [fst snd] in E.
      destruct (in_dec _ _ _); [exact E | contradiction].
  - split.
    + intros H. apply existsb_exists in H as (x & I & E). apply Z.eqb_eq in E. subst x.
      assert (X : forallb (fun k => existsb (fun w => if in_dec swapped_dec (k, w) documented_punctuators then true else false) closing_punctuators)
                    [10; 11; 55; 56; 43; 45; 47] = true) by (vm_compute; reflexivity).
      rewrite forallb_forall in X. apply X, existsb_exists in I as (w & W & D).
      exists w. destruct (in_dec _ _ _); [auto | discriminate].
    + intros (w & A & B). apply punctuators_documented in A.
      assert (E : forallb (fun e => if in_dec (list_eq_dec Z.eq_dec) (fst e) closing_punctuators
                                  then existsb (Z.eqb (snd e)) [10; 11; 55; 56; 43; 45; 47] else true) punctuators = true)
        by (vm_compute; reflexivity).
      rewrite forallb_forall in E. specialize (E _ A). cbn [fst snd] in E.
      destruct (in_dec _ _ _); [exact E | contradiction].
Qed.
Lemma infix_false last : ~ ends_a_value last -> may_infix_operators_follow last = false.
Proof. rewrite <- infix_iff, Bool.not_true_iff_false. auto. Qed.

Lemma nan_read last neg sg w r : sign_of neg sg -> (sg = [] \/ ~ ends_a_value last) ->
  w = str "nan" \/ w = str "NaN" -> ended r ->
  accept_any conv last ((sg ++ w) ++ r) =
  Ok (Some (T_real (if neg then 0xFFF8000000000000 else 0x7FF8000000000000), r)).
Proof.
  intros S L W. revert r. apply ended_cases.
  all: unfold accept_any; unfold accept_number at 1; destruct neg; cbn [sign_of] in S;
    [subst sg | destruct S as [-> | ->]]; try (destruct L as [L | L]; [discriminate|]; rewrite (infix_false _ L));
    destruct W as [-> | ->]; try reflexivity; intros r; reflexivity.
Qed.
Lemma infinity_read last neg sg w r : sign_of neg sg -> (sg = [] \/ ~ ends_a_value last) ->
  w = str "infinity" \/ w = str "Infinity" -> ended r ->
  accept_any conv last ((sg ++ w) ++ r) =
  Ok (Some (T_real (if neg then 0xFFF0000000000000 else 0x7FF0000000000000), r)).
Proof.
  intros S L W. revert r. apply ended_cases.
  all: unfold accept_any; unfold accept_number at 1; destruct neg; cbn [sign_of] in S;
    [subst sg | destruct S as [-> | ->]]; try (destruct L as [L | L]; [discriminate|]; rewrite (infix_false _ L));
    destruct W as [-> | ->]; try reflexivity; intros r; reflexivity.
Qed.

Lemma or_else_none a f : a = Ok None -> or_else a f = f.
Proof. intros ->. reflexivity. Qed.
Lemma or_else_some t r f : or_else (Ok (Some (t, r))) f = Ok (Some (t, r)).
Proof. reflexivity. Qed.

(* ---------- strings ---------- *)
Lemma literal_read last w v r : denotes w v ->
  accept_any conv last ((34 :: w ++ [34]) ++ r) = Ok (Some (T_string v, r)).
Proof.
  intros H. cbn [app]. rewrite <- app_assoc. cbn [app]. unfold accept_any.
  rewrite or_else_none by reflexivity. rewrite or_else_none by reflexivity.
  replace (accept_string 34 (34 :: w ++ 34 :: r)) with (Ok (Some (T_string v, r))); [reflexivity|].
  symmetry. apply literal_exact. exists w, v. auto.
Qed.
Lemma raw_any last w r : raw_text w ->
  accept_any conv last ((39 :: w ++ [39]) ++ r) = Ok (Some (T_string w, r)).
Proof.
  intros H. cbn [app]. rewrite <- app_assoc. cbn [app]. unfold accept_any.
  rewrite or_else_none by reflexivity. rewrite or_else_none by reflexivity. rewrite or_else_none by reflexivity.
  replace (accept_string 39 (39 :: w ++ 39 :: r)) with (Ok (Some (T_string w, r))); [reflexivity|].
  symmetry. apply raw_exact. exists w. auto.
Qed.

(* ---------- identifiers ---------- *)
Lemma no_punctuator_name c s : name_start c -> accept_punctuator (c :: s) = Ok None.
Proof.
  intros H. unfold accept_punctuator. cbn [peek nth].
  assert (E : forallb (fun e => negb (name_start_b (hd 0 (fst e)))) punctuators = true) by (vm_compute; reflexivity).
  rewrite forallb_forall in E.
  replace (prefix_range punctuators c) with (@nil (bytes * Z)); [reflexivity|].
  symmetry. unfold prefix_range.
  destruct (filter _ _) as [|e l] eqn:F; [reflexivity|]. exfalso.
  assert (I : In e (e :: l)) by (left; reflexivity). rewrite <- F in I. apply filter_In in I as [I X].
  specialize (E _ I). apply Z.eqb_eq in X. rewrite X in E.
  rewrite (proj2 (name_start_b_iff c) H) in E. discriminate.
Qed.

Lemma not_special_number last w r : name w -> ~ In w special_names -> no_name_follows r ->
  accept_number conv last (w ++ r) = Ok None.
Proof.
  intros Hn Hs N. destruct (name_split w Hn) as (c & w' & E & S & A).
  unfold accept_number.
  assert (P : peek (w ++ r) 0 = c) by (rewrite E; reflexivity). rewrite P.
  assert (SG : (c =? 43) || (c =? 45) = false) by (apply Bool.not_true_is_false; unb; lb; lia).
  rewrite SG. cbn [andb]. cbv zeta. rewrite P, (cmask_length_run w r A N).
  destruct ((c =? 110) || (c =? 78)) eqn:C1.
  - destruct (Nat.eqb_spec (length w) 3) as [L|L]; [|reflexivity]. cbn [negb].
    destruct w as [|x [|y [|z [|]]]]; cbn in L; try lia. injection E as -> <-.
    cbn [peek nth app].
    destruct (Z.eqb_spec y 97) as [->|]; [|reflexivity].
    destruct (Z.eqb_spec z c) as [->|]; [|reflexivity].
    exfalso. apply Hs. cbn. apply Bool.orb_true_iff in C1 as [C1 | C1]; apply Z.eqb_eq in C1; subst; tauto.
  - destruct ((c =? 105) || (c =? 73)) eqn:C2.
    + destruct (Nat.eqb_spec (length w) 8) as [L|L]; [|reflexivity]. cbn [negb].
      rewrite E. cbn [app tl].
      rewrite starts_with_same_length by (rewrite E in L; cbn in *; lia).
      destruct (list_eq_dec _ _ _) as [E2|]; [|reflexivity].
      exfalso. apply Hs. rewrite E, <- E2. cbn.
      apply Bool.orb_true_iff in C2 as [C2 | C2]; apply Z.eqb_eq in C2; subst; tauto.
    + destruct (Z.eqb_spec c 48); [unb; lia|].
      destruct ((49 <=? c) && (c <=? 57)) eqn:C3; [|reflexivity]. lb. unb. lia.
Qed.

Lemma string_none h w r : name w -> h = 34 \/ h = 39 -> accept_string h (w ++ r) = Ok None.
Proof.
  intros (c & w' & -> & S & _) H. unfold accept_string. cbn [app peek nth].
  destruct (Z.eqb_spec c h); [|reflexivity]. unb. lia.
Qed.

Lemma identifier_read last w r : name w -> (forall k, ~ In (k, w) documented_keywords) ->
  ~ In w special_names -> no_name_follows r ->
  accept_any conv last (w ++ r) = Ok (Some (T_identifier w, r)).
Proof.
  intros Hn Hk Hs N. unfold accept_any.
  rewrite or_else_none by (apply not_special_number; assumption).
  rewrite or_else_none by (destruct Hn as (c & w' & -> & S & _); apply no_punctuator_name, S).
  rewrite or_else_none by (apply string_none; auto).
  rewrite or_else_none by (apply string_none; auto).
  apply name_accepted; assumption.
Qed.

(* ---------- keywords ---------- *)
Lemma name_b w : match w with c :: w' => name_start_b c && forallb name_char_b w' | [] => false end = true -> name w.
Proof.
  destruct w as [|c w]; [discriminate|]. intros H. apply andb_prop in H as [A B].
  exists c, w. split; [reflexivity|]. split; [apply name_start_b_iff, A|].
  rewrite forallb_forall in B. apply Forall_forall. intros x Hx. apply name_char_b_iff, B, Hx.
Qed.
Lemma keyword_name k w : In (k, w) documented_keywords -> name w /\ ~ In w special_names.
Proof.
  intros H. apply keywords_documented in H.
  assert (E : forallb (fun e => match fst e with c :: w' => name_start_b c && forallb name_char_b w' | [] => false end
                 && if in_dec (list_eq_dec Z.eq_dec) (fst e) special_names then false else true) keywords = true)
    by (vm_compute; reflexivity).
  rewrite forallb_forall in E. specialize (E _ H). cbn [fst] in E. apply andb_prop in E as [A B].
  split; [apply name_b, A|]. destruct (in_dec _ _ _); [discriminate | assumption].
Qed.
Lemma keyword_read last k w r : In (k, w) documented_keywords -> ended r ->
  accept_any conv last (w ++ r) = Ok (Some (T_keyword k, r)).
Proof.
  intros H Hr. destruct (keyword_name k w H) as [Hn Hs]. pose proof (ended_no_name r Hr) as N. unfold accept_any.
  rewrite or_else_none by (apply not_special_number; assumption).
  rewrite or_else_none by (destruct Hn as (c & w' & -> & S & _); apply no_punctuator_name, S).
  rewrite or_else_none by (apply string_none; auto).
  rewrite or_else_none by (apply string_none; auto).
  apply name_accepted; assumption.
Qed.

(* ---------- punctuators ---------- *)
Definition starter_b (c : Z) : bool := digit_b c || (c =? 110) || (c =? 78) || (c =? 105) || (c =? 73).
Lemma no_number_start last s :
  starter_b (peek s 0) = false -> starter_b (peek s 1) = false -> accept_number conv last s = Ok None.
Proof.
  intros A B.
  assert (X : forall c, starter_b c = false -> (c =? 110) || (c =? 78) = false /\ (c =? 105) || (c =? 73) = false
              /\ (c =? 48) = false /\ (49 <=? c) && (c <=? 57) = false).
  { intros c H. unfold starter_b in H. rewrite <- !Bool.not_true_iff_false in *.
    unb. lb. lia. }
  assert (T : peek (tl s) 0 = peek s 1) by (destruct s as [|x [|y s]]; reflexivity).
  unfold accept_number. destruct ((peek s 0 =? 43) || (peek s 0 =? 45)).
  - destruct (may_infix_operators_follow last); [reflexivity|]. cbn [andb]. cbv zeta. rewrite T.
    destruct (X _ B) as (E1 & E2 & E3 & E4). rewrite E1, E2, E3, E4. reflexivity.
  - cbn [andb]. cbv zeta. destruct (X _ A) as (E1 & E2 & E3 & E4). rewrite E1, E2, E3, E4. reflexivity.
Qed.

Definition spacing_b (c : Z) : bool := (c =? 32) || (c =? 9) || (c =? 11) || (c =? 12) || (c =? 13).
Lemma spacing_b_iff c : spacing_b c = true <-> spacing c.
Proof. unfold spacing_b, spacing. lb. tauto. Qed.

Definition punct_ok (w : bytes) : bool :=
  match w with
  | [] => false
  | [x] => negb (starter_b x)
  | x :: y :: _ => negb (starter_b x) && negb (starter_b y)
  end && forallb (fun c => negb (spacing_b c)) w && (length w <=? 4)%nat
  && match w with x :: y :: _ => negb (x =? 47) || negb ((y =? 47) || (y =? 42)) | _ => true end
  && forallb (fun c => (0 <? c) && (c <? 128) && negb (c =? 10)) w
  && match w with x :: y :: _ => negb (x =? 35) | _ => true end.
Lemma punct_shape p w : In (p, w) documented_punctuators -> punct_ok w = true.
Proof.
  intros H. apply punctuators_documented in H.
  assert (E : forallb (fun e => punct_ok (fst e)) punctuators = true) by (vm_compute; reflexivity).
  rewrite forallb_forall in E. apply (E _ H).
Qed.

Lemma starter_spacing c : spacing c -> starter_b c = false.
Proof.
  intros H. apply Bool.not_true_is_false. unfold starter_b, spacing in *. unb. lb. lia.
Qed.
Lemma ended_peek r : ended r -> starter_b (peek r 0) = false.
Proof. intros [-> | (c & r' & -> & S)]; [reflexivity | apply starter_spacing, S]. Qed.

Lemma punctuator_read last p w r : In (p, w) documented_punctuators -> ended r ->
  accept_any conv last (w ++ r) = Ok (Some (T_punctuator p, r)).
Proof.
  intros H Hr. pose proof (punct_shape p w H) as K. unfold punct_ok in K.
  repeat apply andb_prop in K as [K ?].
  unfold accept_any. rewrite or_else_none.
  - assert (A : accept_punctuator (w ++ r) = Ok (Some (T_punctuator p, r))); [|rewrite A; reflexivity].
    apply punctuator_longest. exists p, w. repeat split; auto.
    intros p' w' H' P'. destruct (Nat.le_gt_cases (length w') (length w)) as [?|G]; [assumption | exfalso].
    destruct (prefix_chain w w' (w ++ r)) as [q Eq]; [exists r; reflexivity | exact P' | lia |].
    destruct q as [|c q]; [rewrite Eq, app_nil_r in G; lia|].
    destruct P' as [z Ez]. rewrite Eq, <- app_assoc in Ez. apply app_inv_head in Ez.
    destruct Hr as [-> | (c' & r' & -> & S)]; [discriminate|]. injection Ez as -> _.
    pose proof (punct_shape p' w' H') as K'. unfold punct_ok in K'. repeat apply andb_prop in K' as [K' ?].
    rewrite forallb_forall in H9. assert (I : In c w') by (rewrite Eq; apply in_or_app; right; left; reflexivity).
    apply H9 in I. rewrite (proj2 (spacing_b_iff c) S) in I. discriminate.
  - apply no_number_start.
    + destruct w as [|x [|y w]]; [discriminate | |]; cbn [app peek nth].
      * apply Bool.negb_true_iff, K.
      * apply andb_prop in K as [K _]. apply Bool.negb_true_iff, K.
    + destruct w as [|x [|y w]]; [discriminate | |]; cbn [app peek nth].
      * apply ended_peek in Hr. exact Hr.
      * apply andb_prop in K as [_ K]. apply Bool.negb_true_iff, K.
Qed.

(* ---------- numbers ---------- *)
Definition stops (P : Z -> bool) (r : bytes) : Prop :=
  match r with [] => True | c :: _ => c <> 96 /\ P c = false end.

Lemma collect_run (P : Z -> Prop) (Pb : Z -> bool) mask :
  (forall c, is_cmask c mask = Pb c) -> (forall c, Pb c = true <-> P c) ->
  forall d r, run P d -> stops Pb r -> collect_digits mask (d ++ r) = (without_separators d, r).
Proof.
  intros M B d r H S. induction H as [|c d Hc Hd IH].
  - cbn [app]. destruct r as [|c r]; [reflexivity|]. cbn [collect_digits]. destruct S as [S1 S2].
    destruct (Z.eqb_spec c 96); [contradiction|]. rewrite M, S2. reflexivity.
  - cbn [app collect_digits without_separators filter]. fold (without_separators d).
    destruct (Z.eqb_spec c 96) as [->|N]; cbn [negb]; [exact IH|].
    destruct Hc as [?|Hc]; [contradiction|]. rewrite M, (proj2 (B c) Hc), IH. reflexivity.
Qed.

Lemma collect_stop mask Pb r : (forall c, is_cmask c mask = Pb c) -> stops Pb r ->
  collect_digits mask r = ([], r).
Proof.
  intros M S. destruct r as [|c r]; [reflexivity|]. cbn [collect_digits]. destruct S as [S1 S2].
  destruct (Z.eqb_spec c 96); [contradiction|]. rewrite M, S2. reflexivity.
Qed.

Lemma without_app a b : without_separators (a ++ b) = without_separators a ++ without_separators b.
Proof. apply filter_app. Qed.

Lemma ended_stops Pb r : (forall c, spacing c -> Pb c = false) -> ended r -> stops Pb r.
Proof.
  intros H [-> | (c & r' & -> & S)]; [exact I|]. split; [|auto]. unfold spacing in S. lia.
Qed.

Lemma sign_kept sg : optional_sign sg -> without_separators sg = sg.
Proof. intros [-> | [-> | ->]]; reflexivity. Qed.

(* the tail of a numeral, for both kinds *)
Section Tail.
Variables (P : Z -> Prop) (Pb : Z -> bool) (mmask lower upper : Z).
Hypothesis PM : forall c, is_cmask c mmask = Pb c.
Hypothesis PB : forall c, Pb c = true <-> P c.
Hypothesis Psub : forall c, P c -> letter c \/ digit c.
Hypothesis Elower : forall c, (Z.lor c 0x20 =? lower) = true <-> c = lower \/ c = upper.
Hypothesis Eletter : letter lower /\ letter upper.
Hypothesis Edisj : ~ P lower /\ ~ P upper.

Lemma P_false c : ~ P c -> Pb c = false.
Proof. intros H. apply Bool.not_true_is_false. rewrite PB. exact H. Qed.

Lemma spacing_false c : spacing c -> Pb c = false.
Proof.
  intros H. apply P_false. intros X. apply Psub in X. unfold spacing in H. unb. lia.
Qed.

Definition exp_stop (r : bytes) : Prop :=
  ended r \/ exists c r', r = c :: r' /\ (c = lower \/ c = upper).
Lemma exp_stop_ok r : exp_stop r -> stops Pb r /\ peek r 0 <> 46.
Proof.
  intros [H | (c & r' & -> & C)].
  - split; [apply ended_stops; [exact spacing_false | exact H]|].
    destruct H as [-> | (c & r' & -> & S)]; cbn; [lia | unfold spacing in S; lia].
  - destruct Edisj, Eletter. split; [split|].
    + unb; destruct C; subst; lia.
    + apply P_false. destruct C; subst; assumption.
    + cbn. unb. destruct C; subst; lia.
Qed.

Lemma exponent_stop e r : exponent lower upper e -> ended r -> exp_stop (e ++ r).
Proof.
  intros [-> | (c & sg & d & -> & C & _)] H; [left; exact H | right].
  exists c, ((sg ++ d) ++ r). split; [reflexivity | exact C].
Qed.

Lemma ended_alnum r : ended r -> collect_digits (Z.lor cmask_alpha cmask_digit) r = ([], r).
Proof.
  intros H. apply (collect_stop _ (fun c => letter_b c || digit_b c) _ is_alnum).
  apply ended_stops; [|exact H]. intros c S. apply Bool.not_true_is_false. unfold spacing in S. unb. lb. lia.
Qed.

Lemma tail_read tstr i hp f e r :
  run P i -> fraction P hp f -> exponent lower upper e -> ended r ->
  accept_number_tail conv tstr (i ++ f ++ e ++ r) mmask lower =
  match conv hp (tstr ++ without_separators (i ++ f ++ e)) with
  | Some t => Ok (Some (t, r)) | None => Throw
  end.
Proof.
  intros Hi Hf He Hr. unfold accept_number_tail.
  pose proof (exponent_stop e r He Hr) as ES. destruct (exp_stop_ok _ ES) as [S1 S2].
  assert (C1 : collect_digits mmask (i ++ f ++ e ++ r) = (without_separators i, f ++ e ++ r)).
  { apply (collect_run P Pb mmask PM PB _ _ Hi).
    destruct Hf as [[-> _] | (d & -> & _)]; [exact S1 |].
    split; [lia|]. apply P_false. intros X. apply Psub in X. unb. lia. }
  rewrite C1. clear C1.
  assert (C2 : point_part mmask (f ++ e ++ r) = (hp, without_separators f, e ++ r)).
  { unfold point_part. destruct Hf as [[-> ->] | (d & -> & Hd & ->)].
    - cbn [app]. destruct (Z.eqb_spec (peek (e ++ r) 0) 46); [contradiction | reflexivity].
    - cbn [app peek nth tl]. change (46 =? 46) with true. cbv iota.
      rewrite (collect_run P Pb mmask PM PB _ _ Hd S1). reflexivity. }
  rewrite C2. clear C2.
  assert (C3 : exponent_part lower (e ++ r) = (without_separators e, r)).
  { unfold exponent_part, sign_part. destruct He as [-> | (c & sg & d & -> & C & Hsg & Hd)].
    - cbn [app]. destruct (Z.lor (peek r 0) 32 =? lower) eqn:E; [|reflexivity]. exfalso.
      apply Elower in E. destruct Eletter. destruct Hr as [-> | (c & r' & -> & S)]; cbn in E;
        [unb | unfold spacing in S; unb]; destruct E; lia.
    - change ((c :: sg ++ d) ++ r) with (c :: (sg ++ d) ++ r). cbn [peek nth tl]. fold (peek ((sg ++ d) ++ r) 0).
      rewrite (proj2 (Elower c) C). rewrite <- app_assoc.
      assert (N : c =? 96 = false) by (destruct Eletter; unb; destruct C; subst; apply Z.eqb_neq; lia).
      cbn [without_separators filter]. rewrite N. cbn [negb]. fold (without_separators (sg ++ d)).
      rewrite without_app, sign_kept by exact Hsg.
      assert (CD : collect_digits cmask_digit (d ++ r) = (without_separators d, r)).
      { apply (collect_run digit digit_b cmask_digit is_digit digit_b_iff _ _ Hd).
        apply ended_stops; [|exact Hr]. intros x S. apply Bool.not_true_is_false. unfold spacing in S. unb. lb. lia. }
      destruct Hsg as [-> | [-> | ->]].
      + cbn [app].
        assert (NS : (peek (d ++ r) 0 =? 43) || (peek (d ++ r) 0 =? 45) = false).
        { apply Bool.not_true_is_false. rewrite Bool.orb_true_iff, !Z.eqb_eq.
          destruct d as [|x d]; cbn.
          - destruct Hr as [-> | (y & r' & -> & S)]; cbn; [lia | unfold spacing in S; lia].
          - inversion Hd; subst. unb. lia. }
        rewrite NS, CD. reflexivity.
      + cbn [app peek nth tl]. change ((43 =? 43) || (43 =? 45)) with true. cbv iota. rewrite CD. reflexivity.
      + cbn [app peek nth tl]. change ((45 =? 43) || (45 =? 45)) with true. cbv iota. rewrite CD. reflexivity. }
  rewrite C3. clear C3. rewrite (ended_alnum r Hr).
  rewrite !without_app, app_nil_r, !app_assoc. destruct (conv _ _); reflexivity.
Qed.
End Tail.

Lemma lor32 v u : v = Z.lor u 32 -> Z.testbit u 5 = false ->
  forall c, Z.lor c 0x20 = v <-> c = v \/ c = u.
Proof.
  intros Hv Hu c.
  assert (B5 : forall n, 0 <= n -> Z.testbit 32 n = (5 =? n)).
  { intros n Hn. change 32 with (2 ^ 5). apply Z.pow2_bits_eqb. lia. }
  assert (V : forall n, 0 <= n -> Z.testbit v n = Z.testbit u n || (5 =? n)).
  { intros n Hn. rewrite Hv, Z.lor_spec, B5 by lia. reflexivity. }
  split.
  - intros H.
    assert (Bits : forall n, 0 <= n -> n <> 5 -> Z.testbit c n = Z.testbit u n).
    { intros n Hn N. pose proof (V n Hn) as E. rewrite <- H, Z.lor_spec, B5 in E by lia.
      destruct (Z.eqb_spec 5 n); [lia|]. rewrite !Bool.orb_false_r in E. exact E. }
    destruct (Z.testbit c 5) eqn:T.
    + left. apply Z.bits_inj'. intros n Hn. rewrite V by lia.
      destruct (Z.eq_dec n 5) as [->|N]; [rewrite T, Hu; reflexivity|].
      rewrite Bits by auto. destruct (Z.eqb_spec 5 n); [lia|]. rewrite Bool.orb_false_r. reflexivity.
    + right. apply Z.bits_inj'. intros n Hn. destruct (Z.eq_dec n 5) as [->|]; [congruence | auto].
  - intros [-> | ->]; apply Z.bits_inj'; intros n Hn; rewrite Z.lor_spec, B5, ?V by lia;
      destruct (Z.testbit u n), (5 =? n); reflexivity.
Qed.
Lemma exp_e c : (Z.lor c 0x20 =? 101) = true <-> c = 101 \/ c = 69.
Proof. rewrite Z.eqb_eq. apply lor32; reflexivity. Qed.
Lemma exp_p c : (Z.lor c 0x20 =? 112) = true <-> c = 112 \/ c = 80.
Proof. rewrite Z.eqb_eq. apply lor32; reflexivity. Qed.
Lemma radix_mark c : (Z.lor c 0x20 =? 98) || (Z.lor c 0x20 =? 120) = true <-> c = 98 \/ c = 66 \/ c = 120 \/ c = 88.
Proof.
  rewrite Bool.orb_true_iff, !Z.eqb_eq.
  rewrite (lor32 98 66) by reflexivity. rewrite (lor32 120 88) by reflexivity. tauto.
Qed.

(* after the first digit 0 of a decimal numeral there is no radix mark *)
Lemma no_radix_mark i hp f e r : run digit i -> fraction digit hp f -> exponent 101 69 e -> ended r ->
  (Z.lor (peek (i ++ f ++ e ++ r) 0) 0x20 =? 98) || (Z.lor (peek (i ++ f ++ e ++ r) 0) 0x20 =? 120) = false.
Proof.
  intros Hi Hf He Hr. apply Bool.not_true_is_false. rewrite radix_mark.
  destruct i as [|c i]; [|inversion Hi; subst; cbn; unb; lia].
  cbn [app]. destruct Hf as [[-> _] | (d & -> & _)]; [cbn [app] | cbn; lia].
  destruct He as [-> | (c & sg & d & -> & C & _)]; [cbn [app] | cbn; lia].
  destruct Hr as [-> | (c & r' & -> & S)]; cbn; [lia | unfold spacing in S; lia].
Qed.

Lemma numeral_read last sg hp w r : optional_sign sg -> (sg = [] \/ ~ ends_a_value last) ->
  numeral hp w -> ended r ->
  accept_number conv last ((sg ++ w) ++ r) =
  match conv hp (without_separators (sg ++ w)) with
  | Some t => Ok (Some (t, r)) | None => Throw
  end.
Proof.
  intros Hsg L Hn Hr.
  assert (ND : exists d w', w = d :: w' /\ digit d).
  { destruct Hn; [exists c, (i ++ f ++ e) | exists 48, (m :: i ++ f ++ e)]; split; auto; unb; lia. }
  destruct ND as (d & w' & Ew & Hd).
  (* the sign *)
  assert (SG : accept_number conv last ((sg ++ w) ++ r) =
    (if d =? 48 then
      let x := peek (w' ++ r) 0 in
      if (Z.lor x 0x20 =? 98) || (Z.lor x 0x20 =? 120)
      then accept_number_tail conv (sg ++ [48; x]) (tl (w' ++ r)) cmask_xdigit 112
      else accept_number_tail conv (sg ++ [48]) (w' ++ r) cmask_digit 101
    else accept_number_tail conv sg (w ++ r) cmask_digit 101)).
  { rewrite <- app_assoc. unfold accept_number.
    assert (D : forall (X Y W V : accepted), (if (d =? 110) || (d =? 78) then X else if (d =? 105) || (d =? 73) then Y
        else if d =? 48 then W else if (49 <=? d) && (d <=? 57) then V else Ok None)
        = if d =? 48 then W else V).
    { intros X Y W V. unfold digit in Hd.
      destruct ((d =? 110) || (d =? 78)) eqn:E1; [lb; lia|].
      destruct ((d =? 105) || (d =? 73)) eqn:E2; [lb; lia|].
      destruct (Z.eqb_spec d 48); [reflexivity|].
      destruct ((49 <=? d) && (d <=? 57)) eqn:E3; [reflexivity|].
      exfalso. apply Bool.not_true_iff_false in E3. lb. lia. }
    destruct Hsg as [-> | [-> | ->]].
    - change ([] ++ w ++ r) with (w ++ r).
      assert (PW : peek (w ++ r) 0 = d) by (rewrite Ew; reflexivity).
      assert (TW : tl (w ++ r) = w' ++ r) by (rewrite Ew; reflexivity).
      assert (NS : (d =? 43) || (d =? 45) = false)
        by (apply Bool.not_true_is_false; unb; lb; lia).
      rewrite PW, NS. cbn [andb]. cbv zeta. rewrite PW, TW. apply D.
    - destruct L as [L|L]; [discriminate|]. rewrite (infix_false _ L).
      cbn [app peek nth]. change ((43 =? 43) || (43 =? 45)) with true. cbn [andb tl]. cbv zeta.
      rewrite Ew. cbn [app peek nth tl]. apply D.
    - destruct L as [L|L]; [discriminate|]. rewrite (infix_false _ L).
      cbn [app peek nth]. change ((45 =? 43) || (45 =? 45)) with true. cbn [andb tl]. cbv zeta.
      rewrite Ew. cbn [app peek nth tl]. apply D. }
  rewrite SG. clear SG.
  assert (TE : forall tstr i hp f e, run digit i -> fraction digit hp f -> exponent 101 69 e ->
    accept_number_tail conv tstr (i ++ f ++ e ++ r) cmask_digit 101 =
    match conv hp (tstr ++ without_separators (i ++ f ++ e)) with
    | Some t => Ok (Some (t, r)) | None => Throw end).
  { intros. apply (tail_read digit digit_b cmask_digit 101 69 is_digit digit_b_iff); auto.
    - exact exp_e.
    - unb; lia.
    - unb; lia. }
  assert (TP : forall tstr i hp f e, run xdigit i -> fraction xdigit hp f -> exponent 112 80 e ->
    accept_number_tail conv tstr (i ++ f ++ e ++ r) cmask_xdigit 112 =
    match conv hp (tstr ++ without_separators (i ++ f ++ e)) with
    | Some t => Ok (Some (t, r)) | None => Throw end).
  { intros. apply (tail_read xdigit xdigit_b cmask_xdigit 112 80 is_xdigit xdigit_b_iff); auto.
    - intros c. unb. lia.
    - exact exp_p.
    - unb; lia.
    - unb; lia. }
  destruct Hn as [c i hp f e Hc Hi Hf He | m i hp f e Hm Hi Hf He].
  - injection Ew as <- <-. rewrite <- !app_assoc.
    rewrite (without_app sg), (sign_kept sg Hsg).
    cbn [without_separators filter]. fold (without_separators (i ++ f ++ e)).
    replace (c =? 96) with false by (symmetry; apply Z.eqb_neq; unb; lia). cbn [negb].
    destruct (Z.eqb_spec c 48) as [->|NZ].
    + cbv zeta. rewrite (no_radix_mark i hp f e r) by assumption.
      rewrite (TE (sg ++ [48]) i hp f e) by assumption. rewrite <- app_assoc. reflexivity.
    + change ((c :: i ++ f ++ e) ++ r) with ((c :: (i ++ f ++ e)) ++ r).
      replace ((c :: i ++ f ++ e) ++ r) with ((c :: i) ++ f ++ e ++ r) by (cbn; rewrite <- !app_assoc; reflexivity).
      rewrite (TE sg (c :: i) hp f e) by (try assumption; constructor; auto).
      cbn [app without_separators filter]. fold (without_separators (i ++ f ++ e)).
      replace (c =? 96) with false by (symmetry; apply Z.eqb_neq; unb; lia). reflexivity.
  - injection Ew as <- <-. change (48 =? 48) with true. cbv zeta iota.
    cbn [app peek nth tl]. rewrite (proj2 (radix_mark m)) by tauto.
    rewrite <- !app_assoc. rewrite (TP (sg ++ [48; m]) i hp f e) by assumption.
    rewrite (without_app sg), (sign_kept sg Hsg).
    cbn [without_separators filter]. fold (without_separators (i ++ f ++ e)).
    change (negb (48 =? 96)) with true. cbv iota.
    replace (m =? 96) with false by (symmetry; apply Z.eqb_neq; lia). cbn [negb].
    rewrite <- app_assoc. reflexivity.
Qed.

(* ---------- any token ---------- *)
Lemma token_read last t w r : spelled conv last t w -> ended r ->
  accept_any conv last (w ++ r) = Ok (Some (t, r)).
Proof.
  intros H Hr. destruct H as [k w H | p w H | w Hn Hk Hs | w v Hp Hd | w Hp Hd | sg hp w t Hsg L Hn C | neg sg w Hsg L W | neg sg w Hsg L W].
  - apply keyword_read; assumption.
  - apply punctuator_read; assumption.
  - apply identifier_read; auto using ended_no_name.
  - apply literal_read; assumption.
  - apply raw_any; assumption.
  - unfold accept_any. rewrite (numeral_read last sg hp w r Hsg L Hn Hr), C. reflexivity.
  - apply nan_read; assumption.
  - apply infinity_read; assumption.
Qed.

End Conv.
