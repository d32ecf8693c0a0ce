(* White space, words and numbers in configuration files. *)
From Verif Require Import Base Text Monad NumSpec NumGetProofs ConfModel ConfSpec ConfProofs1.

Local Open Scope Z_scope.

Definition hd_s (s : stream) : option Z := match s with SCons c _ => Some c | _ => None end.
Definition loaded (s : stream) : Prop := match s with SThrow | SUB => False | _ => True end.
Lemma load_ok s t : load s = Ok t -> t = s /\ loaded s.
Proof. destruct s; cbn; intros [= <-]; auto. Qed.
Lemma load_loaded s : loaded s -> load s = Ok s.
Proof. destruct s; cbn; tauto. Qed.
Lemma hd_push u t : hd_s (push u t) = after u (hd_s t).
Proof. destruct u; reflexivity. Qed.
Lemma hd_list cs : hd_s (of_list cs) = hd_error cs.
Proof. destruct cs; reflexivity. Qed.
Lemma loaded_list cs : loaded (of_list cs).
Proof. destruct cs; exact I. Qed.
Lemma loaded_push u t : loaded t -> loaded (push u t).
Proof. destruct u; cbn; auto. Qed.

(* White space *)
Lemma is_space_white c : is_space c = true <-> white c.
Proof. unfold is_space, white. cbn [existsb In]. lia. Qed.

Definition pre (m : skipping) : list Z :=
  match m with
  | Plain => [] | Slash => [47] | Line => [47; 47] | Block => [47; 42] | Star => [47; 42; 42]
  end.
Lemma not_white_47 : ~ white 47.
Proof. unfold white; cbn; lia. Qed.
Lemma blank_line_inv b : blank (47 :: 47 :: b) -> exists u t, b = u ++ 10 :: t /\ ~ In 10 u /\ blank t.
Proof.
  intros H; inversion H; subst; [destruct (not_white_47 ltac:(assumption))|]. eauto.
Qed.
Lemma blank_block_inv b : blank (47 :: 42 :: b) -> exists u t, b = u ++ t /\ block u /\ blank t.
Proof.
  intros H; inversion H; subst; [destruct (not_white_47 ltac:(assumption))|]. eauto.
Qed.
Lemma blank_47 b : blank (47 :: b) -> exists c r, b = c :: r /\ (c = 47 \/ c = 42).
Proof.
  intros H; inversion H; subst; [destruct (not_white_47 ltac:(assumption))| |]; eauto.
Qed.

Lemma skip_some : forall s m c r, skip m s = Ok (Some (c, r)) ->
  exists b, s = push b (SCons c r) /\ blank (pre m ++ b) /\ ~ white c /\ c <> 47.
Proof.
  induction s as [| | |d s IH]; intros m c r H.
  - destruct m; discriminate.
  - discriminate.
  - discriminate.
  - cbn [skip] in H. destruct m.
    + destruct (is_space d) eqn:E1.
      { destruct (IH _ _ _ H) as (b & -> & HB & HW). exists (d :: b). split; [reflexivity|].
        split; [|exact HW]. cbn in HB |- *. constructor; [apply is_space_white, E1|exact HB]. }
      destruct (d =? 47) eqn:E2.
      { destruct (IH _ _ _ H) as (b & -> & HB & HW). exists (d :: b). split; [reflexivity|].
        split; [|exact HW]. cbn in HB |- *. replace d with 47 by lia. exact HB. }
      injection H as -> ->. exists []. split; [reflexivity|]. split; [constructor|].
      split; [|lia]. intros HW. apply is_space_white in HW. congruence.
    + destruct (d =? 47) eqn:E1.
      { destruct (IH _ _ _ H) as (b & -> & HB & HW). exists (d :: b). split; [reflexivity|].
        split; [|exact HW]. cbn in HB |- *. replace d with 47 by lia. exact HB. }
      destruct (d =? 42) eqn:E2; [|discriminate].
      destruct (IH _ _ _ H) as (b & -> & HB & HW). exists (d :: b). split; [reflexivity|].
      split; [|exact HW]. cbn in HB |- *. replace d with 42 by lia. exact HB.
    + destruct (d =? 10) eqn:E1.
      { destruct (IH _ _ _ H) as (b & -> & HB & HW). exists (d :: b). split; [reflexivity|].
        split; [|exact HW]. cbn in HB |- *. replace d with 10 by lia.
        apply (blank_line [] b); [auto|exact HB]. }
      destruct (IH _ _ _ H) as (b & -> & HB & HW). exists (d :: b). split; [reflexivity|].
      split; [|exact HW]. cbn in HB |- *. apply blank_line_inv in HB. destruct HB as (u & t & -> & HU & HT).
      apply (blank_line (d :: u) t); [|exact HT]. cbn. intros [X|X]; [lia|tauto].
    + destruct (d =? 42) eqn:E1.
      { destruct (IH _ _ _ H) as (b & -> & HB & HW). exists (d :: b). split; [reflexivity|].
        split; [|exact HW]. cbn in HB |- *. replace d with 42 by lia. exact HB. }
      destruct (IH _ _ _ H) as (b & -> & HB & HW). exists (d :: b). split; [reflexivity|].
      split; [|exact HW]. cbn in HB |- *. apply blank_block_inv in HB. destruct HB as (u & t & -> & HU & HT).
      apply (blank_block (d :: u) t); [constructor; [lia|exact HU]|exact HT].
    + destruct (d =? 47) eqn:E1.
      { destruct (IH _ _ _ H) as (b & -> & HB & HW). exists (d :: b). split; [reflexivity|].
        split; [|exact HW]. cbn in HB |- *. replace d with 47 by lia.
        apply (blank_block [42; 47] b); [constructor|exact HB]. }
      destruct (IH _ _ _ H) as (b & -> & HB & HW). exists (d :: b). split; [reflexivity|].
      split; [|exact HW]. cbn in HB |- *. apply blank_block_inv in HB. destruct HB as (u & t & -> & HU & HT).
      apply (blank_block (42 :: d :: u) t); [constructor; [lia|exact HU]|exact HT].
Qed.

Lemma trail_cons c b : white c -> trail b -> trail (c :: b).
Proof.
  intros W H. destruct H as [t HB|t u HB HU]; [constructor; constructor; assumption|].
  apply (trail_line (c :: t) u); [constructor; assumption|exact HU].
Qed.
Lemma trail_line_inv b : trail (47 :: 47 :: b) ->
  ~ In 10 b \/ exists u t, b = u ++ 10 :: t /\ ~ In 10 u /\ trail t.
Proof.
  intros H. inversion H as [t HB E|t u HB HU E]; subst.
  - right. apply blank_line_inv in HB. destruct HB as (u & t & -> & HU & HT).
    exists u, t. repeat split; auto. constructor; exact HT.
  - destruct t as [|x t]; cbn [app] in E; [injection E as <-; left; exact HU|].
    destruct t as [|y t]; cbn [app] in E.
    { injection E as -> _. exfalso. apply blank_47 in HB. destruct HB as (? & ? & [=] & _). }
    injection E as -> -> E.
    right. apply blank_line_inv in HB. destruct HB as (v & w & -> & HV & HW).
    exists v, (w ++ 47 :: 47 :: u). rewrite <- E, <- app_assoc. repeat split; auto.
    apply trail_line; assumption.
Qed.
Lemma trail_block_inv b : trail (47 :: 42 :: b) -> exists u t, b = u ++ t /\ block u /\ trail t.
Proof.
  intros H. inversion H as [t HB E|t u HB HU E]; subst.
  - apply blank_block_inv in HB. destruct HB as (u & t & -> & HU & HT).
    exists u, t. repeat split; auto. constructor; exact HT.
  - destruct t as [|x t]; cbn [app] in E; [discriminate|].
    destruct t as [|y t]; cbn [app] in E.
    { injection E as -> _. exfalso. apply blank_47 in HB. destruct HB as (? & ? & [=] & _). }
    injection E as -> -> E.
    apply blank_block_inv in HB. destruct HB as (v & w & -> & HV & HW).
    exists v, (w ++ 47 :: 47 :: u). rewrite <- E, <- app_assoc. repeat split; auto.
    apply trail_line; assumption.
Qed.
Lemma trail_line_intro u t : ~ In 10 u -> trail t -> trail (47 :: 47 :: u ++ 10 :: t).
Proof.
  intros HU HT. destruct HT as [t HB|t v HB HV]; [constructor; constructor; assumption|].
  pose proof (trail_line (47 :: 47 :: u ++ 10 :: t) v (blank_line u t HU HB) HV) as H.
  cbn [app] in H. rewrite <- app_assoc in H. exact H.
Qed.
Lemma trail_block_intro u t : block u -> trail t -> trail (47 :: 42 :: u ++ t).
Proof.
  intros HU HT. destruct HT as [t HB|t v HB HV]; [constructor; constructor; assumption|].
  pose proof (trail_line (47 :: 42 :: u ++ t) v (blank_block u t HU HB) HV) as H.
  cbn [app] in H. rewrite <- app_assoc in H. exact H.
Qed.

Lemma skip_none : forall s m, skip m s = Ok None ->
  exists b, s = of_list b /\ trail (pre m ++ b).
Proof.
  induction s as [| | |d s IH]; intros m H.
  - exists []. split; [reflexivity|]. destruct m; try discriminate; cbn.
    + constructor; constructor.
    + apply (trail_line [] []); [constructor|auto].
  - discriminate.
  - discriminate.
  - cbn [skip] in H. destruct m.
    + destruct (is_space d) eqn:E1.
      { destruct (IH _ H) as (b & -> & HB). exists (d :: b). split; [reflexivity|].
        cbn in HB |- *. apply trail_cons; [apply is_space_white, E1|exact HB]. }
      destruct (d =? 47) eqn:E2; [|discriminate].
      destruct (IH _ H) as (b & -> & HB). exists (d :: b). split; [reflexivity|].
      cbn in HB |- *. replace d with 47 by lia. exact HB.
    + destruct (d =? 47) eqn:E1.
      { destruct (IH _ H) as (b & -> & HB). exists (d :: b). split; [reflexivity|].
        cbn in HB |- *. replace d with 47 by lia. exact HB. }
      destruct (d =? 42) eqn:E2; [|discriminate].
      destruct (IH _ H) as (b & -> & HB). exists (d :: b). split; [reflexivity|].
      cbn in HB |- *. replace d with 42 by lia. exact HB.
    + destruct (d =? 10) eqn:E1.
      { destruct (IH _ H) as (b & -> & HB). exists (d :: b). split; [reflexivity|].
        cbn in HB |- *. replace d with 10 by lia.
        apply (trail_line_intro [] b); [auto|exact HB]. }
      destruct (IH _ H) as (b & -> & HB). exists (d :: b). split; [reflexivity|].
      cbn in HB |- *. apply trail_line_inv in HB. destruct HB as [HN|(u & t & -> & HU & HT)].
      * apply (trail_line [] (d :: b)); [constructor|]. cbn. intros [X|X]; [lia|tauto].
      * apply (trail_line_intro (d :: u) t); [|exact HT]. cbn. intros [X|X]; [lia|tauto].
    + destruct (d =? 42) eqn:E1.
      { destruct (IH _ H) as (b & -> & HB). exists (d :: b). split; [reflexivity|].
        cbn in HB |- *. replace d with 42 by lia. exact HB. }
      destruct (IH _ H) as (b & -> & HB). exists (d :: b). split; [reflexivity|].
      cbn in HB |- *. apply trail_block_inv in HB. destruct HB as (u & t & -> & HU & HT).
      apply (trail_block_intro (d :: u) t); [constructor; [lia|exact HU]|exact HT].
    + destruct (d =? 47) eqn:E1.
      { destruct (IH _ H) as (b & -> & HB). exists (d :: b). split; [reflexivity|].
        cbn in HB |- *. replace d with 47 by lia.
        apply (trail_block_intro [42; 47] b); [constructor|exact HB]. }
      destruct (IH _ H) as (b & -> & HB). exists (d :: b). split; [reflexivity|].
      cbn in HB |- *. apply trail_block_inv in HB. destruct HB as (u & t & -> & HU & HT).
      apply (trail_block_intro (42 :: d :: u) t); [constructor; [lia|exact HU]|exact HT].
Qed.

Lemma skip_line u t : ~ In 10 u -> skip Line (push u (SCons 10 t)) = skip Plain t.
Proof.
  induction u as [|c u IH]; intros H; cbn [push skip]; [reflexivity|].
  cbn in H. replace (c =? 10) with false by lia. apply IH. tauto.
Qed.
Lemma skip_block u : block u -> forall t, skip Block (push u t) = skip Plain t.
Proof.
  induction 1 as [|c u H _ IH|c u H _ IH]; intros t; cbn [push skip].
  - reflexivity.
  - replace (c =? 42) with false by lia. apply IH.
  - change (42 =? 42) with true. cbn iota. replace (c =? 47) with false by lia. apply IH.
Qed.
Lemma skip_blank b : blank b -> forall t, skip Plain (push b t) = skip Plain t.
Proof.
  induction 1 as [|c b W _ IH|u b HU _ IH|u b HU _ IH]; intros t; cbn [push].
  - reflexivity.
  - cbn [skip]. apply is_space_white in W. rewrite W. apply IH.
  - cbn [skip]. change (is_space 47) with false. change (47 =? 47) with true. cbn iota.
    rewrite push_app. cbn [push]. rewrite skip_line by assumption. apply IH.
  - cbn [skip]. change (is_space 47) with false. change (47 =? 47) with true.
    change (42 =? 47) with false. change (42 =? 42) with true. cbn iota.
    rewrite push_app, skip_block by assumption. apply IH.
Qed.
Lemma skip_trail b : trail b -> skip Plain (of_list b) = Ok None.
Proof.
  intros [t HB|t u HB HU].
  - rewrite <- push_end, skip_blank by assumption. reflexivity.
  - rewrite <- push_list, skip_blank by assumption. cbn [of_list skip].
    change (is_space 47) with false. change (47 =? 47) with true. cbn iota.
    induction u as [|c u IH]; [reflexivity|]. cbn in HU. cbn [of_list skip].
    replace (c =? 10) with false by lia. apply IH. tauto.
Qed.

(* Words *)
Lemma is_letter_spec c : is_letter c = true <-> letter c.
Proof. unfold is_letter, letter. lia. Qed.
Lemma is_word_spec c : is_word c = true <-> word_char c.
Proof. unfold is_word, word_char, decimal, letter, is_letter. lia. Qed.
Lemma word_sound : forall s w t, word s = Ok (w, t) ->
  s = push w t /\ Forall word_char w /\ (forall d, hd_s t = Some d -> ~ word_char d) /\ loaded t.
Proof.
  induction s as [| | |c s IH]; intros w t H; cbn [word] in H; try discriminate.
  - injection H as <- <-. repeat split; [constructor|discriminate].
  - destruct (is_word c) eqn:E.
    + apply obind_ok in H. destruct H as ([w' t'] & H1 & [= <- <-]).
      destruct (IH _ _ H1) as (-> & HF & HD & HL). split; [reflexivity|].
      split; [constructor; [apply is_word_spec, E|exact HF]|]. split; assumption.
    + injection H as <- <-. split; [reflexivity|]. split; [constructor|]. split; [|exact I].
      intros d [= <-] HW. apply is_word_spec in HW. congruence.
Qed.
Lemma word_complete w t : Forall word_char w -> loaded t ->
  (forall d, hd_s t = Some d -> ~ word_char d) -> word (push w t) = Ok (w, t).
Proof.
  intros HF HL HD. induction HF as [|c w Hc _ IH]; cbn [push].
  - destruct t as [| | |d t]; cbn in HL; try contradiction; [reflexivity|].
    cbn [word]. destruct (is_word d) eqn:E; [|reflexivity].
    apply is_word_spec in E. destruct (HD d eq_refl E).
  - cbn [word]. apply is_word_spec in Hc. rewrite Hc, IH. reflexivity.
Qed.

(* Digits *)
Lemma valid_digit_spec n c : valid_digit (radix n) c = true <-> digit_of n c.
Proof. destruct n; unfold valid_digit, digit_of, decimal; cbn [radix Z.eqb Pos.eqb]; lia. Qed.
Lemma digit_small n c : digit_of n c -> 48 <= c <= 102 /\ c <> 96.
Proof. destruct n; unfold digit_of, decimal; lia. Qed.
Lemma run_nonempty n u ds : run n u ds -> (u = [] <-> ds = []).
Proof. destruct 1; split; congruence. Qed.

Lemma digits_sound n tb : forall k s w t, (stream_length s <= k)%nat ->
  digits tb (radix n) s = Ok (w, t) ->
  exists u, s = push u t /\ run n u w /\ stops n u (hd_s t) /\ loaded t /\
    (tb = true -> tabled (hd_s t)).
Proof.
  induction k as [|k IH]; intros s w t HK H.
  { destruct s; cbn in HK; try lia; cbn [digits] in H; try discriminate.
    destruct tb; [discriminate|]. injection H as <- <-. exists []. repeat split; try discriminate. constructor. }
  destruct s as [| | |c r]; cbn [digits] in H; try discriminate.
  { destruct tb; [discriminate|]. injection H as <- <-. exists []. repeat split; try discriminate. constructor. }
  cbn [stream_length] in HK.
  destruct (tb && (256 <=? c)) eqn:ET; [discriminate|].
  destruct (valid_digit (radix n) c) eqn:EV.
  - apply obind_ok in H. destruct H as ([w' t'] & H1 & [= <- <-]).
    apply valid_digit_spec in EV.
    assert (HX : exists tk r', r = push tk r' /\ (tk = [] /\ hd_s r <> Some 96 \/ tk = [96]) /\
                  (stream_length r' <= k)%nat /\ digits tb (radix n) r' = Ok (w', t')).
    { destruct r as [| | |d r']; try (exists []; eexists; split; [reflexivity|]; split; [left; split; [reflexivity|discriminate]|]; split; [cbn; lia|exact H1]).
      cbn [stream_length] in HK. destruct (d =? 96) eqn:E96.
      - exists [96], r'. replace d with 96 by lia. split; [reflexivity|]. split; [auto|]. split; [lia|exact H1].
      - exists [], (SCons d r'). split; [reflexivity|]. split; [left; split; [reflexivity|cbn; intros [=]; lia]|].
        split; [cbn; lia|exact H1]. }
    destruct HX as (tk & r' & -> & HT & HK' & H2).
    destruct (IH r' w' t' HK' H2) as (u & -> & HR & HS & HL & HTB).
    exists (c :: tk ++ u). cbn [push]. rewrite push_app. split; [reflexivity|].
    split; [destruct HT as [[-> _]| ->]; cbn [app]; constructor; assumption|].
    split; [|split; assumption].
    intros x Hx. destruct (HS x Hx) as [H3 H4]. split; [exact H3|]. intros ->.
    right. destruct (H4 eq_refl) as [->|(v & ->)].
    + destruct HT as [[-> HN]| ->]; [cbn in HN; congruence|exists [c]; reflexivity].
    + exists (c :: tk ++ v). cbn [app]. rewrite <- app_assoc. reflexivity.
  - injection H as <- <-. exists []. split; [reflexivity|]. split; [constructor|]. split.
    + intros x [= <-]. split; [|auto]. intros HD. apply valid_digit_spec in HD. congruence.
    + split; [exact I|]. intros ->. exists c. cbn. split; [reflexivity|lia].
Qed.

Lemma stops_tail n c u nxt : stops n (c :: u) nxt -> stops n u nxt.
Proof.
  intros H x Hx. destruct (H x Hx) as [H1 H2]. split; [exact H1|]. intros ->.
  destruct (H2 eq_refl) as [[=]|(v & E)]. destruct v as [|y v]; injection E as -> E; [auto|].
  right. exists v. exact E.
Qed.
Lemma digits_complete n tb u w : run n u w -> forall t, stops n u (hd_s t) -> loaded t ->
  (tb = true -> tabled (hd_s t)) -> digits tb (radix n) (push u t) = Ok (w, t).
Proof.
  induction 1 as [|c u w Hc HR IH|c u w Hc HR IH]; intros t HS HL HT.
  - cbn [push]. destruct t as [| | |c t]; cbn in HL; try contradiction.
    + cbn [digits]. destruct tb; [|reflexivity]. destruct (HT eq_refl) as (? & [=] & _).
    + cbn [digits]. replace (tb && (256 <=? c)) with false.
      2:{ destruct tb; [|reflexivity]. destruct (HT eq_refl) as (? & [= <-] & ?). lia. }
      destruct (valid_digit (radix n) c) eqn:E; [|reflexivity].
      apply valid_digit_spec in E. destruct (HS c eq_refl) as [HN _]. tauto.
  - pose proof (digit_small n c Hc).
    assert (HI : digits tb (radix n) (push u t) = Ok (w, t)).
    { apply IH; [|assumption|assumption]. apply stops_tail in HS. exact HS. }
    cbn [push digits]. replace (tb && (256 <=? c)) with false by lia.
    apply valid_digit_spec in Hc. rewrite Hc.
    replace (match push u t with SCons d r' => if d =? 96 then r' else push u t | _ => push u t end) with (push u t).
    { rewrite HI. reflexivity. }
    destruct u as [|d u]; cbn [push].
    + destruct t as [| | |d t]; try reflexivity. destruct (d =? 96) eqn:E; [|reflexivity].
      destruct (HS d eq_refl) as [_ HX]. destruct (HX ltac:(lia)) as [[=]|(v & E')].
      destruct v as [|? [|? ?]]; injection E' as E'; subst; discriminate || lia.
    + assert (d <> 96) by (inversion HR; subst; pose proof (digit_small n d ltac:(assumption)); lia).
      replace (d =? 96) with false by lia. reflexivity.
  - pose proof (digit_small n c Hc).
    assert (HI : digits tb (radix n) (push u t) = Ok (w, t)).
    { apply IH; [|assumption|assumption]. apply stops_tail, stops_tail in HS. exact HS. }
    cbn [push digits]. replace (tb && (256 <=? c)) with false by lia.
    apply valid_digit_spec in Hc. rewrite Hc. change (96 =? 96) with true. cbn iota.
    rewrite HI. reflexivity.
Qed.
