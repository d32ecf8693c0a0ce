From Verif Require Import Base UtfModel UtfSpec UtfProofs JsonModel JsonSpec JsonProofs1 JsonProofs2 JsonProofs3 JsonProofs4 JsonProofs5.
From Coq Require Import Lia.

Lemma below_all : forall s, all_bytes s -> below 256 s.
Proof. intros s H. eapply Forall_impl; [|exact H]. intros b Hb. unfold is_byte in Hb. lia. Qed.
Lemma no_fuel : forall N text, all_bytes text -> json_parse N text <> No_fuel.
Proof. intros N text H E. pose proof (parse_done N text (below_all _ H)) as P. rewrite E in P. exact P. Qed.
Lemma no_undef : forall N text, Forall (fun b => 0 <= b < 0xFC) text -> json_parse N text <> Undef.
Proof.
  intros N text H E. assert (Hb : below 256 text). { eapply Forall_impl; [|exact H]. intros b Hb. cbv beta in Hb. lia. }
  pose proof (parse_done N text Hb) as P. rewrite E in P. apply P. exact H.
Qed.

Lemma lead_sweep2 : forallb (fun b => lzcnt32 (Z.lxor (Z.shiftl b 24) (2 ^ 32 - 1)) =? (if b =? 255 then 8 else if b =? 254 then 7 else if b >=? 252 then 6 else if b >=? 248 then 5 else if b >=? 240 then 4 else if b >=? 224 then 3 else 2))
  (map (fun k => 192 + Z.of_nat k) (seq 0 64)) = true.
Proof. vm_compute. reflexivity. Qed.
Lemma lead2 : forall b, 192 <= b < 256 -> lzcnt32 (Z.lxor (Z.shiftl b 24) (2 ^ 32 - 1)) = (if b =? 255 then 8 else if b =? 254 then 7 else if b >=? 252 then 6 else if b >=? 248 then 5 else if b >=? 240 then 4 else if b >=? 224 then 3 else 2).
Proof.
  intros b Hb. apply Z.eqb_eq. apply (proj1 (forallb_forall _ _) lead_sweep2 b). apply in_map_iff. exists (Z.to_nat (b - 192)). split; [lia|]. apply in_seq. lia.
Qed.
Lemma trail_def : forall l c, load_trail c l <> Undef.
Proof. intros l. induction l as [|b l IH]; intros c; cbn [load_trail]; [discriminate|]. destruct (within b 128 191); [apply IH|discriminate]. Qed.
Lemma load_undef : forall s, all_bytes (rest s) -> (load_next s = Undef <-> overrun (rest s)).
Proof.
  intros s Hb. unfold load_next, overrun. destruct (rest s) as [|b r].
  - split; [discriminate|]. intros [b [t [H _]]]. discriminate.
  - inversion Hb as [|? ? Hb1 Hb2]; subst. unfold is_byte in Hb1.
    assert (Hrw : (exists b0 t, b :: r = b0 :: t /\ (b0 = 0xFF \/ (0xFC <= b0 <= 0xFE /\ (5 <= length t)%nat))) <-> (b = 0xFF \/ (0xFC <= b <= 0xFE /\ (5 <= length r)%nat))).
    { split; [intros [b0 [t [H H2]]]; injection H as <- <-; exact H2|]. intros H. exists b, r. auto. }
    rewrite Hrw. clear Hrw. destruct (within b 128 191) eqn:Hw; [split; [discriminate|unfold within in Hw; lia]|]. destruct (b >? 127) eqn:Hg.
    2:{ split; [discriminate|lia]. }
    assert (Hlead : 192 <= b < 256) by (unfold within in Hw; lia). cbv zeta. rewrite (lead2 b Hlead).
    set (u := if b =? 255 then 8 else _). 
    destruct (7 <? u) eqn:H7.
    { split; [|reflexivity]. intros _. left. unfold u in H7. repeat match type of H7 with context [if ?x then _ else _] => destruct x eqn:? end; lia. }
    destruct (4 <? length (firstn (Z.to_nat (u - 1)) r))%nat eqn:H4.
    { split; [|reflexivity]. intros _. right. apply Nat.ltb_lt in H4. rewrite firstn_length in H4. unfold u in H4, H7. repeat match type of H4 with context [if ?x then _ else _] => destruct x eqn:? end; lia. }
    split.
    + destruct (negb (length (firstn (Z.to_nat (u - 1)) r) =? Z.to_nat (u - 1))%nat); [discriminate|].
      match goal with |- context [load_trail ?a ?l] => pose proof (trail_def l a); destruct (load_trail a l) as [c| | |] end; cbn [rbind]; try discriminate; try congruence.
      destruct ((c <? 128) || (c <? Z.shiftl 1 (u * 5 - 4)) || within c 55296 57343 || (c >? 1114111)); discriminate.
    + intros H. exfalso. apply Nat.ltb_ge in H4. rewrite firstn_length in H4. unfold u in H4, H7.
      destruct H as [->|[H1 H2]]; [discriminate|]. repeat match type of H4 with context [if ?x then _ else _] => destruct x eqn:? end; lia.
Qed.

(* ---- documents ---- *)
Lemma okb_accepted : forall N v, okb N 0 v = true <-> accepted N v.
Proof. intros N v. rewrite okb_spec. unfold accepted. reflexivity. Qed.
Lemma render_run : forall N i v w, sane N -> bytes_only v -> blank (cur i) -> blank (add i) -> blank w -> 
  all_bytes (render N (cur i) (add i) v ++ w) ->
  json_parse N (render N (cur i) (add i) v ++ w) = if okb N 0 v then Val (norm N v) else Err.
Proof.
  intros N i v w HN Hv Hc Ha Hw Hall. pose proof (no_fuel N _ Hall) as Hnf. unfold json_parse in *.
  destruct (document N HN i v w Hv Hc Ha Hw) as [tok [s [H1 [H2 [n Hn]]]]]. rewrite H1 in Hnf |- *. cbn [rbind] in Hnf |- *.
  destruct tok as [|x tok]; [congruence|]. rewrite <- (machine_mono N _ n) by exact Hnf. rewrite Nat.add_comm. apply Hn.
Qed.

(* everything that is written is ASCII *)
Definition asc (l : bytes) : Prop := Forall (fun c => 0 <= c < 128) l.
Lemma asc_app : forall a b, asc a -> asc b -> asc (a ++ b).
Proof. intros a b Ha Hb. apply Forall_app. auto. Qed.
Lemma asc_lit : forall l, forallb (fun c => within c 0 127) l = true -> asc l.
Proof. intros l H. apply Forall_forall. intros c Hc. rewrite forallb_forall in H. apply H in Hc. unfold within in Hc. lia. Qed.
Lemma hex_asc : forall k u, 0 <= u < 65536 -> asc (hex_unit k u).
Proof.
  intros k. induction k as [|k IH]; intros u Hu; cbn [hex_unit]; [constructor|]. constructor.
  - rewrite Z.shiftr_div_pow2 by lia. assert (0 <= u / 2 ^ 12 < 16) by (split; [apply Z.div_pos; lia|apply Z.div_lt_upper_bound; lia]).
    unfold hex_char. destruct (u / 2 ^ 12 <? 10); lia.
  - apply IH. apply Z.mod_pos_bound. lia.
Qed.
Lemma unicode_asc : forall us, Forall (fun u => 0 <= u < 65536) us -> asc (unicode_escape us).
Proof.
  intros us H. destruct H as [|u us Hu H]; [constructor|]. destruct H as [|u' us Hu' H]; unfold unicode_escape.
  - apply asc_app; [apply asc_lit; reflexivity|apply hex_asc; assumption].
  - apply asc_app; [apply asc_lit; reflexivity|]. apply asc_app; [apply hex_asc; assumption|]. apply asc_app; [apply asc_lit; reflexivity|apply hex_asc; assumption].
Qed.
Lemma val_inj : forall A (a b : A), Val a = Val b -> a = b.
Proof. intros A a b H. congruence. Qed.
Lemma escape_asc : forall f s e, escape f s = Val e -> asc e.
Proof.
  intros f. induction f as [|f IH]; intros s e H; cbn [escape] in H; [discriminate|].
  destruct (span plain_out s) as [run t] eqn:E. destruct (span_split _ _ _ _ E) as [_ [Hr _]].
  assert (Hrun : asc run). { apply Forall_forall. intros c Hc. rewrite forallb_forall in Hr. apply Hr in Hc. apply plain_ascii in Hc. exact Hc. }
  destruct t as [|next t']; [injection H as <-; exact Hrun|]. cbv zeta in H.
  match type of H with rbind (escape f (snd ?p)) _ = _ => destruct (escape f (snd p)) as [r| | |] eqn:Er; try discriminate H; cbn [rbind] in H; apply val_inj in H; subst e;
    apply asc_app; [exact Hrun|]; apply asc_app; [|eapply IH; exact Er]; clear Er end.
  destruct (any_of next [92; 34; 47]) eqn:A.
  { cbn [fst]. constructor; [unfold backslash; lia|]. constructor; [|constructor]. unfold any_of in A. cbn [existsb] in A. lia. }
  destruct (next =? 8); [apply asc_lit; reflexivity|]. destruct (next =? 12); [apply asc_lit; reflexivity|]. destruct (next =? 10); [apply asc_lit; reflexivity|].
  destruct (next =? 13); [apply asc_lit; reflexivity|]. destruct (next =? 9); [apply asc_lit; reflexivity|].
  destruct (within next 32 126) eqn:W; [cbn [fst]; constructor; [unfold within in W; lia|constructor]|].
  destruct (utf8_decode (next :: t')) as [[cp t'']|]; [|apply asc_lit; reflexivity]. cbn [fst]. unfold utf16_encode.
  destruct (surrogate_or_large cp); [constructor|]. destruct (cp <? 65536); apply unicode_asc; repeat (apply Forall_cons; [apply Z.mod_pos_bound; lia|]); constructor.
Qed.
Lemma esc_asc : forall s, asc (esc s).
Proof. intros s. unfold esc. destruct (escape_string s) eqn:E; try constructor. eapply escape_asc. exact E. Qed.
Lemma digits_asc : forall d, digits d -> asc d.
Proof. intros d [_ H]. eapply Forall_impl; [|exact H]. intros c Hc. cbv beta in Hc. lia. Qed.
Lemma number_asc : forall a, json_number a -> asc a.
Proof.
  intros a [sign [int [frac [exp [-> [Hs [Hi [Hf He]]]]]]]]. apply asc_app; [destruct Hs as [->| ->]; apply asc_lit; reflexivity|].
  apply asc_app; [apply digits_asc; assumption|]. apply asc_app.
  - destruct Hf as [->|[d [-> Hd]]]; [constructor|]. constructor; [lia|apply digits_asc; assumption].
  - destruct He as [->|[e [sg [d [-> [H1 [H2 H3]]]]]]]; [constructor|]. constructor; [lia|]. apply asc_app; [|apply digits_asc; assumption].
    destruct H2 as [-> |[-> | ->]]; apply asc_lit; reflexivity.
Qed.
Lemma blank_asc : forall w, blank w -> asc w.
Proof. intros w H. eapply Forall_impl; [|exact H]. intros c Hc. cbv beta in Hc. lia. Qed.
Lemma key_asc : forall c k, asc (key_text c k).
Proof.
  intros c k. unfold key_text. apply asc_app; [apply asc_lit; reflexivity|]. apply asc_app; [apply esc_asc|]. apply asc_app; [apply asc_lit; reflexivity|].
  destruct c; apply asc_lit; reflexivity.
Qed.
Lemma concat_asc : forall A (f : A -> bytes) l, (forall x, In x l -> asc (f x)) -> asc (concat (map f l)).
Proof.
  intros A f l. induction l as [|x l IH]; intros H; cbn [map concat]; [constructor|]. apply asc_app; [apply H; left; reflexivity|].
  apply IH. intros y Hy. apply H. right. exact Hy.
Qed.
Lemma render_asc : forall N, sane N -> forall v c ad, blank c -> blank ad -> asc (render N c ad v).
Proof.
  intros N HN. apply (value_rec' (fun v => forall c ad, blank c -> blank ad -> asc (render N c ad v))); cbn [render].
  - intros. apply asc_lit. reflexivity.
  - intros [] c ad _ _; apply asc_lit; reflexivity.
  - intros z c ad _ _. apply number_asc. apply (proj1 HN). apply (proj2 HN).
  - intros r c ad _ _. destruct (finite N r) eqn:E; [apply number_asc; apply (proj1 HN); assumption|apply asc_lit; reflexivity].
  - intros s c ad _ _. apply asc_app; [apply asc_lit; reflexivity|]. apply asc_app; [apply esc_asc|apply asc_lit; reflexivity].
  - intros. apply asc_lit. reflexivity.
  - intros l IH c ad Hc Ha. destruct l as [|x l]; [apply asc_lit; reflexivity|]. inversion IH as [|? ? Hx Hl]; subst.
    assert (Hca : blank (c ++ ad)) by (apply blank_app; assumption).
    apply asc_app; [apply asc_lit; reflexivity|]. apply asc_app; [apply blank_asc; assumption|]. apply asc_app; [apply Hx; assumption|].
    apply asc_app; [|apply asc_app; [apply blank_asc; assumption|apply asc_lit; reflexivity]].
    apply concat_asc. intros y Hy. rewrite Forall_forall in Hl. apply asc_app; [apply asc_lit; reflexivity|]. apply asc_app; [apply blank_asc; assumption|]. apply Hl; assumption.
  - intros l IH c ad Hc Ha. destruct l as [|x l]; [apply asc_lit; reflexivity|]. inversion IH as [|? ? Hx Hl]; subst.
    assert (Hca : blank (c ++ ad)) by (apply blank_app; assumption).
    apply asc_app; [apply asc_lit; reflexivity|]. apply asc_app; [apply blank_asc; assumption|]. apply asc_app; [apply key_asc|]. apply asc_app; [apply Hx; assumption|].
    apply asc_app; [|apply asc_app; [apply blank_asc; assumption|apply asc_lit; reflexivity]].
    apply concat_asc. intros y Hy. rewrite Forall_forall in Hl. apply asc_app; [apply asc_lit; reflexivity|]. apply asc_app; [apply blank_asc; assumption|].
    apply asc_app; [apply key_asc|]. apply Hl; assumption.
Qed.
Lemma asc_bytes : forall a, asc a -> all_bytes a.
Proof. intros a H. eapply Forall_impl; [|exact H]. intros c Hc. cbv beta in Hc. unfold is_byte. lia. Qed.

Lemma round_trip : forall N i v w, sane N -> bytes_only v -> blank (cur i) -> blank (add i) -> blank w ->
  exists text, json_format N i v = Val text /\ (accepted N v -> json_parse N (text ++ w) = Val (norm N v)) /\ (~ accepted N v -> json_parse N (text ++ w) = Err).
Proof.
  intros N i v w HN Hv Hc Ha Hw. exists (render N (cur i) (add i) v). split; [apply format_ok; assumption|].
  rewrite render_run; try assumption.
  - split; intros H.
    + apply okb_accepted in H. rewrite H. reflexivity.
    + destruct (okb N 0 v) eqn:E; [apply okb_accepted in E; contradiction|reflexivity].
  - apply asc_bytes. apply asc_app; [apply render_asc; assumption|apply blank_asc; assumption].
Qed.

(* ---- values that come back as they were ---- *)
Lemma wf_bytes : forall s, utf8_wf s -> all_bytes s.
Proof.
  intros s [cps [Hc ->]]. induction Hc as [|cp cps H1 H2 IH]; [constructor|]. cbn [map concat]. apply Forall_app. split; [|exact IH].
  apply UtfProofs.rfc3629_byte. assumption.
Qed.
Lemma map_id_in : forall A (f : A -> A) l, (forall x, In x l -> f x = x) -> map f l = l.
Proof. intros A f l. induction l as [|x l IH]; intros H; [reflexivity|]. cbn [map]. rewrite H by (left; reflexivity). rewrite IH; [reflexivity|]. intros y Hy. apply H. right. exact Hy. Qed.
Lemma pure_ok : forall N v, pure N v -> bytes_only v /\ clean N v /\ norm N v = v.
Proof.
  intros N. apply (value_rec' (fun v => pure N v -> bytes_only v /\ clean N v /\ norm N v = v)); cbn [pure bytes_only clean norm]; try (intros; contradiction); try (intros; split; [exact I|split; [exact I|reflexivity]]).
  - intros r [H1 H2]. rewrite H1, H2. split; [exact I|]. split; [discriminate|reflexivity].
  - intros s Hs. split; [apply wf_bytes; assumption|]. split; [exact I|]. rewrite repair_wf by assumption. reflexivity.
  - intros l IH H. rewrite Forall_forall in IH. rewrite fold_and in H. rewrite !fold_and. split; [intros x Hx; apply (IH x Hx); auto|].
    split; [intros x Hx; apply (IH x Hx); auto|]. f_equal. apply map_id_in. intros x Hx. apply (IH x Hx). auto.
  - intros l IH [Hd H]. rewrite Forall_forall in IH. rewrite (fold_and _ (fun kx => utf8_wf (fst kx) /\ pure N (snd kx))) in H.
    rewrite (fold_and _ (fun kx => all_bytes (fst kx) /\ bytes_only (snd kx))), (fold_and _ (fun kx => clean N (snd kx))).
    split; [intros x Hx; split; [apply wf_bytes; apply (H x Hx)|apply (IH x Hx); apply (H x Hx)]|].
    split; [split; [|intros x Hx; apply (IH x Hx); apply (H x Hx)]|].
    + erewrite map_ext_in; [exact Hd|]. intros x Hx. apply repair_wf. apply (H x Hx).
    + f_equal. apply map_id_in. intros [k x] Hx. cbn [fst snd]. f_equal; [apply repair_wf; apply (H _ Hx)|]. apply (IH _ Hx). apply (H _ Hx).
Qed.
Lemma identity : forall N i v, sane N -> pure N v -> (depth v <= 32)%nat -> blank (cur i) -> blank (add i) ->
  exists text, json_format N i v = Val text /\ json_parse N text = Val v.
Proof.
  intros N i v HN Hp Hd Hc Ha. destruct (pure_ok N v Hp) as [Hb [Hcl Hn]].
  destruct (round_trip N i v [] HN Hb Hc Ha) as [text [H1 [H2 _]]]; [constructor|]. exists text. split; [assumption|]. rewrite app_nil_r, Hn in H2.
  apply H2. split; assumption.
Qed.

(* ---- strings alone: nothing is asked of the numbers ---- *)
Lemma string_literal : forall s, all_bytes s -> exists e, (forall N i, json_format N i (VStr s) = Val (quote :: e ++ [quote]))
  /\ (forall q u, ch q < 0 -> eof q = false -> rest q = quote :: e ++ quote :: u -> exists o, do_token q = Val (quote :: repair s, mk_src (-1) false o u)).
Proof.
  intros s Hs. destruct (esc_ok s Hs) as [He Hl]. exists (esc s). split.
  - intros N [c ad]. rewrite format_ok by exact Hs. reflexivity.
  - intros q u Hq Ee Hr.
    assert (Hp : pending q ([] ++ quote :: esc s ++ quote :: u)). { split; [assumption|]. left. auto. }
    destruct (start_token_ok q [] quote (esc s ++ quote :: u) Hp) as [o Ho]; [constructor|unfold ascii, quote; lia|reflexivity|].
    unfold do_token. rewrite Ho. cbn [rbind ch]. change (quote <? 0) with false. unfold lex. cbn [ch].
    change (any_of quote [91; 93; 123; 125; 58; 44]) with false. change (is_name quote) with false.
    change (any_of quote [43; 45]) with false. change (is_digit quote) with false. rewrite Z.eqb_refl. cbn iota.
    match goal with |- context [take_string ?F ?tk ?qq] => destruct (Hl F tk qq u) as [o' Ho'] end.
    + unfold fuel_of. cbn [rest]. rewrite app_length. lia.
    + reflexivity.
    + reflexivity.
    + exists o'. rewrite Ho'. reflexivity.
Qed.
Lemma string_parse : forall N i s w, all_bytes s -> blank w -> exists text, json_format N i (VStr s) = Val text /\ json_parse N (text ++ w) = Val (VStr (repair s)).
Proof.
  intros N i s w Hs Hw. destruct (esc_ok s Hs) as [He Hl]. exists ([quote] ++ esc s ++ [quote]). split.
  { destruct i as [c ad]. rewrite format_ok by exact Hs. reflexivity. }
  unfold json_parse. rewrite <- !app_assoc. cbn [app].
  destruct (token_string (mk_src (-1) false 0 (quote :: esc s ++ quote :: w)) [] (esc s) (repair s) w) as [q [H1 [H2 H3]]].
  - split; [reflexivity|]. left. split; [cbn; lia|reflexivity].
  - constructor.
  - assumption.
  - rewrite H1. cbn [rbind]. destruct (token_end q w H3 Hw) as [q' [E _]].
    rewrite Nat.add_comm. cbn [Nat.add machine length]. change (32 <? 0)%nat with false. cbn [tok0 nth].
    change (quote =? 91) with false. change (quote =? 123) with false. change (any_of quote [43; 45] || is_digit quote) with false. rewrite Z.eqb_refl. cbn iota.
    rewrite E. reflexivity.
Qed.
Lemma wf_string : forall N i s, utf8_wf s -> exists text, json_format N i (VStr s) = Val text /\ json_parse N text = Val (VStr s).
Proof.
  intros N i s Hs. destruct (string_parse N i s [] (wf_bytes s Hs)) as [text [H1 H2]]; [constructor|]. exists text. split; [assumption|].
  rewrite app_nil_r, repair_wf in H2; assumption.
Qed.

(* ---- text after the value ---- *)
Lemma take_some : forall fuel f tok s tok' s', take fuel f tok s = Val (tok', s') -> tok' <> [].
Proof.
  induction fuel as [|fuel IH]; intros f tok s tok' s' H; cbn [take] in H; [discriminate|]. cbv zeta in H.
  destruct (load_next s) as [q| | |]; cbn [rbind] in H; try discriminate. destruct (f (ch q)).
  - apply (IH _ _ _ _ _ H).
  - injection H as <- <-. destruct tok; discriminate.
Qed.
Lemma take_number_some : forall tok s tok' s', take_number tok s = Val (tok', s') -> tok' <> [].
Proof.
  intros tok s tok' s' H. unfold take_number in H.
  destruct (take (fuel_of s) is_digit tok s) as [[t1 s1]| | |] eqn:E1; cbn [rbind] in H; try discriminate. apply take_some in E1.
  destruct (if ch s1 =? 46 then _ else _) as [[t2 s2]| | |] eqn:E2; cbn [rbind] in H; try discriminate.
  assert (H2 : t2 <> []).
  { destruct (ch s1 =? 46); [|injection E2 as <- <-; exact E1]. cbv zeta in E2. destruct (load_next s1) as [q| | |]; cbn [rbind] in E2; try discriminate.
    destruct (negb (is_digit (ch q))); [discriminate|]. apply take_some in E2. exact E2. }
  clear E2. destruct (if any_of (ch s2) [101; 69] then _ else _) as [[t3 s3]| | |] eqn:E3; cbn [rbind] in H; try discriminate.
  injection H as <- <-. destruct (any_of (ch s2) [101; 69]); [|injection E3 as <- <-; exact H2].
  cbv zeta in E3. destruct (load_next s2) as [q| | |]; cbn [rbind] in E3; try discriminate.
  destruct (if any_of (ch q) [43; 45] then _ else _) as [[t4 s4]| | |] eqn:E4; cbn [rbind] in E3; try discriminate.
  destruct (negb (is_digit (ch s4))); [discriminate|]. apply take_some in E3. exact E3.
Qed.
Lemma take_string_some : forall fuel tok s tok' s', tok <> [] -> take_string fuel tok s = Val (tok', s') -> tok' <> [].
Proof.
  induction fuel as [|fuel IH]; intros tok s tok' s' Ht H; cbn [take_string] in H; [discriminate|].
  destruct (span plain_in (rest s)) as [a r]. cbv zeta in H.
  assert (Hn : forall l, tok ++ l <> []) by (intros l; destruct tok; [congruence|discriminate]).
  match type of H with rbind ?x _ = _ => destruct x as [q| | |] end; cbn [rbind] in H; try discriminate.
  destruct (eof q); [discriminate|]. destruct ((ch q <=? 31) || (ch q =? 127)); [discriminate|]. destruct (ch q =? quote).
  - injection H as <- <-. apply Hn.
  - match type of H with rbind ?x _ = _ => destruct x as [[c r']| | |] end; cbn [rbind] in H; try discriminate.
    apply IH in H; [exact H|]. rewrite <- app_assoc. apply Hn.
Qed.
Lemma lex_some : forall s tok s', lex s = Val (tok, s') -> tok <> [].
Proof.
  intros s tok s' H. unfold lex in H. destruct (any_of (ch s) [91; 93; 123; 125; 58; 44]); [injection H as <- <-; discriminate|].
  destruct (is_name (ch s)).
  { match type of H with rbind ?x _ = _ => destruct x as [[t1 s1]| | |] eqn:E1 end; cbn [rbind] in H; try discriminate.
    apply take_some in E1. injection H as <- <-. exact E1. }
  destruct (any_of (ch s) [43; 45]).
  { cbv zeta in H. destruct (load_next s) as [q| | |]; cbn [rbind] in H; try discriminate. destruct (negb (is_digit (ch q))); [discriminate|].
    apply take_number_some in H. exact H. }
  destruct (is_digit (ch s)); [apply take_number_some in H; exact H|]. destruct (ch s =? quote); [|discriminate].
  apply take_string_some in H; [exact H|discriminate].
Qed.

Lemma trailing : forall N i v w x r, sane N -> bytes_only v -> blank (cur i) -> blank (add i) -> blank w ->
  ascii x -> ~ blank [x] -> w <> [] \/ x = 44 \/ x = 93 \/ x = 125 ->
  exists text, json_format N i v = Val text /\ forall v', json_parse N (text ++ w ++ x :: r) <> Val v'.
Proof.
  intros N i v w x r HN Hv Hc Ha Hw Hx Hb Hd. exists (render N (cur i) (add i) v). split; [apply format_ok; assumption|]. intros v' H.
  assert (Hnw : is_ws x = false).
  { destruct (is_ws x) eqn:E; [|reflexivity]. exfalso. apply Hb. apply is_ws_iff in E. constructor; [|constructor]. unfold is_byte in *. intuition. }
  assert (Hdel : delim (w ++ x :: r)).
  { destruct w as [|y w]; cbn [app delim].
    - destruct Hd as [Hd|Hd]; [congruence|]. unfold any_of. cbn [existsb]. lia.
    - apply blank_span in Hw. cbn [forallb] in Hw. apply andb_prop in Hw. destruct Hw as [-> _]. reflexivity. }
  destruct (all_good N HN v Hv (cur i) (add i) [] (mk_src (-1) false 0 (render N (cur i) (add i) v ++ w ++ x :: r)) (w ++ x :: r) []) as [tok [s1 [H1 [H2 [H3 [_ [_ G]]]]]]]; try assumption.
  - constructor.
  - split; [reflexivity|]. left. split; [cbn; lia|reflexivity].
  - unfold json_parse in H. rewrite H1 in H. cbn [rbind] in H. destruct tok as [|y tok]; [congruence|].
    assert (E : exists n, forall f, machine (n + f) N s1 [] (Pack (y :: tok)) <> Val v').
    { unfold goes in G. destruct (okb N (length (@nil frame)) v).
      - destruct G as [n [s2 [P M]]]. exists (n + 1)%nat. intros f. rewrite <- Nat.add_assoc, M. cbn [Nat.add machine].
        destruct (start_token_ok s2 w x r P Hw Hx Hnw) as [o Ho]. unfold do_token. rewrite Ho. cbn [rbind ch]. replace (x <? 0) with false by (unfold ascii in Hx; lia).
        destruct (lex (mk_src x false o r)) as [[t q]| | |] eqn:El; cbn [rbind]; try discriminate. apply lex_some in El. destruct t; [congruence|discriminate].
      - destruct G as [n G]. exists n. intros f. rewrite G. discriminate. }
    destruct E as [n E]. rewrite <- (machine_mono N _ n) in H by (intros H'; rewrite H' in H; discriminate). rewrite Nat.add_comm in H. apply (E _ H).
Qed.
