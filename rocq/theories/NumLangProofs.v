(* Which texts are accepted as numbers. *)
From Verif Require Import Base Text Monad NumTables NumGetModel NumSpec NumGetProofs NumPutModel NumPutProofs.

Local Open Scope Z_scope.

Lemma digit_of_value base c : good_base base -> digit_value c < base ->
  exists d, digit_text d = c /\ 0 <= fst d < base.
Proof.
  intros Hb H. unfold digit_value in H.
  assert (T : forall d, 0 <= fst d < 16 ->
    digit_text d = fst d + (if fst d <? 10 then 48 else if snd d then 55 else 87)).
  { intros d Hd. apply Z.eqb_eq. revert d Hd. apply digit_sweep. vm_compute. reflexivity. }
  unfold good_base in Hb.
  destruct ((48 <=? c) && (c <=? 57)) eqn:E1.
  { exists (c - 48, false). rewrite T by (cbn [fst]; lia). cbn [fst snd]. split; [|lia].
    replace (c - 48 <? 10) with true by lia. lia. }
  destruct ((65 <=? c) && (c <=? 90)) eqn:E2.
  { exists (c - 55, true). rewrite T by (cbn [fst]; lia). cbn [fst snd]. split; [|lia].
    replace (c - 55 <? 10) with false by lia. lia. }
  destruct ((97 <=? c) && (c <=? 122)) eqn:E3.
  { exists (c - 87, false). rewrite T by (cbn [fst]; lia). cbn [fst snd]. split; [|lia].
    replace (c - 87 <? 10) with false by lia. lia. }
  lia.
Qed.

Lemma collect_inv base s : good_base base -> forall xu ov xu' r,
  collect_mantissa base 46 s xu ov = (xu', r) ->
  exists ip f, s = digits_text ip ++ frac_text f ++ r /\ digits_ok base (ip ++ fr_of f) /\
    (xu_has_point xu = true -> f = None) /\
    (xu_valid xu' = true -> xu_valid xu = true \/ ip ++ fr_of f <> []).
Proof.
  intros Hb. induction s as [|c s IH]; intros xu ov xu' r H; cbn [collect_mantissa] in H.
  - injection H as <- <-. exists [], None. repeat split; auto. constructor.
  - destruct (negb (xu_has_point xu) && (c =? 46)) eqn:Ept.
    + apply IH in H as (ip & f & -> & Hd & Hn & Hv). cbn [xu_has_point xu_valid] in *.
      rewrite (Hn eq_refl) in *. cbn [fr_of frac_text] in *. rewrite app_nil_r in *.
      exists [], (Some ip). assert (c = 46) as -> by lia. split; [reflexivity|].
      cbn [fr_of app]. split; [exact Hd|]. split; [|exact Hv].
      intros E; rewrite E in Ept; discriminate.
    + destruct (base <=? digit_value c) eqn:Ed.
      * injection H as <- <-. exists [], None. repeat split; auto. constructor.
      * destruct (mulm_u (xu_mant xu) base) as [m1 o1]. destruct (addm_u m1 (digit_value c)) as [m2 o2].
        cbv zeta in H. apply IH in H as (ip & f & -> & Hd & Hn & Hv). cbn [xu_has_point xu_valid] in *.
        destruct (digit_of_value base c Hb ltac:(lia)) as (d & <- & Hr).
        exists (d :: ip), f. split; [reflexivity|]. cbn [app].
        split; [constructor; assumption|]. split; [exact Hn|]. intros _. right. discriminate.
Qed.

Lemma collect_exponent_inv xs orig s : forall e ov p, collect_exponent xs orig s e ov = Ok p ->
  exists ds, s = digits_text ds ++ snd p /\ digits_ok 10 ds /\
    (forall c t, s = c :: t -> is_dec c = true -> ds <> []).
Proof.
  induction s as [|c s IH]; intros e ov p H; cbn [collect_exponent] in H.
  - injection H as <-. exists []. repeat split; [constructor|discriminate].
  - destruct (10 <=? digit_value c) eqn:Ed.
    + injection H as <-. exists []. repeat split; [constructor|].
      intros c' t E Hc. injection E as <- <-. unfold is_dec in Hc. unfold digit_value in Ed.
      rewrite Hc in Ed. lia.
    + destruct (_ && _) in H; [|discriminate].
      destruct (mulm_i (e - orig) 10) as [e1 o1].
      destruct (addm_i e1 (Z.lxor (digit_value c) xs - xs + orig)) as [e2 o2].
      apply IH in H as (ds & -> & Hd & _).
      destruct (digit_of_value 10 c ltac:(unfold good_base; lia) ltac:(lia)) as (d & <- & Hr).
      exists (d :: ds). split; [reflexivity|]. split; [constructor; assumption|]. discriminate.
Qed.

Lemma lor32_inv a m : Z.lor a 32 = m -> Z.testbit m 5 = true -> a = m \/ a = m - 32.
Proof.
  intros H Hm.
  destruct (Z.testbit a 5) eqn:E.
  - left. rewrite <- H. symmetry. apply Z.bits_inj'. intros k Hk. rewrite Z.lor_spec.
    change 32 with (2 ^ 5). rewrite Z.pow2_bits_eqb by lia. destruct (Z.eqb_spec 5 k) as [<-|].
    + rewrite E. reflexivity.
    + apply orb_false_r.
  - right. rewrite <- H. assert (L : Z.land a 32 = 0).
    { apply Z.bits_inj'. intros k Hk. rewrite Z.land_spec, Z.bits_0.
      change 32 with (2 ^ 5). rewrite Z.pow2_bits_eqb by lia. destruct (Z.eqb_spec 5 k) as [<-|].
      - rewrite E. reflexivity.
      - apply andb_false_r. }
    rewrite <- Z.lxor_lor, <- Z.add_nocarry_lxor by exact L. lia.
Qed.

Lemma mark_inv n a : Z.lor a 32 = (if radix n =? 10 then 101 else 112) ->
  exists cap, forall r, a :: r = mark_text n cap ++ r.
Proof.
  intros H. apply lor32_inv in H; [|destruct n; reflexivity].
  destruct n; cbn in H; destruct H as [->| ->]; solve [exists false; reflexivity|exists true; reflexivity].
Qed.

Lemma exponent_start_inv n s s2 neg : exponent_start (radix n) s = Some (s2, neg) ->
  exists cap sg c t, s = mark_text n cap ++ sign_text sg ++ s2 /\ s2 = c :: t /\ is_dec c = true.
Proof.
  unfold exponent_start. destruct s as [|a [|b r]]; try discriminate.
  destruct (_ && is_dec b) eqn:E1.
  - intros H; injection H as <- <-. apply andb_prop in E1 as [E1 E2]. apply Z.eqb_eq in E1.
    destruct (mark_inv n a E1) as (cap & M). exists cap, None, b, r. cbn [sign_text app].
    rewrite M. auto.
  - destruct r as [|c r]; [discriminate|].
    destruct (_ && is_dec c) eqn:E2; [|discriminate].
    intros H; injection H as <- <-. apply andb_prop in E2 as [E2 E3]. apply andb_prop in E2 as [E2 E4].
    apply Z.eqb_eq in E2. destruct (mark_inv n a E2) as (cap & M).
    exists cap, (Some (b =? 45)), c, r. rewrite M. repeat split; auto. f_equal.
    destruct (b =? 45) eqn:E5; cbn; f_equal; lia.
Qed.

Lemma collect_digits_inv n s xu r : collect_digits (radix n) 46 s = Ok (xu, r) -> xu_valid xu = true ->
  exists ip f e, s = digits_text ip ++ frac_text f ++ exp_text n e ++ r /\
    digits_ok (radix n) (ip ++ fr_of f) /\ ip ++ fr_of f <> [] /\
    match e with None => True | Some e => digits_ok 10 (e_digits e) /\ e_digits e <> [] end.
Proof.
  unfold collect_digits. fold start.
  destruct (collect_mantissa (radix n) 46 s start false) as [xu1 s1] eqn:EC.
  destruct (collect_inv _ s (good_radix n) _ _ _ _ EC) as (ip & f & -> & Hd & _ & Hv).
  destruct (exponent_start (radix n) s1) as [[s2 neg]|] eqn:EE; cbn [obind].
  - destruct (collect_exponent _ _ s2 _ _) as [[[e ov] s3]| |] eqn:EX; cbn [obind]; try discriminate.
    generalize (if ov then Z.lxor int64_max (if neg then -1 else 0) else e) as z.
    intros z H; injection H as <- <-. cbn [xu_valid]. intros V.
    destruct (exponent_start_inv _ _ _ _ EE) as (cap & sg & c & t & -> & Es & Hc).
    destruct (collect_exponent_inv _ _ _ _ _ _ EX) as (ds & E2 & Hds & Hne). cbn [snd] in E2.
    exists ip, f, (Some (Expo cap sg ds)). cbn [exp_text e_capital e_sign e_digits].
    rewrite E2, <- !app_assoc. split; [reflexivity|]. split; [exact Hd|].
    split; [destruct (Hv V) as [X|X]; [discriminate|exact X]|]. split; [exact Hds|eauto].
  - generalize (if radix n =? 16 then xu_exp xu1 * 4 else xu_exp xu1) as z.
    intros z H; injection H as <- <-. cbn [xu_valid]. intros V.
    exists ip, f, None. cbn [exp_text app]. split; [reflexivity|]. split; [exact Hd|].
    split; [destruct (Hv V) as [X|X]; [discriminate|exact X]|exact I].
Qed.

Lemma get_sign_inv s sg s1 : get_sign s = (sg, s1) -> exists o, s = sign_text o ++ s1.
Proof.
  unfold get_sign. change (str "+") with [43]. change (str "-") with [45].
  destruct s as [|c s]; cbn [subseq].
  { intros H; injection H as <- <-. exists None; reflexivity. }
  destruct (Z.eqb_spec 43 c) as [<-|]; [cbv iota; intros H; injection H as <- <-; exists (Some false); reflexivity|].
  destruct (Z.eqb_spec 45 c) as [<-|]; cbv iota; intros H; injection H as <- <-;
    [exists (Some true); reflexivity|exists None; reflexivity].
Qed.

Lemma subseq_inv w s r : subseq w s = Some r -> s = w ++ r.
Proof.
  revert s; induction w as [|a w IH]; intros s; cbn [subseq].
  - intros H; injection H as <-; reflexivity.
  - destruct s as [|b s]; [discriminate|]. destruct (Z.eqb_spec a b) as [<-|]; [|discriminate].
    intros H. apply IH in H. subst. reflexivity.
Qed.

Lemma special_inv s k r : get_special_value s = (k, r) ->
  match k with
  | Cls_normal => r = s
  | Cls_infinity => exists w, In w infinity_words /\ s = w ++ r
  | Cls_nan => exists w, In w nan_words /\ s = w ++ r
  end.
Proof.
  unfold get_special_value, infinity_words, nan_words.
  repeat match goal with
  | |- context [match subseq ?w ?s with _ => _ end] =>
      destruct (subseq w s) eqn:?; cbv beta iota zeta
  end;
  intros H; injection H as <- <-;
  try match goal with
  | E : subseq ?w _ = Some _ |- _ => apply subseq_inv in E; exists w; cbn [In]; tauto
  end.
  reflexivity.
Qed.

(* The prefix *)
Lemma choose_inv s n : n <> Decimal -> choose_base s = radix n ->
  exists cap r, snd (get_sign s) = prefix_text n cap ++ r.
Proof.
  intros Hn. unfold choose_base, get_sign.
  change (str "+") with [43]. change (str "-") with [45].
  assert (L : forall c, (if Z.lor c 32 =? 98 then 2 else if Z.lor c 32 =? 120 then 16 else 10) = radix n ->
    exists cap, forall r, 48 :: c :: r = prefix_text n cap ++ r).
  { intros c H. assert (Z.lor c 32 = match n with Binary => 98 | _ => 120 end) as E.
    { destruct n; [|congruence|]; cbn in H;
        destruct (Z.lor c 32 =? 98) eqn:E1; destruct (Z.lor c 32 =? 120) eqn:E2; lia. }
    apply lor32_inv in E; [|destruct n; reflexivity].
    destruct n; [|congruence|]; cbn in E; destruct E as [->| ->];
      solve [exists false; reflexivity|exists true; reflexivity]. }
  assert (R : radix n <> 10) by (destruct n; cbn; congruence).
  destruct s as [|a [|b s]]; try (intros H; cbn in H; congruence).
  set (by_b := if Z.lor b 32 =? 98 then 2 else if Z.lor b 32 =? 120 then 16 else 10) in *.
  assert (S2 : (match s with
     | c :: _ => if ((a =? 43) || (a =? 45)) && (b =? 48)
                 then (if Z.lor c 32 =? 98 then 2 else if Z.lor c 32 =? 120 then 16 else 10) else 10
     | [] => 10 end) = radix n ->
     (a = 43 \/ a = 45) /\ exists cap r, b :: s = prefix_text n cap ++ r).
  { destruct s as [|c s]; [congruence|].
    destruct (((a =? 43) || (a =? 45)) && (b =? 48)) eqn:E; [|congruence].
    intros H. destruct (L c H) as (cap & Hc). split; [lia|]. exists cap, s.
    assert (b = 48) as -> by lia. apply Hc. }
  cbn [subseq].
  destruct (a =? 48) eqn:Ea.
  - apply Z.eqb_eq in Ea. subst a. change (43 =? 48) with false. change (45 =? 48) with false.
    cbv iota. cbn [snd].
    destruct (by_b =? 10) eqn:Eb.
    + intros H. apply S2 in H as [H _]. lia.
    + intros H. destruct (L b H) as (cap & Hc). exists cap, s. apply Hc.
  - intros H. apply S2 in H as [Ha (cap & r & E)]. exists cap, r. rewrite <- E.
    destruct Ha as [->| ->]; reflexivity.
Qed.

Lemma choose_some s : exists n, choose_base s = radix n.
Proof.
  assert (L : forall c, exists n, (if Z.lor c 32 =? 98 then 2 else if Z.lor c 32 =? 120 then 16 else 10) = radix n).
  { intros c. destruct (Z.lor c 32 =? 98); [exists Binary; reflexivity|].
    destruct (Z.lor c 32 =? 120); [exists Hexadecimal|exists Decimal]; reflexivity. }
  assert (D : exists n, 10 = radix n) by (exists Decimal; reflexivity).
  unfold choose_base. destruct s as [|a [|b s]]; try exact D.
  destruct (a =? 48).
  - destruct (_ =? 10); [|apply L]. destruct s as [|c s]; [exact D|].
    destruct (_ && _); [apply L|exact D].
  - destruct s as [|c s]; [exact D|]. destruct (_ && _); [apply L|exact D].
Qed.

Lemma parse_D_choice s n : choose_base s = radix n -> parse_D s = parse_real n s.
Proof. intros H. unfold parse_D. rewrite H. destruct n; reflexivity. Qed.

Lemma parse_D_inv s x r : parse_D s = Ok (Some (x, r)) ->
  exists t, s = t ++ r /\ number_text t.
Proof.
  destruct (choose_some s) as (n & En). rewrite (parse_D_choice s n En), parse_real_eq.
  pose proof (choose_inv s n) as P. destruct (get_sign s) as [sg s1] eqn:EG. cbn [snd] in P.
  destruct (get_sign_inv _ _ _ EG) as (o & ->). unfold special_or.
  destruct (get_special_value s1) as [k s2] eqn:ES. apply special_inv in ES.
  destruct k.
  - destruct ES as (w & Hw & ->). intros H; injection H as <- <-.
    exists (sign_text o ++ w). split; [apply app_assoc|]. right. exists o, w.
    split; [apply in_or_app; auto|reflexivity].
  - destruct ES as (w & Hw & ->). intros H; injection H as <- <-.
    exists (sign_text o ++ w). split; [apply app_assoc|]. right. exists o, w.
    split; [apply in_or_app; auto|reflexivity].
  - subst s2. unfold finish.
    destruct (collect_digits (radix n) 46 (skip_prefix n s1)) as [[xu s3]| |] eqn:EC; cbn [obind]; try discriminate.
    destruct (xu_valid xu) eqn:V; [|discriminate].
    intros H; injection H as <- <-.
    destruct (collect_digits_inv _ _ _ _ EC V) as (ip & f & e & E & Hd & Hne & He).
    assert (exists cap, s1 = prefix_text n cap ++ skip_prefix n s1) as (cap & E1).
    { destruct n; [|exists false; reflexivity|];
        (destruct P as (cap & q & ->); [discriminate|exact En|]; exists cap;
         rewrite skip_prefix_text; reflexivity). }
    exists (text_of (Lit o n cap ip f e)). rewrite E1, E.
    split; [unfold text_of; cbn [l_sign l_notation l_capital l_int l_frac l_exp];
            rewrite <- !app_assoc; reflexivity|].
    left. exists (Lit o n cap ip f e). split; [|reflexivity].
    split; [exact Hd|]. split; [exact Hne|exact He].
Qed.

Lemma space_white_inv c : is_space c = true -> is_white c.
Proof.
  unfold is_space, is_white. rewrite existsb_exists. intros (y & Hy & E). apply Z.eqb_eq in E. subst y.
  cbn in *; tauto.
Qed.
Lemma skip_inv s : exists a, s = a ++ skip_spaces s /\ Forall is_white a.
Proof.
  induction s as [|c s (a & E & H)]; cbn [skip_spaces]; [exists []; auto|].
  destruct (is_space c) eqn:W; [|exists []; auto].
  exists (c :: a). split; [cbn; congruence|]. constructor; [apply space_white_inv, W|exact H].
Qed.

Lemma parse_language text v : std_numeric_parse text = Ok v ->
  exists a t b, text = a ++ t ++ b /\ Forall is_white a /\ Forall is_white b /\ number_text t.
Proof.
  unfold std_numeric_parse. destruct (skip_inv text) as (a & E & Ha).
  destruct (skip_spaces text) as [|c0 t0]; [discriminate|]. set (t1 := c0 :: t0) in *.
  destruct (skip_inv (rev t1)) as (b & E2 & Hb).
  destruct (parse_D (rev (skip_spaces (rev t1)))) as [[[x [|c1 r1]]|]| |] eqn:EP; try discriminate.
  intros _. destruct (parse_D_inv _ _ _ EP) as (t & Et & Ht). rewrite app_nil_r in Et.
  exists a, t, (rev b). rewrite E. split; [|split; [exact Ha|split; [apply Forall_rev, Hb|exact Ht]]].
  f_equal. rewrite <- Et, <- rev_app_distr, <- E2, rev_involutive. reflexivity.
Qed.

(* The words *)
Lemma parse_special a b s w (inf : bool) : Forall is_white a -> Forall is_white b ->
  In w (if inf then infinity_words else nan_words) ->
  std_numeric_parse (a ++ (sign_text s ++ w) ++ b) =
  Ok (Real (sign_pattern (match s with Some true => true | _ => false end) +
            (if inf then infinity else 4095 * 2 ^ 51))).
Proof.
  intros Ha Hb Hw.
  assert (HT : In (s, w) (list_prod [None; Some false; Some true] (if inf then infinity_words else nan_words))).
  { apply in_prod; [destruct s as [[]|]; cbn; tauto|exact Hw]. }
  unfold std_numeric_parse. rewrite skip_white by exact Ha.
  assert (HD : sign_text s ++ w <> [] /\ Forall (fun c => 43 <= c) (sign_text s ++ w)).
  { assert (Q : forallb (fun p : option bool * bytes =>
        let t := sign_text (fst p) ++ snd p in
        match t with [] => false | _ => forallb (fun c => 43 <=? c) t end)
      (list_prod [None; Some false; Some true] (if inf then infinity_words else nan_words)) = true)
      by (destruct inf; vm_compute; reflexivity).
    rewrite forallb_forall in Q. specialize (Q _ HT). cbn [fst snd] in Q. cbv zeta in Q.
    destruct (sign_text s ++ w) as [|c0 t0]; [discriminate|]. split; [discriminate|].
    apply Forall_forall. intros c Hc. rewrite forallb_forall in Q. specialize (Q c Hc). lia. }
  destruct HD as [HN HD].
  rewrite skip_dark_list by assumption.
  destruct ((sign_text s ++ w) ++ b) as [|c0 t0] eqn:E0.
  { apply app_eq_nil in E0 as [X _]. congruence. }
  rewrite <- E0.
  rewrite rev_app_distr, skip_white by (apply Forall_rev, Hb).
  replace (rev (sign_text s ++ w)) with (rev (sign_text s ++ w) ++ []) by apply app_nil_r.
  rewrite skip_dark_list.
  2: { intros X. apply (f_equal (@rev Z)) in X. rewrite rev_involutive in X. cbn in X. congruence. }
  2: { apply Forall_rev, HD. }
  rewrite app_nil_r, rev_involutive.
  assert (Q : Forall (fun p : option bool * bytes =>
      parse_D (sign_text (fst p) ++ snd p) =
      Ok (Some (Num (match fst p with Some true => true | _ => false end)
                    (if inf then Cls_infinity else Cls_nan) 0 0 0 false, [])))
    (list_prod [None; Some false; Some true] (if inf then infinity_words else nan_words)))
    by (destruct inf; unfold infinity_words, nan_words; cbn [list_prod map app];
        repeat (constructor; [vm_compute; reflexivity|]); constructor).
  rewrite Forall_forall in Q. specialize (Q _ HT). cbn [fst snd] in Q. rewrite Q. cbn [obind].
  unfold cast_I, cast_D. cbn [n_cls n_sign].
  destruct inf; rewrite andb_false_r; reflexivity.
Qed.
