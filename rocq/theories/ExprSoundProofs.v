(* C39: whatever the parser accepts is an expression of the grammar, and the
   parser always terminates. *)
From Verif Require Import Base Text ExprModel ExprSpec ExprProofs ExprFullProofs.
From Coq Require Import Permutation.

Definition sound (px : list token -> res (list unit_)) : Prop :=
  forall ts us rest, px ts = Acc us rest ->
    exists e pre, ts = pre ++ rest /\ Gexp 11 e pre /\ us = units e /\
      ~ begins_with infix_tokens rest /\ ~ begins_with postfix_tokens rest.

Lemma expect_inv {A} s ts (k : list token -> res A) a r :
  expect s ts k = Acc a r -> exists r0, ts = TPunct s :: r0 /\ k r0 = Acc a r.
Proof.
  unfold expect. destruct ts as [|t r0]; [discriminate|].
  destruct (is_punct s t) eqn:E; [|discriminate].
  destruct t; try discriminate. apply beq_eq in E. subst. eauto.
Qed.

Lemma beq_true s s' : beq s s' = true -> s = s'.
Proof. apply beq_eq. Qed.

Lemma is_punct_inv s t : is_punct s t = true -> t = TPunct s.
Proof. destruct t; try discriminate. intros E. apply beq_eq in E. subst. reflexivity. Qed.

Lemma is_kw_inv s t : is_kw s t = true -> t = TKw s.
Proof. destruct t; try discriminate. intros E. apply beq_eq in E. subst. reflexivity. Qed.

Lemma accept_key_inv ts k r : accept_key ts = Acc k r -> exists t, ts = t :: r /\ key_token t k.
Proof.
  destruct ts as [|[] ?]; try discriminate; intros H; inversion H; subst; eexists;
    (split; [reflexivity | constructor]).
Qed.

Lemma accept_strings_inv ts v r :
  accept_strings ts = (v, r) -> exists l, ts = map TStr l ++ r /\ v = concat l.
Proof.
  revert v r. induction ts as [|t ts IH]; intros v r H.
  - inversion H; subst. exists []. auto.
  - destruct t; try (inversion H; subst; exists []; auto; fail).
    cbn [accept_strings] in H. destruct (accept_strings ts) as [v' r'].
    destruct (IH _ _ eq_refl) as (l & -> & ->). inversion H; subst. exists (s :: l). auto.
Qed.

Lemma accept_literal_inv ts v r :
  accept_literal ts = Acc v r -> exists pre, ts = pre ++ r /\ Gprim (XLit v) pre.
Proof.
  destruct ts as [|t ts]; [discriminate|].
  destruct t; try discriminate; cbn [accept_literal]; intros H.
  - destruct (beq s (str "null")) eqn:E1.
    { apply beq_eq in E1; subst. inversion H; subst. exists [K "null"]. split; [reflexivity|].
      constructor. }
    destruct (beq s (str "false")) eqn:E2.
    { apply beq_eq in E2; subst. inversion H; subst. exists [K "false"]. split; [reflexivity|].
      apply (P_bool false). }
    destruct (beq s (str "true")) eqn:E3; [|discriminate].
    apply beq_eq in E3; subst. inversion H; subst. exists [K "true"]. split; [reflexivity|].
    apply (P_bool true).
  - inversion H; subst. eexists [_]. split; [reflexivity | constructor].
  - inversion H; subst. eexists [_]. split; [reflexivity | constructor].
  - destruct (accept_strings (TStr s :: ts)) as [v' r'] eqn:E. inversion H; subst.
    destruct (accept_strings_inv _ _ _ E) as (l & E1 & ->).
    destruct l as [|s' l].
    + cbn [map app] in E1. subst. exfalso. cbn [accept_strings] in E.
      destruct (accept_strings ts) as [v'' r''] eqn:E'.
      inversion E. subst. destruct (accept_strings_inv _ _ _ E') as (l & E2 & _).
      apply (f_equal (@length token)) in E2. rewrite app_length in E2. cbn in E2. lia.
    + exists (map TStr (s' :: l)). split; [assumption | constructor].
Qed.

Section Sound.

  Variable px : list token -> res (list unit_).
  Hypothesis Hpx : sound px.

  Lemma expect_expr_inv {A} ts (k : list unit_ -> list token -> res A) a r :
    expect_expr px ts k = Acc a r ->
    exists e pre r0, ts = pre ++ r0 /\ Gexp 11 e pre /\ k (units e) r0 = Acc a r.
  Proof.
    unfold expect_expr. destruct (px ts) as [us r0| | |] eqn:E; try discriminate.
    intros H. destruct (Hpx _ _ _ E) as (e & pre & -> & He & -> & _). eauto 8.
  Qed.

  Lemma check_inv b ts us r :
    expr_and_check px b ts = Acc us r ->
    exists e pre, ts = pre ++ r /\ Gexp 11 e pre /\ us = value b e.
  Proof.
    unfold expr_and_check. destruct (px ts) as [us' r0| | |] eqn:E; try discriminate.
    intros H. destruct (Hpx _ _ _ E) as (e & pre & -> & He & -> & _).
    rewrite check_value in H. inversion H; subst. eauto.
  Qed.

  Lemma accept_ref_inv ts b r : accept_ref ts = (b, r) -> exists ta, ts = ta ++ r /\ Gref b ta.
  Proof.
    destruct ts as [|t ts]; cbn [accept_ref]; intros H.
    - inversion H; subst. exists []. split; [reflexivity | constructor].
    - destruct (is_kw (str "ref") t || is_punct (str "->") t) eqn:E; inversion H; subst.
      + exists [t]. split; [reflexivity|]. constructor. apply orb_prop in E as [E | E].
        * left. apply is_kw_inv; assumption.
        * right. apply is_punct_inv; assumption.
      + exists []. split; [reflexivity | constructor].
  Qed.

  Lemma accept_args_inv m : forall ts l r,
    accept_args px m ts = Acc l r ->
    exists args pre, ts = pre ++ r /\ Gargs args pre /\
      l = map (fun a => value (fst a) (snd a)) args.
  Proof.
    induction m as [|m IH]; intros ts l r H; [discriminate|].
    cbn [accept_args] in H. destruct (accept_ref ts) as [b ts1] eqn:Er.
    destruct (accept_ref_inv _ _ _ Er) as (ta & -> & Hta).
    destruct (expr_and_check px b ts1) as [us r1| | |] eqn:E; try discriminate.
    - destruct (check_inv _ _ _ _ E) as (e & pre & -> & He & ->).
      assert (Hlast : exists args pre', ta ++ pre ++ r1 = pre' ++ r1 /\ Gargs args pre' /\
                        [value b e] = map (fun a => value (fst a) (snd a)) args).
      { exists [(b, e)], (ta ++ pre). rewrite app_assoc. split; [reflexivity|].
        split; [constructor; assumption | reflexivity]. }
      destruct r1 as [|t r1]; [inversion H; subst; exact Hlast|].
      destruct (is_punct (str ",") t) eqn:Et; [|inversion H; subst; exact Hlast].
      apply is_punct_inv in Et. subst t.
      destruct (accept_args px m r1) as [l' r'| | |] eqn:E'; try discriminate.
      inversion H; subst.
      destruct (IH _ _ _ E') as (args & pre' & -> & Hargs & ->).
      exists ((b, e) :: args), (ta ++ pre ++ P "," :: pre').
      split; [rewrite <- !app_assoc; reflexivity|]. split; [constructor; assumption | reflexivity].
    - destruct b; [discriminate|]. inversion H; subst. inversion Hta; subst.
      exists [], []. split; [reflexivity|]. split; [constructor | reflexivity].
  Qed.

  Lemma accept_elements_inv m : forall c ts us c' r,
    accept_elements px m c ts = Acc (us, c') r ->
    exists es pre, ts = pre ++ r /\ Gelems es pre /\ us = flat_map (value false) es /\
      c' = c + Z.of_nat (length es) /\ (es <> [] -> c' <= 0xFFFFF).
  Proof.
    induction m as [|m IH]; intros c ts us c' r H; [discriminate|].
    cbn [accept_elements] in H.
    destruct (expr_and_check px false ts) as [us1 r1| | |] eqn:E; try discriminate.
    - destruct (check_inv _ _ _ _ E) as (e & pre & -> & He & ->).
      destruct (0xFFFFF <=? c) eqn:Ec; [discriminate|].
      assert (Hlast : exists es pre', pre ++ r1 = pre' ++ r1 /\ Gelems es pre' /\
                        value false e = flat_map (value false) es /\
                        c + 1 = c + Z.of_nat (length es) /\ (es <> [] -> c + 1 <= 0xFFFFF)).
      { exists [e], pre. split; [reflexivity|]. split; [constructor; assumption|].
        cbn [flat_map length]. rewrite app_nil_r. split; [reflexivity|]. lia. }
      destruct r1 as [|t r1]; [inversion H; subst; exact Hlast|].
      destruct (is_punct (str ",") t || is_punct (str ";") t) eqn:Et;
        [|inversion H; subst; exact Hlast].
      assert (Hsep : separator t).
      { apply orb_prop in Et as [Et | Et]; apply is_punct_inv in Et; [left | right]; assumption. }
      destruct (accept_elements px m (c + 1) r1) as [[l' c''] r'| | |] eqn:E'; try discriminate.
      inversion H; subst.
      destruct (IH _ _ _ _ _ E') as (es & pre' & -> & Hes & -> & -> & Hc).
      exists (e :: es), (pre ++ t :: pre').
      split; [rewrite <- !app_assoc; reflexivity|]. split; [constructor; assumption|].
      cbn [flat_map length]. split; [reflexivity|]. split; [lia|].
      intros _. destruct es; [cbn [length]; lia|]. specialize (Hc ltac:(discriminate)).
      cbn [length] in *. lia.
    - inversion H; subst. exists [], []. split; [reflexivity|]. split; [constructor|].
      split; [reflexivity|]. cbn [length]. split; [lia | congruence].
  Qed.

  Lemma accept_members_inv m : forall seen ts us ks r,
    NoDup seen ->
    accept_members px m seen ts = Acc (us, ks) r ->
    exists kvs pre, ts = pre ++ r /\ Gmembers kvs pre /\
      us = flat_map (fun kv => value false (snd kv)) kvs /\
      ks = seen ++ map fst kvs /\ NoDup ks.
  Proof.
    induction m as [|m IH]; intros seen ts us ks r Hnd H; [discriminate|].
    cbn [accept_members] in H.
    assert (Hnil : Acc ([], seen) ts = Acc (us, ks) r ->
      exists kvs pre, ts = pre ++ r /\ Gmembers kvs pre /\
        us = flat_map (fun kv => value false (snd kv)) kvs /\
        ks = seen ++ map fst kvs /\ NoDup ks).
    { intros E. inversion E; subst. exists [], []. cbn. rewrite app_nil_r.
      split; [reflexivity|]. split; [constructor|]. auto. }
    destruct (accept_key ts) as [key r0| | |] eqn:Ek; auto.
    destruct (accept_key_inv _ _ _ Ek) as (tk & -> & Hk). clear Hnil.
    destruct (existsb (beq key) seen) eqn:Es; [discriminate|].
    destruct r0 as [|t r1]; [discriminate|].
    destruct (is_punct (str "=") t || is_punct (str ":") t) eqn:Et; [|discriminate].
    assert (Hti : t = P "=" \/ t = P ":").
    { apply orb_prop in Et as [Et | Et]; apply is_punct_inv in Et; [left | right]; assumption. }
    assert (Hnd' : NoDup (seen ++ [key])).
    { apply (Permutation_NoDup (l := key :: seen));
        [apply Permutation_cons_append|]. constructor; [|assumption].
      intros Hin. apply Bool.not_true_iff_false in Es. apply Es.
      apply existsb_exists. exists key. split; [assumption|]. apply beq_eq. reflexivity. }
    destruct (expr_and_check px false r1) as [us1 r2| | |] eqn:E; try discriminate.
    destruct (check_inv _ _ _ _ E) as (e & pre & -> & He & ->).
    assert (Hlast : exists kvs pre', tk :: t :: pre ++ r2 = pre' ++ r2 /\ Gmembers kvs pre' /\
        value false e = flat_map (fun kv => value false (snd kv)) kvs /\
        seen ++ [key] = seen ++ map fst kvs /\ NoDup (seen ++ [key])).
    { exists [(key, e)], (tk :: t :: pre). split; [reflexivity|].
      split; [constructor; assumption|]. cbn. rewrite app_nil_r. auto. }
    destruct r2 as [|t2 r3]; [inversion H; subst; exact Hlast|].
    destruct (is_punct (str ",") t2 || is_punct (str ";") t2) eqn:Et2;
      [|inversion H; subst; exact Hlast].
    assert (Hsep : separator t2).
    { apply orb_prop in Et2 as [E2 | E2]; apply is_punct_inv in E2; [left | right]; assumption. }
    destruct (accept_members px m (seen ++ [key]) r3) as [[l' ks'] r'| | |] eqn:E'; try discriminate.
    inversion H; subst.
    destruct (IH _ _ _ _ _ Hnd' E') as (kvs & pre' & -> & Hkvs & -> & -> & Hnd2).
    exists ((key, e) :: kvs), (tk :: t :: pre ++ t2 :: pre').
    split; [cbn [app]; rewrite <- !app_assoc; reflexivity|]. split; [constructor; assumption|].
    cbn [flat_map map fst snd]. rewrite <- app_assoc in *. auto.
  Qed.

  Lemma accept_primary_inv n ts us r :
    accept_primary px n ts = Acc us r ->
    exists e pre, ts = pre ++ r /\ Gprim e pre /\ us = units e.
  Proof.
    destruct ts as [|t ts]; [discriminate|].
    destruct t as [s|s|s|z|z|s|z]; cbn [accept_primary]; intros H.
    - destruct (beq s (str "[")) eqn:E1; [apply beq_true in E1; subst|].
      { destruct (accept_elements px n 0 ts) as [[us' c] r1| | |] eqn:E; try discriminate.
        apply expect_inv in H as (r2 & -> & H). inversion H; subst.
        destruct (accept_elements_inv _ _ _ _ _ _ E) as (es & pre & -> & Hes & -> & -> & Hc).
        exists (XArray es), (P "[" :: pre ++ [P "]"]).
        split; [cbn [app]; rewrite <- app_assoc; reflexivity|]. split; [|reflexivity].
        constructor; [assumption|]. destruct es; [cbn; lia | apply Hc; discriminate]. }
      destruct (beq s (str "{")) eqn:E2; [apply beq_true in E2; subst|].
      { destruct (accept_members px n [] ts) as [[us' c] r1| | |] eqn:E; try discriminate.
        apply expect_inv in H as (r2 & -> & H). inversion H; subst.
        destruct (accept_members_inv _ _ _ _ _ _ (NoDup_nil _) E)
          as (kvs & pre & -> & Hkvs & -> & -> & Hnd).
        exists (XObject kvs), (P "{" :: pre ++ [P "}"]).
        split; [cbn [app]; rewrite <- app_assoc; reflexivity|]. split; [|reflexivity].
        constructor; assumption. }
      destruct (beq s (str "(")) eqn:E3; [apply beq_true in E3; subst|discriminate].
      apply expect_expr_inv in H as (e & pre & r0 & -> & He & H).
      apply expect_inv in H as (r2 & -> & H). inversion H; subst.
      exists e, (P "(" :: pre ++ [P ")"]).
      split; [cbn [app]; rewrite <- app_assoc; reflexivity|]. split; [|reflexivity].
      constructor; assumption.
    - destruct (beq s (str "extern")) eqn:E1; [apply beq_true in E1; subst|].
      { destruct ts as [|[] ts]; try discriminate. inversion H; subst.
        exists (XGlobal s), [K "extern"; TId s]. split; [reflexivity|]. split; [constructor|].
        reflexivity. }
      destruct (accept_literal (TKw s :: ts)) as [v r'| | |] eqn:El.
      { inversion H; subst. destruct (accept_literal_inv _ _ _ El) as (pre & E & Hp).
        exists (XLit v), pre. auto. }
      all: clear El.
      all: destruct (beq s (str "this")) eqn:E2; [apply beq_true in E2; subst; inversion H; subst;
        exists (XName (str "__this")), [K "this"]; split; [reflexivity|]; split; [constructor|];
        reflexivity|].
      all: destruct (beq s (str "__fma")) eqn:E3; [apply beq_true in E3; subst;
        apply expect_inv in H as (r0 & -> & H);
        apply expect_expr_inv in H as (a & pa & r1 & -> & Ha & H);
        apply expect_inv in H as (r2 & -> & H);
        apply expect_expr_inv in H as (b & pb & r3 & -> & Hb & H);
        apply expect_inv in H as (r4 & -> & H);
        apply expect_expr_inv in H as (c & pc & r5 & -> & Hc & H);
        apply expect_inv in H as (r6 & -> & H); inversion H; subst;
        exists (XFma a b c), (K "__fma" :: P "(" :: pa ++ P "," :: pb ++ P "," :: pc ++ [P ")"]);
        split; [cbn [app]; rewrite <- !app_assoc; cbn [app]; rewrite <- !app_assoc; cbn [app];
                rewrite <- !app_assoc; reflexivity|];
        split; [constructor; assumption | reflexivity]|].
      all: destruct (lookup s binary_keywords) as [x|] eqn:E4; [
        apply lookup_in in E4;
        apply expect_inv in H as (r0 & -> & H);
        apply expect_expr_inv in H as (a & pa & r1 & -> & Ha & H);
        apply expect_inv in H as (r2 & -> & H);
        apply expect_expr_inv in H as (b & pb & r3 & -> & Hb & H);
        apply expect_inv in H as (r4 & -> & H); inversion H; subst;
        exists (XPair x a b), (TKw s :: P "(" :: pa ++ P "," :: pb ++ [P ")"]);
        split; [cbn [app]; rewrite <- !app_assoc; cbn [app]; rewrite <- !app_assoc; reflexivity|];
        split; [constructor; auto | reflexivity];
        unfold binary_keywords in E4; clear - E4; in_cases E4; vm_compute; tauto|].
      all: destruct (beq s (str "catch")) eqn:E5; [apply beq_true in E5; subst;
        apply expect_inv in H as (r0 & -> & H);
        apply expect_expr_inv in H as (a & pa & r1 & -> & Ha & H);
        apply expect_inv in H as (r2 & -> & H); inversion H; subst;
        exists (XCatch a), (K "catch" :: P "(" :: pa ++ [P ")"]);
        split; [cbn [app]; rewrite <- !app_assoc; reflexivity|];
        split; [constructor; assumption | reflexivity]|].
      all: destruct (beq s (str "__vcall")) eqn:E6; [apply beq_true in E6; subst;
        apply expect_inv in H as (r0 & -> & H);
        apply expect_expr_inv in H as (a & pa & r1 & -> & Ha & H);
        apply expect_inv in H as (r2 & -> & H);
        apply expect_expr_inv in H as (b & pb & r3 & -> & Hb & H);
        apply expect_inv in H as (r4 & -> & H); inversion H; subst;
        exists (XVcall a b), (K "__vcall" :: P "(" :: pa ++ P "," :: pb ++ [P ")"]);
        split; [cbn [app]; rewrite <- !app_assoc; cbn [app]; rewrite <- !app_assoc; reflexivity|];
        split; [constructor; assumption | reflexivity]|].
      all: destruct (beq s (str "import")) eqn:E7; [apply beq_true in E7; subst | discriminate];
        apply expect_inv in H as (r0 & -> & H);
        destruct (accept_args px n r0) as [args r1| | |] eqn:E; try discriminate;
        destruct (accept_args_inv _ _ _ _ E) as (al & pre & -> & Hargs & ->);
        destruct al as [|a al]; [discriminate|]; cbn [map] in H;
        apply expect_inv in H as (r2 & -> & H); inversion H; subst;
        exists (XImport (a :: al)), (K "import" :: P "(" :: pre ++ [P ")"]);
        split; [cbn [app]; rewrite <- !app_assoc; reflexivity|];
        split; [constructor; [assumption | discriminate] | reflexivity].
    - inversion H; subst. exists (XName s), [TId s]. split; [reflexivity|].
      split; [constructor | reflexivity].
    - inversion H; subst. exists (XLit (LInt z)), [TInt z]. split; [reflexivity|].
      split; [constructor | reflexivity].
    - inversion H; subst. exists (XLit (LReal z)), [TReal z]. split; [reflexivity|].
      split; [constructor | reflexivity].
    - destruct (accept_literal (TStr s :: ts)) as [v r'| | |] eqn:El; try discriminate.
      inversion H; subst. destruct (accept_literal_inv _ _ _ El) as (pre & E & Hp).
      exists (XLit v), pre. auto.
    - inversion H; subst. exists (XFunc z), [TFunc z]. split; [reflexivity|].
      split; [constructor | reflexivity].
  Qed.

  Lemma accept_postfix_inv n ts us r e0 p0 :
    Gpost e0 p0 ->
    accept_postfix px n ts = Acc us r ->
    exists e pre, ts = pre ++ r /\ Gpost e (p0 ++ pre) /\ units e = units e0 ++ us /\ pre <> [].
  Proof.
    intros H0. destruct ts as [|t ts]; [discriminate|].
    destruct t as [s|s|s|z|z|s|z]; try discriminate; cbn [accept_postfix]; intros H.
    destruct (lookup s postfix_punctuators) as [x|] eqn:E1.
    { apply lookup_in in E1. inversion H; subst.
      exists (XPostfix x e0), [TPunct s]. split; [reflexivity|]. split; [|split; [reflexivity | discriminate]].
      apply Q_op; [|assumption]. unfold postfix_punctuators in E1. clear - E1.
      in_cases E1; vm_compute; tauto. }
    destruct (beq s (str "(")) eqn:E2; [apply beq_true in E2; subst|].
    { destruct (accept_args px n ts) as [args r1| | |] eqn:E; try discriminate.
      destruct (accept_args_inv _ _ _ _ E) as (al & pre & -> & Hargs & ->).
      apply expect_inv in H as (r2 & -> & H). inversion H; subst.
      exists (XCall e0 al), (P "(" :: pre ++ [P ")"]).
      split; [cbn [app]; rewrite <- app_assoc; reflexivity|]. split; [|split; [reflexivity | discriminate]].
      constructor; assumption. }
    destruct (beq s (str "[")) eqn:E3; [apply beq_true in E3; subst|].
    { apply expect_expr_inv in H as (i & pre & r1 & -> & Hi & H).
      apply expect_inv in H as (r2 & -> & H). inversion H; subst.
      exists (XIndex e0 i), (P "[" :: pre ++ [P "]"]).
      split; [cbn [app]; rewrite <- app_assoc; reflexivity|]. split; [|split; [reflexivity | discriminate]].
      constructor; assumption. }
    destruct (beq s (str ".")) eqn:E4; [apply beq_true in E4; subst | discriminate].
    destruct (accept_key ts) as [key r0| | |] eqn:Ek; try discriminate.
    destruct (accept_key_inv _ _ _ Ek) as (tk & -> & Hk). inversion H; subst.
    exists (XMember e0 key), [P "."; tk]. split; [reflexivity|]. split; [|split; [reflexivity | discriminate]].
    constructor; assumption.
  Qed.

  Lemma accept_postfix_rej n ts : accept_postfix px n ts = Rej -> ~ begins_with postfix_tokens ts.
  Proof.
    intros H (t & r & -> & Hin). vm_compute in Hin.
    repeat (destruct Hin as [Hin | Hin]; [subst t; clear - H; try discriminate H|]); try contradiction.
    - cbn [accept_postfix] in H.
      change (match accept_args px n r with
              | Acc args r1 => expect (str ")") r1 (fun r2 => Acc [UCall args] r2)
              | Rej => Err | Err => Err | Fuel => Fuel end = Rej) in H.
      destruct (accept_args px n r) as [a r1| | |]; try discriminate.
      unfold expect in H. destruct r1 as [|t1 r1]; [discriminate|].
      destruct (is_punct _ t1); discriminate.
    - change (expect_expr px r (fun us r1 => expect (str "]") r1 (fun r2 =>
                Acc (us ++ [UOp xop_index false]) r2)) = Rej) in H.
      unfold expect_expr in H. destruct (px r) as [a r1| | |]; try discriminate.
      unfold expect in H. destruct r1 as [|t1 r1]; [discriminate|].
      destruct (is_punct _ t1); discriminate.
    - change (match accept_key r with
              | Acc key r1 => Acc [ULit (LStr key); UOp xop_index false] r1
              | _ => Err end = Rej) in H.
      destruct (accept_key r); discriminate.
  Qed.

  Lemma accept_postfixes_inv m n : forall ts l r e0 p0,
    Gpost e0 p0 ->
    accept_postfixes px m n ts = Acc l r ->
    exists e pre, ts = pre ++ r /\ Gpost e (p0 ++ pre) /\ units e = units e0 ++ l /\
      ~ begins_with postfix_tokens r.
  Proof.
    induction m as [|m IH]; intros ts l r e0 p0 H0 H; [discriminate|].
    cbn [accept_postfixes] in H.
    destruct (accept_postfix px n ts) as [us r1| | |] eqn:E; try discriminate.
    - destruct (accept_postfix_inv _ _ _ _ _ _ H0 E) as (e1 & p1 & -> & H1 & Hu & _).
      destruct (accept_postfixes px m n r1) as [l' r'| | |] eqn:E'; try discriminate.
      inversion H; subst.
      destruct (IH _ _ _ _ _ H1 E') as (e & pre & -> & He & Hu' & Hr).
      exists e, (p1 ++ pre). rewrite <- !app_assoc in *. split; [reflexivity|].
      split; [assumption|]. split; [|assumption]. rewrite Hu', Hu, <- app_assoc. reflexivity.
    - inversion H; subst. exists e0, []. rewrite !app_nil_r. split; [reflexivity|].
      split; [assumption|]. split; [reflexivity|]. eapply accept_postfix_rej; eassumption.
  Qed.

  Lemma accept_prefix_inv ts u r :
    accept_prefix ts = Acc u r ->
    exists t x, ts = t :: r /\ In (t, x) prefix_operators /\ u = UOp x false.
  Proof.
    destruct ts as [|t ts]; [discriminate|].
    destruct t as [s|s|s|z|z|s|z]; try discriminate; cbn [accept_prefix]; intros H.
    - destruct (lookup s prefix_punctuators) as [x|] eqn:E; [|discriminate].
      apply lookup_in in E. inversion H; subst. exists (TPunct s), x. split; [reflexivity|].
      split; [|reflexivity]. unfold prefix_punctuators in E. clear - E.
      in_cases E; vm_compute; tauto.
    - destruct (lookup s prefix_keywords) as [x|] eqn:E; [|discriminate].
      apply lookup_in in E. inversion H; subst. exists (TKw s), x. split; [reflexivity|].
      split; [|reflexivity]. unfold prefix_keywords in E. clear - E.
      in_cases E; vm_compute; tauto.
  Qed.

  (* what a list of prefix operators does to an element *)
  Lemma accept_prefixes_inv m : forall ts ps r,
    accept_prefixes m ts = Acc ps r ->
    exists pre, ts = pre ++ r /\
      forall e te, Gelem e te ->
        exists e', Gelem e' (pre ++ te) /\ units e' = units e ++ rev ps.
  Proof.
    induction m as [|m IH]; intros ts ps r H; [discriminate|].
    cbn [accept_prefixes] in H.
    assert (Hnil : Acc [] ts = Acc ps r ->
      exists pre, ts = pre ++ r /\
        forall e te, Gelem e te ->
          exists e', Gelem e' (pre ++ te) /\ units e' = units e ++ rev ps).
    { intros E. inversion E; subst. exists []. split; [reflexivity|]. intros e te He.
      exists e. rewrite app_nil_r. auto. }
    destruct (accept_prefix ts) as [u r1| | |] eqn:E; auto.
    destruct (accept_prefix_inv _ _ _ E) as (t & x & -> & Hin & ->). clear Hnil.
    destruct (accept_prefixes m r1) as [l' r'| | |] eqn:E'; try discriminate.
    inversion H; subst. destruct (IH _ _ _ E') as (pre & -> & Hpre).
    exists (t :: pre). split; [reflexivity|]. intros e te He.
    destruct (Hpre _ _ He) as (e' & He' & Hu).
    exists (XPrefix x e'). split; [constructor; assumption|].
    cbn [units rev]. rewrite Hu, <- app_assoc. reflexivity.
  Qed.

  Lemma accept_element_inv n ts us r :
    accept_element px n ts = Acc us r ->
    exists e pre, ts = pre ++ r /\ Gelem e pre /\ us = units e /\
      ~ begins_with postfix_tokens r.
  Proof.
    unfold accept_element. intros H.
    destruct (accept_prefixes n ts) as [ps r0| | |] eqn:E0; try discriminate.
    destruct (accept_prefixes_inv _ _ _ _ E0) as (p0 & -> & H0).
    destruct (accept_primary px n r0) as [us1 r1| | |] eqn:E1; try discriminate;
      [|destruct ps; discriminate].
    destruct (accept_primary_inv _ _ _ _ E1) as (e1 & p1 & -> & H1 & ->).
    destruct (accept_postfixes px n n r1) as [l r2| | |] eqn:E2; try discriminate.
    destruct (accept_postfixes_inv _ _ _ _ _ _ _ (Q_prim _ _ H1) E2)
      as (e2 & p2 & -> & H2 & Hu & Hr).
    inversion H; subst.
    destruct (H0 _ _ (E_post _ _ H2)) as (e & He & Hue).
    exists e, (p0 ++ p1 ++ p2). split; [rewrite <- !app_assoc; reflexivity|].
    split; [assumption|]. split; [|assumption]. rewrite Hue, Hu, <- app_assoc. reflexivity.
  Qed.

  (* an operator of the grammar and its element on the stack *)
  Definition is_op (op : elem) (q : Z) (f : ex -> ex -> ex) (top : list token) : Prop :=
    Gop q f top /\ tell_precedence op = q /\ 1 <= q <= 11 /\
    forall l r, units (f l r) = units l ++ extract (junction_append op (units r)).

  Lemma left_is_op q ops op f t :
    In (q, ops) left_operators -> In (t, f) ops -> tell_precedence op = q -> 1 <= q <= 11 ->
    (forall l r, units (f l r) = units l ++ extract (junction_append op (units r))) ->
    is_op op q f [t].
  Proof. intros. split; [econstructor; eauto|]. auto. Qed.

  Ltac finish_left q :=
    let t := fresh in
    eexists _, q, _, [_]; split; [reflexivity|];
    split; [eapply (O_left q); vm_compute; tauto |].

  Lemma gen_table s x a :
    In (s, (x, a)) infix_punctuators ->
    exists q, is_op (MGen x a []) q (XBin x a) [TPunct s].
  Proof.
    intros H. unfold infix_punctuators in H.
    in_cases H;
      (eexists; split;
       [ first [ eapply O_right; vm_compute; tauto
               | eapply (O_left 2 (snd (nth 1 left_operators (0, [])))); vm_compute; tauto
               | eapply (O_left 3 (snd (nth 2 left_operators (0, [])))); vm_compute; tauto
               | eapply (O_left 4 (snd (nth 3 left_operators (0, [])))); vm_compute; tauto
               | eapply (O_left 5 (snd (nth 4 left_operators (0, [])))); vm_compute; tauto
               | eapply (O_left 6 (snd (nth 5 left_operators (0, [])))); vm_compute; tauto
               | eapply (O_left 7 (snd (nth 6 left_operators (0, [])))); vm_compute; tauto
               | eapply (O_left 8 (snd (nth 7 left_operators (0, [])))); vm_compute; tauto ]
       | split; [reflexivity|]; split; [lia|]; intros l r; cbn [units extract junction_append app];
         rewrite ?app_assoc; reflexivity ]).
  Qed.

  Lemma and_is_op t : t = P "&&" \/ t = K "and" -> is_op (MAnd false []) 9 (XAnd false) [t].
  Proof.
    intros H. split; [|split; [reflexivity|]; split; [lia | reflexivity]].
    destruct H; subst; eapply (O_left 9 (snd (nth 8 left_operators (0, [])))); vm_compute; tauto.
  Qed.

  Lemma or_is_op t : t = P "||" \/ t = K "or" -> is_op (MOr false []) 10 (XOr false) [t].
  Proof.
    intros H. split; [|split; [reflexivity|]; split; [lia | reflexivity]].
    destruct H; subst; eapply (O_left 10 (snd (nth 9 left_operators (0, [])))); vm_compute; tauto.
  Qed.

  Lemma accept_infix_inv ts op r :
    accept_infix px ts = Acc op r ->
    exists q f top, ts = top ++ r /\ is_op op q f top.
  Proof.
    destruct ts as [|t ts]; [discriminate|].
    destruct t as [s|s|s|z|z|s|z]; try discriminate; cbn [accept_infix]; intros H.
    - destruct (beq s (str "?") || beq s (str "?=")) eqn:E1.
      { apply expect_expr_inv in H as (e & pre & r1 & -> & He & H).
        apply expect_inv in H as (r2 & -> & H).
        exists 11, (fun c r => XTern (beq s (str "?=")) c e r), (TPunct s :: pre ++ [P ":"]).
        inversion H; subst.
        split; [cbn [app]; rewrite <- app_assoc; reflexivity|].
        split; [|split; [reflexivity|]; split; [lia | reflexivity]].
        apply orb_prop in E1 as [E | E]; apply beq_eq in E; subst s.
        - exact (O_ternary false e pre He).
        - exact (O_ternary true e pre He). }
      destruct (beq s (str "&&") || beq s (str "&&=")) eqn:E2.
      { inversion H; subst. apply orb_prop in E2 as [E | E]; apply beq_eq in E; subst s.
        - exists 9, (XAnd false), [P "&&"]. split; [reflexivity|]. apply and_is_op; auto.
        - exists 11, (XAnd true), [P "&&="]. split; [reflexivity|].
          split; [apply O_right; vm_compute; tauto|].
          split; [reflexivity|]; split; [lia | reflexivity]. }
      destruct (beq s (str "||") || beq s (str "||=")) eqn:E3.
      { inversion H; subst. apply orb_prop in E3 as [E | E]; apply beq_eq in E; subst s.
        - exists 10, (XOr false), [P "||"]. split; [reflexivity|]. apply or_is_op; auto.
        - exists 11, (XOr true), [P "||="]. split; [reflexivity|].
          split; [apply O_right; vm_compute; tauto|].
          split; [reflexivity|]; split; [lia | reflexivity]. }
      destruct (beq s (str "??") || beq s (str "??=")) eqn:E4.
      { inversion H; subst. apply orb_prop in E4 as [E | E]; apply beq_eq in E; subst s.
        - exists 1, (XCoal false), [P "??"]. split; [reflexivity|].
          split; [eapply (O_left 1 (snd (nth 0 left_operators (0, [])))); vm_compute; tauto|].
          split; [reflexivity|]; split; [lia | reflexivity].
        - exists 11, (XCoal true), [P "??="]. split; [reflexivity|].
          split; [apply O_right; vm_compute; tauto|].
          split; [reflexivity|]; split; [lia | reflexivity]. }
      destruct (lookup s infix_punctuators) as [[x a]|] eqn:E; [|discriminate].
      apply lookup_in in E. apply gen_table in E as (q & Hq).
      inversion H; subst. exists q, (XBin x a), [TPunct s]. auto.
    - destruct (beq s (str "and")) eqn:E1; [apply beq_true in E1; subst|].
      { inversion H; subst. exists 9, (XAnd false), [K "and"]. split; [reflexivity|].
        apply and_is_op; auto. }
      destruct (beq s (str "or")) eqn:E2; [apply beq_true in E2; subst | discriminate].
      inversion H; subst. exists 10, (XOr false), [K "or"]. split; [reflexivity|].
      apply or_is_op; auto.
  Qed.

  Lemma accept_infix_rej ts : accept_infix px ts = Rej -> ~ begins_with infix_tokens ts.
  Proof.
    intros H (t & r & -> & Hin).
    assert (Hq : forall s, accept_infix px (TPunct s :: r) = Rej ->
              beq s (str "?") || beq s (str "?=") = false).
    { clear. intros s H. cbn [accept_infix] in H.
      destruct (beq s (str "?") || beq s (str "?=")) eqn:E; [|reflexivity].
      unfold expect_expr in H. destruct (px r) as [us r1| | |]; try discriminate.
      unfold expect in H. destruct r1 as [|t1 r1]; [discriminate|].
      destruct (is_punct _ t1); discriminate. }
    vm_compute in Hin.
    repeat (destruct Hin as [Hin | Hin]; [subst t; clear - H Hq;
      first [ discriminate H | apply Hq in H; discriminate H ]|]); contradiction.
  Qed.

  (* the operator stack, topmost first; the index is the level of the tree
     held by the topmost element *)
  Inductive stack_inv : Z -> list elem -> list token -> Prop :=
    | S_bottom l e ts : 0 <= l <= 11 -> Gexp l e ts -> stack_inv l [MHead (units e)] ts
    | S_frame l l' op q f top t below toks e ts :
        stack_inv l' (t :: below) toks -> is_op op q f top -> l' <= lhs_level q ->
        below = [] \/ q < tell_precedence t \/ q = 11 /\ tell_precedence t = 11 ->
        0 <= l <= rhs_level q -> Gexp l e ts ->
        stack_inv l (junction_append op (units e) :: t :: below) (toks ++ top ++ ts).

  Lemma Gexp_weaken p p' e ts : p <= p' -> Gexp p e ts -> Gexp p' e ts.
  Proof. intros Hp H. destruct H; [constructor; assumption | econstructor; eauto; lia]. Qed.

  Lemma stack_prec l t t2 below toks :
    stack_inv l (t :: t2 :: below) toks -> 1 <= tell_precedence t <= 11.
  Proof.
    intros H. inversion H; subst. rewrite ja_prec.
    match goal with Ho : is_op _ _ _ _ |- _ => destruct Ho as (_ & -> & ? & _) end. assumption.
  Qed.

  Lemma stack_collapse l g t below toks :
    stack_inv l (g :: t :: below) toks ->
    stack_inv (tell_precedence g) (junction_append t (extract g) :: below) toks.
  Proof.
    intros H. inversion H as [|? l' op q f top ? ? toks' e ts Hin Hop Hl' Hadj Hl He]; subst.
    rewrite ja_prec. destruct Hop as (Hg & Hpq & Hq & Hu). rewrite Hpq.
    inversion Hin as [? e1 ts1 Hl1 He1|? l1 op1 q1 f1 top1 ? ? toks1 e1 ts1 Hin1 Hop1 Hl1 Hadj1 Hl1' He1];
      subst.
    - cbn [junction_append]. rewrite <- Hu. constructor; [lia|].
      econstructor; [eassumption | lia | |].
      + eapply Gexp_weaken; [|eassumption]. assumption.
      + eapply Gexp_weaken; [|eassumption]. lia.
    - rewrite ja_ja, <- Hu. rewrite <- !app_assoc.
      assert (Hq1 : tell_precedence op1 = q1 /\ 1 <= q1 <= 11)
        by (destruct Hop1 as (_ & ? & ? & _); auto).
      rewrite ja_prec in Hadj.
      econstructor; [eassumption | eassumption | assumption | assumption | |].
      + destruct Hadj as [Hadj | Hadj]; [discriminate|].
        unfold rhs_level. destruct (q1 =? 11) eqn:E; lia.
      + econstructor; [eassumption | lia | |].
        * eapply Gexp_weaken; [|eassumption]. assumption.
        * eapply Gexp_weaken; [|eassumption]. lia.
  Qed.

  Lemma collapse_inv np below : forall l t toks t' below',
    stack_inv l (t :: below) toks -> l <= np ->
    collapse np t below = (t', below') ->
    exists l', stack_inv l' (t' :: below') toks /\ l' <= np /\
      (below' = [] \/ np < tell_precedence t').
  Proof.
    induction below as [|b below IH]; intros l t toks t' below' H Hl E; cbn [collapse] in E.
    - inversion E; subst. eauto.
    - destruct (tell_precedence t <=? np) eqn:Ep.
      + eapply IH; [|  | eassumption].
        * apply stack_collapse in H. eassumption.
        * lia.
      + inversion E; subst. exists l. split; [assumption|]. split; [assumption|]. right. lia.
  Qed.

  Lemma collapse_all_inv below : forall l t toks,
    stack_inv l (t :: below) toks ->
    exists e, Gexp 11 e toks /\ extract (collapse_all t below) = units e.
  Proof.
    induction below as [|b below IH]; intros l t toks H; cbn [collapse_all].
    - inversion H; subst. exists e. split; [|reflexivity].
      eapply Gexp_weaken; [|eassumption]. lia.
    - apply stack_collapse in H. eapply IH. eassumption.
  Qed.

  Lemma infix_loop_inv m n : forall l t below toks ts us r,
    stack_inv l (t :: below) toks -> l = 0 -> ~ begins_with postfix_tokens ts ->
    infix_loop px m n t below ts = Acc us r ->
    exists e pre, ts = pre ++ r /\ Gexp 11 e (toks ++ pre) /\ us = units e /\
      ~ begins_with infix_tokens r /\ ~ begins_with postfix_tokens r.
  Proof.
    induction m as [|m IH]; intros l t below toks ts us r Hst Hl Hpf H; [discriminate|].
    cbn [infix_loop] in H.
    destruct (accept_infix px ts) as [op r1| | |] eqn:E; try discriminate.
    - destruct (accept_infix_inv _ _ _ E) as (q & f & top & -> & Hop).
      destruct (accept_element px n r1) as [us1 r2| | |] eqn:E1; try discriminate.
      destruct (accept_element_inv _ _ _ _ E1) as (e & p1 & -> & He & -> & Hr2).
      rewrite ja_prec in H. pose proof Hop as (_ & Hpq & Hq & _). rewrite Hpq in H.
      change precedence_assignment with 11 in H. change (11 - 1) with 10 in H.
      change (if q =? 11 then 10 else q) with (lhs_level q) in H.
      destruct (collapse (lhs_level q) t below) as [t' below'] eqn:Ec.
      subst l.
      assert (Hl0 : 0 <= lhs_level q) by (unfold lhs_level; destruct (q =? 11); lia).
      destruct (collapse_inv _ _ _ _ _ _ _ Hst Hl0 Ec)
        as (l' & Hst' & Hl' & Hadj).
      assert (Hnew : stack_inv 0 (junction_append op (units e) :: t' :: below') (toks ++ top ++ p1)).
      { econstructor; [eassumption | eassumption | assumption | | | constructor; assumption].
        - destruct below' as [|b below']; [left; reflexivity|]. right.
          destruct Hadj as [Hadj | Hadj]; [discriminate|].
          pose proof (stack_prec _ _ _ _ _ Hst').
          unfold lhs_level in Hadj. destruct (q =? 11) eqn:E11; lia.
        - unfold rhs_level. destruct (q =? 11) eqn:E11; lia. }
      destruct (IH _ _ _ _ _ _ _ Hnew eq_refl Hr2 H) as (e2 & p2 & -> & He2 & -> & Hr & Hr').
      exists e2, (top ++ p1 ++ p2). rewrite <- !app_assoc in *. auto.
    - inversion H; subst.
      destruct (collapse_all_inv _ _ _ _ Hst) as (e & He & Hu).
      exists e, []. rewrite app_nil_r. split; [reflexivity|]. split; [assumption|].
      split; [assumption|]. split; [|assumption]. eapply accept_infix_rej; eassumption.
  Qed.

  Lemma expr_body_sound n : sound (expr_body px n).
  Proof.
    intros ts us rest H. unfold expr_body in H.
    destruct (accept_element px n ts) as [us1 r1| | |] eqn:E1; try discriminate.
    destruct (accept_element_inv _ _ _ _ E1) as (e & p1 & -> & He & -> & Hr1).
    assert (Hst : stack_inv 0 [MHead (units e)] p1) by (constructor; [lia | constructor; assumption]).
    destruct (infix_loop_inv _ _ _ _ _ _ _ _ _ Hst eq_refl Hr1 H) as (e2 & p2 & -> & He2 & -> & Hr).
    exists e2, (p1 ++ p2). rewrite <- app_assoc. tauto.
  Qed.

End Sound.

Lemma expr_sound n : sound (expr n).
Proof.
  induction n as [|n IH]; [intros ts us rest H; discriminate|].
  cbn [expr]. apply expr_body_sound. assumption.
Qed.

(* ---- termination ---- *)

Definition shrinks {A} (ts : list token) (x : res A) : Prop :=
  match x with Acc _ r => (length r < length ts)%nat | Fuel => False | _ => True end.

Lemma sound_shrinks px ts us r : sound px -> px ts = Acc us r -> (length r < length ts)%nat.
Proof.
  intros H E. destruct (H _ _ _ E) as (e & pre & -> & He & _).
  destruct (exp_head _ _ _ He) as (t & pre' & -> & _). rewrite app_length. cbn [length]. lia.
Qed.

Lemma expect_total {A} s ts (k : list token -> res A) :
  (forall r, (length r < length ts)%nat -> k r <> Fuel) -> expect s ts k <> Fuel.
Proof.
  intros H. destruct ts as [|t ts]; [discriminate|]. cbn [expect].
  destruct (is_punct s t); [|discriminate]. apply H. cbn [length]. lia.
Qed.

Lemma accept_prefixes_total m : forall ts, (length ts < m)%nat -> accept_prefixes m ts <> Fuel.
Proof.
  induction m as [|m IH]; intros ts H; [lia|]. cbn [accept_prefixes].
  destruct (accept_prefix ts) as [u r| | |] eqn:E; try discriminate.
  destruct (accept_prefix_inv _ _ _ E) as (t & x & -> & _). cbn [length] in H.
  specialize (IH r ltac:(lia)). destruct (accept_prefixes m r); congruence.
Qed.

Section Total.

  Variable px : list token -> res (list unit_).
  Hypothesis Hs : sound px.
  Variable k : nat.
  Hypothesis Ht : forall ts, (length ts < k)%nat -> px ts <> Fuel.

  Lemma expect_expr_total {A} ts (f : list unit_ -> list token -> res A) :
    (length ts < k)%nat ->
    (forall us r, (length r < length ts)%nat -> f us r <> Fuel) -> expect_expr px ts f <> Fuel.
  Proof.
    intros H Hf. unfold expect_expr. specialize (Ht _ H).
    destruct (px ts) as [us r| | |] eqn:E; try congruence.
    apply Hf. eapply sound_shrinks; eassumption.
  Qed.

  Lemma check_total b ts : (length ts < k)%nat -> shrinks ts (expr_and_check px b ts).
  Proof.
    intros H. unfold expr_and_check. specialize (Ht _ H).
    destruct (px ts) as [us r| | |] eqn:E; cbn; auto. eapply sound_shrinks; eassumption.
  Qed.

  Lemma accept_args_total m : forall ts,
    (length ts < k)%nat -> (length ts < m)%nat -> accept_args px m ts <> Fuel.
  Proof.
    induction m as [|m IH]; intros ts Hk Hm; [lia|]. cbn [accept_args].
    destruct (accept_ref ts) as [b ts1] eqn:Er.
    destruct (accept_ref_inv _ _ _ Er) as (ta & -> & _). rewrite app_length in *.
    pose proof (check_total b ts1 ltac:(lia)) as H.
    destruct (expr_and_check px b ts1) as [us r| | |]; cbn [shrinks] in H; try contradiction;
      try discriminate; [|destruct b; discriminate].
    destruct r as [|t r]; [discriminate|]. destruct (is_punct _ t); [|discriminate].
    cbn [length] in *. specialize (IH r ltac:(lia) ltac:(lia)).
    destruct (accept_args px m r); congruence.
  Qed.

  Lemma accept_elements_total m : forall c ts,
    (length ts < k)%nat -> (length ts < m)%nat -> accept_elements px m c ts <> Fuel.
  Proof.
    induction m as [|m IH]; intros c ts Hk Hm; [lia|]. cbn [accept_elements].
    pose proof (check_total false ts Hk) as H.
    destruct (expr_and_check px false ts) as [us r| | |]; cbn [shrinks] in H; try contradiction;
      try discriminate.
    destruct (0xFFFFF <=? c); [discriminate|].
    destruct r as [|t r]; [discriminate|]. destruct (_ || _); [|discriminate].
    cbn [length] in *. specialize (IH (c + 1) r ltac:(lia) ltac:(lia)).
    destruct (accept_elements px m (c + 1) r) as [[]| | |]; congruence.
  Qed.

  Lemma accept_members_total m : forall seen ts,
    (length ts < k)%nat -> (length ts < m)%nat -> accept_members px m seen ts <> Fuel.
  Proof.
    induction m as [|m IH]; intros seen ts Hk Hm; [lia|]. cbn [accept_members].
    destruct (accept_key ts) as [key r0| | |] eqn:Ek; try discriminate.
    destruct (accept_key_inv _ _ _ Ek) as (tk & -> & _).
    destruct (existsb (beq key) seen); [discriminate|].
    destruct r0 as [|t r1]; [discriminate|]. destruct (_ || _); [|discriminate].
    cbn [length] in *. pose proof (check_total false r1 ltac:(lia)) as H.
    destruct (expr_and_check px false r1) as [us r| | |]; cbn [shrinks] in H; try contradiction;
      try discriminate.
    destruct r as [|t2 r]; [discriminate|]. destruct (_ || _); [|discriminate].
    cbn [length] in *. specialize (IH (seen ++ [key]) r ltac:(lia) ltac:(lia)).
    destruct (accept_members px m (seen ++ [key]) r) as [[]| | |]; congruence.
  Qed.

  Ltac tot :=
    repeat (first
      [ apply expect_total; intros ? ?
      | apply expect_expr_total; [lia | intros ? ? ?]
      | discriminate ]).

  Lemma accept_primary_total ts :
    (length ts <= k)%nat -> accept_primary px (S k) ts <> Fuel.
  Proof.
    intros H. destruct ts as [|t ts]; [discriminate|]. cbn [length] in H.
    destruct t as [s|s|s|z|z|s|z]; cbn [accept_primary]; try discriminate.
    - destruct (beq s (str "[")).
      { pose proof (accept_elements_total (S k) 0 ts ltac:(lia) ltac:(lia)) as Hf.
        destruct (accept_elements px (S k) 0 ts) as [[us c] r| | |]; try congruence. tot. }
      destruct (beq s (str "{")).
      { pose proof (accept_members_total (S k) [] ts ltac:(lia) ltac:(lia)) as Hf.
        destruct (accept_members px (S k) [] ts) as [[us c] r| | |]; try congruence. tot. }
      destruct (beq s (str "(")); tot.
    - destruct (beq s (str "extern")); [destruct ts as [|[] ?]; discriminate|].
      destruct (accept_literal (TKw s :: ts)); try discriminate.
      all: destruct (beq s (str "this")); [discriminate|].
      all: destruct (beq s (str "__fma")); [tot|].
      all: destruct (lookup s binary_keywords); [tot|].
      all: destruct (beq s (str "catch")); [tot|].
      all: destruct (beq s (str "__vcall")); [tot|].
      all: destruct (beq s (str "import")); [|discriminate].
      all: apply expect_total; intros r Hr.
      all: pose proof (accept_args_total (S k) r ltac:(lia) ltac:(lia)) as Hf.
      all: destruct (accept_args px (S k) r) as [[|] r'| | |]; try congruence; tot.
    - cbn [accept_literal]. destruct (accept_strings (TStr s :: ts)). discriminate.
  Qed.

  Lemma accept_postfix_total ts :
    (length ts <= k)%nat -> accept_postfix px (S k) ts <> Fuel.
  Proof.
    intros H. destruct ts as [|t ts]; [discriminate|]. cbn [length] in H.
    destruct t as [s|s|s|z|z|s|z]; cbn [accept_postfix]; try discriminate.
    destruct (lookup s postfix_punctuators); [discriminate|].
    destruct (beq s (str "(")).
    { pose proof (accept_args_total (S k) ts ltac:(lia) ltac:(lia)) as Hf.
      destruct (accept_args px (S k) ts); try congruence. tot. }
    destruct (beq s (str "[")); [tot|].
    destruct (beq s (str ".")); [|discriminate].
    destruct (accept_key ts); discriminate.
  Qed.

  Lemma accept_postfix_shrinks n ts us r :
    accept_postfix px n ts = Acc us r -> (length r < length ts)%nat.
  Proof.
    intros H. destruct (accept_postfix_inv _ Hs _ _ _ _ _ _ (Q_prim _ _ (P_int 0)) H)
      as (e & pre & -> & He & _ & Hne).
    destruct pre as [|t pre]; [congruence|]. rewrite app_length. cbn [length]. lia.
  Qed.

  Lemma accept_postfixes_total m : forall ts,
    (length ts <= k)%nat -> (length ts < m)%nat -> accept_postfixes px m (S k) ts <> Fuel.
  Proof.
    induction m as [|m IH]; intros ts Hk Hm; [lia|]. cbn [accept_postfixes].
    pose proof (accept_postfix_total ts Hk) as H.
    destruct (accept_postfix px (S k) ts) as [us r| | |] eqn:E; try congruence; try discriminate.
    apply accept_postfix_shrinks in E. specialize (IH r ltac:(lia) ltac:(lia)).
    destruct (accept_postfixes px m (S k) r); congruence.
  Qed.

  Lemma accept_element_total ts :
    (length ts <= k)%nat -> shrinks ts (accept_element px (S k) ts).
  Proof.
    intros H. destruct (accept_element px (S k) ts) as [us r| | |] eqn:E; cbn [shrinks]; auto.
    - destruct (accept_element_inv _ Hs _ _ _ _ E) as (e & pre & -> & He & _).
      destruct (elem_head _ _ He) as (t & pre' & -> & _). rewrite app_length. cbn [length]. lia.
    - unfold accept_element in E.
      pose proof (accept_prefixes_total (S k) ts ltac:(lia)) as H0.
      destruct (accept_prefixes (S k) ts) as [ps r0| | |] eqn:E0; try congruence; try discriminate.
      destruct (accept_prefixes_inv _ _ _ _ E0) as (p0 & -> & _). rewrite app_length in H.
      pose proof (accept_primary_total r0 ltac:(lia)) as H1.
      destruct (accept_primary px (S k) r0) as [us1 r1| | |] eqn:E1; try congruence;
        [|destruct ps; discriminate].
      destruct (accept_primary_inv _ Hs _ _ _ _ E1) as (e1 & p1 & -> & _).
      rewrite app_length in H.
      pose proof (accept_postfixes_total (S k) r1 ltac:(lia) ltac:(lia)) as H2.
      destruct (accept_postfixes px (S k) (S k) r1); congruence.
  Qed.

  Lemma accept_infix_total ts : (length ts <= k)%nat -> shrinks ts (accept_infix px ts).
  Proof.
    intros H. destruct (accept_infix px ts) as [op r| | |] eqn:E; cbn [shrinks]; auto.
    - destruct (accept_infix_inv _ Hs _ _ _ E) as (q & f & top & -> & Hop & _).
      rewrite app_length. inversion Hop; subst; cbn [length]; lia.
    - revert E. change (accept_infix px ts <> Fuel).
      destruct ts as [|t ts]; [discriminate|]. cbn [length] in H.
      destruct t as [s|s|s|z|z|s|z]; cbn [accept_infix]; try discriminate.
      + destruct (_ || _); [tot|]. destruct (_ || _); [discriminate|].
        destruct (_ || _); [discriminate|]. destruct (_ || _); [discriminate|].
        destruct (lookup s infix_punctuators) as [[]|]; discriminate.
      + destruct (beq s (str "and")); [discriminate|]. destruct (beq s (str "or")); discriminate.
  Qed.

  Lemma infix_loop_total m : forall t below ts,
    (length ts <= k)%nat -> (length ts < m)%nat -> infix_loop px m (S k) t below ts <> Fuel.
  Proof.
    induction m as [|m IH]; intros t below ts Hk Hm; [lia|]. cbn [infix_loop].
    pose proof (accept_infix_total ts Hk) as H.
    destruct (accept_infix px ts) as [op r| | |]; cbn [shrinks] in H; try contradiction;
      try discriminate.
    pose proof (accept_element_total r ltac:(lia)) as H1.
    destruct (accept_element px (S k) r) as [us r1| | |]; cbn [shrinks] in H1; try contradiction;
      try discriminate.
    destruct (collapse _ t below) as [t' below']. apply IH; lia.
  Qed.

  Lemma expr_body_total ts : (length ts <= k)%nat -> expr_body px (S k) ts <> Fuel.
  Proof.
    intros H. unfold expr_body. pose proof (accept_element_total ts H) as H1.
    destruct (accept_element px (S k) ts) as [us r| | |]; cbn [shrinks] in H1; try contradiction;
      try discriminate.
    apply infix_loop_total; lia.
  Qed.

End Total.

Lemma expr_total n : forall ts, (length ts < n)%nat -> expr n ts <> Fuel.
Proof.
  induction n as [|n IH]; intros ts H; [lia|].
  cbn [expr]. apply expr_body_total; [apply expr_sound | assumption | lia].
Qed.

Lemma parse_total ts : parse ts <> Fuel.
Proof. apply expr_total. lia. Qed.

Lemma parse_sound : sound parse.
Proof. intros ts. apply expr_sound. Qed.

(* ---- the theorems ---- *)

Lemma complete_stops e ts rest :
  Gexp 11 e ts ->
  ~ begins_with infix_tokens rest -> ~ begins_with postfix_tokens rest ->
  ~ begins_with_text rest ->
  parse (ts ++ rest) = Acc (units e) rest.
Proof. intros. apply complete; [assumption|]. split; [split|]; assumption. Qed.

Lemma complete_nil e ts : Gexp 11 e ts -> parse ts = Acc (units e) [].
Proof.
  intros H. rewrite <- (app_nil_r ts) at 1.
  apply complete_stops; auto; intros (? & ? & ? & ?) || intros (? & ? & ?); discriminate.
Qed.

Lemma parse_exact ts us :
  parse ts = Acc us [] <-> exists e, Gexp 11 e ts /\ us = units e.
Proof.
  split.
  - intros H. destruct (parse_sound _ _ _ H) as (e & pre & -> & He & -> & _).
    rewrite app_nil_r. eauto.
  - intros (e & He & ->). apply complete_nil. assumption.
Qed.

Lemma unambiguous e1 e2 ts : Gexp 11 e1 ts -> Gexp 11 e2 ts -> units e1 = units e2.
Proof. intros H1 H2. apply complete_nil in H1, H2. congruence. Qed.

Lemma op_level q f t : Gop q f t -> 1 <= q <= 11.
Proof.
  destruct 1 as [q ops t f H _ | |]; try lia. unfold left_operators in H.
  in_cases H; lia.
Qed.

Lemma group_left q1 f t1 q2 g t2 a ta b tb c tc :
  Gop q1 f t1 -> Gop q2 g t2 -> Gelem a ta -> Gelem b tb -> Gelem c tc ->
  q1 < q2 \/ (q1 = q2 /\ q1 <> 11) ->
  parse (ta ++ t1 ++ tb ++ t2 ++ tc) = Acc (units (g (f a b) c)) [].
Proof.
  intros Hf Hg Ha Hb Hc Hq. pose proof (op_level _ _ _ Hf). pose proof (op_level _ _ _ Hg).
  replace (ta ++ t1 ++ tb ++ t2 ++ tc) with ((ta ++ t1 ++ tb) ++ t2 ++ tc)
    by (rewrite <- !app_assoc; reflexivity).
  apply complete_nil. econstructor; [eassumption | lia | | constructor; assumption].
  econstructor; [eassumption | | constructor; assumption | constructor; assumption].
  unfold lhs_level. destruct (q2 =? 11) eqn:E; lia.
Qed.

Lemma group_right q1 f t1 q2 g t2 a ta b tb c tc :
  Gop q1 f t1 -> Gop q2 g t2 -> Gelem a ta -> Gelem b tb -> Gelem c tc ->
  q2 < q1 \/ (q1 = 11 /\ q2 = 11) ->
  parse (ta ++ t1 ++ tb ++ t2 ++ tc) = Acc (units (f a (g b c))) [].
Proof.
  intros Hf Hg Ha Hb Hc Hq. pose proof (op_level _ _ _ Hf). pose proof (op_level _ _ _ Hg).
  apply complete_nil. econstructor; [eassumption | lia | constructor; assumption |].
  econstructor; [eassumption | | constructor; assumption | constructor; assumption].
  unfold rhs_level. destruct (q1 =? 11) eqn:E; lia.
Qed.
