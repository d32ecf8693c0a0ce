(* C39: the parser accepts every expression of the grammar and produces its
   units. *)
From Verif Require Import Base Text ExprModel ExprSpec ExprProofs.

Lemma text_closer s r : ~ begins_with_text (TPunct s :: r).
Proof. intros (x & y & E). discriminate. Qed.

Lemma strings_of l rest :
  ~ begins_with_text rest ->
  accept_strings (map TStr l ++ rest) = (concat l, rest).
Proof.
  intros H. induction l as [|s l IH]; cbn [map app accept_strings concat].
  - destruct rest as [|[] ?]; try reflexivity. exfalso. apply H. eexists _, _. reflexivity.
  - rewrite IH. reflexivity.
Qed.

Lemma expect_ok {A} s r (k : list token -> res A) : expect s (TPunct s :: r) k = k r.
Proof. unfold expect. cbn [is_punct]. replace (beq s s) with true; [reflexivity|].
       symmetry; apply beq_eq; reflexivity. Qed.

Lemma expect_expr_ok {A} n e ts rest (k : list unit_ -> list token -> res A) :
  full_ok e ts -> (length (ts ++ rest) < n)%nat -> stops rest ->
  expect_expr (expr n) (ts ++ rest) k = k (units e) rest.
Proof. intros H Hn Hs. unfold expect_expr. rewrite (H n rest Hn Hs). reflexivity. Qed.

Lemma check_ok n b e ts rest :
  full_ok e ts -> (length (ts ++ rest) < n)%nat -> stops rest ->
  expr_and_check (expr n) b (ts ++ rest) = Acc (value b e) rest.
Proof.
  intros H Hn Hs. unfold expr_and_check. rewrite (H n rest Hn Hs), check_value. reflexivity.
Qed.

Lemma postfixes_stop px m n rest :
  elem_stops rest -> (1 <= m)%nat -> accept_postfixes px m n rest = Acc [] rest.
Proof.
  intros [_ H] Hm. destruct m as [|m]; [lia|]. cbn [accept_postfixes].
  rewrite postfix_rejects by assumption. reflexivity.
Qed.

Lemma key_of t k r : key_token t k -> accept_key (t :: r) = Acc k r.
Proof. destruct 1; reflexivity. Qed.

Lemma not_seen k seen : ~ In k seen -> existsb (beq k) seen = false.
Proof.
  intros H. apply Bool.not_true_iff_false. intros E. apply H. apply existsb_in. assumption.
Qed.

Lemma elem_stops_punct s r :
  existsb (fun t => is_punct s t) postfix_tokens = false -> elem_stops (TPunct s :: r).
Proof.
  intros H1. split; [apply text_closer|].
  intros (t & y & E & Hin). inversion E; subst.
  apply Bool.not_true_iff_false in H1. apply H1. apply existsb_exists.
  exists (TPunct s). split; auto. cbn. apply beq_eq. reflexivity.
Qed.

Lemma elem_stops_kw s r : elem_stops (TKw s :: r).
Proof.
  split.
  - intros (x & y & E). discriminate.
  - intros (t & y & E & Hin). inversion E; subst. vm_compute in Hin.
    repeat (destruct Hin as [Hin | Hin]; [discriminate|]). contradiction.
Qed.

Ltac stop_token :=
  first [apply elem_stops_kw | apply elem_stops_punct; vm_compute; reflexivity].

Lemma left_op_ok q ops t f :
  In (q, ops) left_operators -> In (t, f) ops -> op_ok q f [t].
Proof.
  intros H1 H2. unfold left_operators in H1.
  in_cases H1; in_cases H2;
    (split; [lia|]; split; [intros rest; stop_token|]; split; [cbn; lia|];
     intros n rest _; eexists; split; [reflexivity|]; split; [reflexivity|];
     intros l r; cbn [units extract junction_append app]; rewrite ?app_assoc; reflexivity).
Qed.

Lemma right_op_ok t f : In (t, f) right_operators -> op_ok 11 f [t].
Proof.
  intros H. unfold right_operators in H.
  in_cases H;
    (split; [lia|]; split; [intros rest; stop_token|]; split; [cbn; lia|];
     intros n rest _; eexists; split; [reflexivity|]; split; [reflexivity|];
     intros l r; cbn [units extract junction_append app]; rewrite ?app_assoc; reflexivity).
Qed.

Lemma post_app_ok n e ts tp us' rest :
  post_ok e ts -> (length ((ts ++ tp) ++ rest) < S n)%nat -> (1 <= length tp)%nat ->
  ~ begins_with_text (tp ++ rest) ->
  accept_postfix (expr n) (S n) (tp ++ rest) = Acc us' rest ->
  exists us r l k,
    accept_primary (expr n) (S n) ((ts ++ tp) ++ rest) = Acc us r /\ us ++ l = units e ++ us' /\
    (k <= length (ts ++ tp))%nat /\
    forall m, accept_postfixes (expr n) (k + m) (S n) r
              = prepend l (accept_postfixes (expr n) m (S n) rest).
Proof.
  intros H Hn Htp Ht Hp.
  destruct (H n (tp ++ rest)) as (us & r & l & k & H1 & H2 & H3 & H4).
  { rewrite app_assoc. assumption. }
  { assumption. }
  exists us, r, (l ++ us'), (S k).
  rewrite <- app_assoc. split; [assumption|]. split; [rewrite <- H2, app_assoc; reflexivity|].
  split; [len|]. intros m.
  replace (S k + m)%nat with (k + S m)%nat by lia. rewrite H4.
  cbn [accept_postfixes]. rewrite Hp.
  replace (prepend (l ++ us') (accept_postfixes (expr n) m (S n) rest))
    with (prepend l (prepend us' (accept_postfixes (expr n) m (S n) rest)))
    by apply prepend_prepend.
  f_equal. destruct (accept_postfixes (expr n) m (S n) rest); reflexivity.
Qed.

Lemma beq_refl s : beq s s = true.
Proof. apply beq_eq. reflexivity. Qed.

Theorem grammar_ok :
  (forall e ts, Gprim e ts -> prim_ok e ts) /\
  (forall e ts, Gpost e ts -> post_ok e ts) /\
  (forall e ts, Gelem e ts -> elem_ok e ts) /\
  (forall p e ts, Gexp p e ts -> exp_ok p e ts) /\
  (forall q f ts, Gop q f ts -> op_ok q f ts) /\
  (forall a ts, Gargs a ts -> args_ok a ts) /\
  (forall l ts, Gelems l ts -> elems_ok l ts) /\
  (forall l ts, Gmembers l ts -> members_ok l ts).
Proof.
  apply G_mutual.
  (* primary expressions *)
  - intros s n rest Hn Ht. reflexivity.
  - intros s n rest Hn Ht. reflexivity.
  - intros s n rest Hn Ht. reflexivity.
  - intros n rest Hn Ht. reflexivity.
  - intros b n rest Hn Ht. destruct b; reflexivity.
  - intros z n rest Hn Ht. reflexivity.
  - intros z n rest Hn Ht. reflexivity.
  - intros s l n rest Hn Ht.
    pose proof (strings_of (s :: l) rest Ht) as E. cbn [map app] in *.
    cbn [accept_primary accept_literal]. rewrite E. reflexivity.
  - intros n rest Hn Ht. reflexivity.
  - intros es ts _ IH Hes n rest Hn Ht.
    cbn [app accept_primary]. change (beq (str "[") (str "[")) with true. cbv iota.
    rewrite <- app_assoc. cbn [app].
    unfold P at 1. cbn [app accept_primary]. change (beq (str "[") (str "[")) with true. cbv iota.
    rewrite IH by len. rewrite Z.add_0_l.
    change (P "]" :: rest) with (TPunct (str "]") :: rest). rewrite expect_ok. reflexivity.
  - intros kvs ts _ IH Hnd n rest Hn Ht.
    rewrite <- app_comm_cons, <- app_assoc. cbn [app].
    unfold P at 1. cbn [app accept_primary].
    change (beq (str "{") (str "[")) with false. change (beq (str "{") (str "{")) with true. cbv iota.
    rewrite IH by (try len; assumption).
    change (P "}" :: rest) with (TPunct (str "}") :: rest). rewrite expect_ok. reflexivity.
  - intros e ts _ IH n rest Hn Ht.
    rewrite <- app_comm_cons, <- app_assoc. cbn [app].
    unfold P at 1. cbn [app accept_primary].
    change (beq (str "(") (str "[")) with false. change (beq (str "(") (str "{")) with false.
    change (beq (str "(") (str "(")) with true. cbv iota.
    rewrite (expect_expr_ok n e ts); [|apply full_of; assumption | len | closer].
    change (P ")" :: rest) with (TPunct (str ")") :: rest). rewrite expect_ok. reflexivity.
  - intros a b c ta tb tc _ IHa _ IHb _ IHc n rest Hn Ht.
    cbn [app]. rewrite <- !app_assoc. cbn [app]. rewrite <- !app_assoc. cbn [app].
    rewrite <- !app_assoc. cbn [app].
    unfold K. cbn [accept_primary]. change (beq (str "__fma") (str "extern")) with false.
    change (accept_literal (TKw (str "__fma") :: ?r)) with (@Rej lit).
    change (beq (str "__fma") (str "this")) with false.
    change (beq (str "__fma") (str "__fma")) with true. cbv iota.
    change (P "(" :: ?r) with (TPunct (str "(") :: r). rewrite expect_ok.
    rewrite (expect_expr_ok n a ta); [|apply full_of; assumption | len | closer].
    change (P "," :: ?r) with (TPunct (str ",") :: r). rewrite expect_ok.
    rewrite (expect_expr_ok n b tb); [|apply full_of; assumption | len | closer].
    rewrite expect_ok.
    rewrite (expect_expr_ok n c tc); [|apply full_of; assumption | len | closer].
    change (P ")" :: rest) with (TPunct (str ")") :: rest). rewrite expect_ok. reflexivity.
  - intros t x a b ta tb Hin _ IHa _ IHb n rest Hn Ht.
    cbn [app]. rewrite <- !app_assoc. cbn [app]. rewrite <- !app_assoc. cbn [app].
    assert (E : forall r, accept_primary (expr n) (S n) (t :: r) =
      expect (str "(") r (fun r0 =>
      expect_expr (expr n) r0 (fun a r1 =>
      expect (str ",") r1 (fun r2 =>
      expect_expr (expr n) r2 (fun b r3 =>
      expect (str ")") r3 (fun r4 =>
      Acc (a ++ b ++ [UOp x false]) r4)))))).
    { unfold pair_operators in Hin. in_cases Hin; reflexivity. }
    rewrite E. change (P "(" :: ?r) with (TPunct (str "(") :: r). rewrite expect_ok.
    rewrite (expect_expr_ok n a ta); [|apply full_of; assumption | len | closer].
    change (P "," :: ?r) with (TPunct (str ",") :: r). rewrite expect_ok.
    rewrite (expect_expr_ok n b tb); [|apply full_of; assumption | len | closer].
    change (P ")" :: rest) with (TPunct (str ")") :: rest). rewrite expect_ok. reflexivity.
  - intros e ts _ IH n rest Hn Ht.
    cbn [app]. rewrite <- !app_assoc. cbn [app].
    assert (E : forall r, accept_primary (expr n) (S n) (K "catch" :: r) =
      expect (str "(") r (fun r0 =>
      expect_expr (expr n) r0 (fun a r1 =>
      expect (str ")") r1 (fun r2 => Acc [UCatch a] r2)))) by reflexivity.
    rewrite E. change (P "(" :: ?r) with (TPunct (str "(") :: r). rewrite expect_ok.
    rewrite (expect_expr_ok n e ts); [|apply full_of; assumption | len | closer].
    change (P ")" :: rest) with (TPunct (str ")") :: rest). rewrite expect_ok. reflexivity.
  - intros a b ta tb _ IHa _ IHb n rest Hn Ht.
    cbn [app]. rewrite <- !app_assoc. cbn [app]. rewrite <- !app_assoc. cbn [app].
    assert (E : forall r, accept_primary (expr n) (S n) (K "__vcall" :: r) =
      expect (str "(") r (fun r0 =>
      expect_expr (expr n) r0 (fun a r1 =>
      expect (str ",") r1 (fun r2 =>
      expect_expr (expr n) r2 (fun b r3 =>
      expect (str ")") r3 (fun r4 => Acc [UVcall [a; b]] r4)))))) by reflexivity.
    rewrite E. change (P "(" :: ?r) with (TPunct (str "(") :: r). rewrite expect_ok.
    rewrite (expect_expr_ok n a ta); [|apply full_of; assumption | len | closer].
    change (P "," :: ?r) with (TPunct (str ",") :: r). rewrite expect_ok.
    rewrite (expect_expr_ok n b tb); [|apply full_of; assumption | len | closer].
    change (P ")" :: rest) with (TPunct (str ")") :: rest). rewrite expect_ok. reflexivity.
  - intros args ts _ IH Hne n rest Hn Ht.
    cbn [app]. rewrite <- !app_assoc. cbn [app].
    assert (E : forall r, accept_primary (expr n) (S n) (K "import" :: r) =
      expect (str "(") r (fun r0 =>
      match accept_args (expr n) (S n) r0 with
      | Acc [] _ => Err
      | Acc args r1 => expect (str ")") r1 (fun r2 => Acc [UImport args] r2)
      | Rej => Err
      | Err => Err
      | Fuel => Fuel
      end)) by reflexivity.
    rewrite E. change (P "(" :: ?r) with (TPunct (str "(") :: r). rewrite expect_ok.
    rewrite IH by len.
    change (P ")" :: rest) with (TPunct (str ")") :: rest).
    destruct args as [|a args]; [congruence|]. cbn [map]. rewrite expect_ok. reflexivity.
  (* with postfix operators *)
  - intros e ts _ IH n rest Hn Ht.
    exists (units e), rest, [], O. split; [apply IH; assumption|].
    split; [apply app_nil_r|]. split; [lia|]. intros m. cbn [Nat.add].
    destruct (accept_postfixes _ m _ rest); reflexivity.
  - intros t x e ts Hin _ IH n rest Hn Ht.
    apply post_app_ok; auto; try (cbn; lia).
    + unfold postfix_operators in Hin. in_cases Hin; apply text_closer.
    + unfold postfix_operators in Hin. in_cases Hin; reflexivity.
  - intros f args ts ta _ IHf _ IHa n rest Hn Ht.
    cbn [units].
    apply post_app_ok; auto; try (cbn; lia).
    + apply text_closer.
    + cbn [app]. rewrite <- app_assoc. cbn [app].
      change (accept_postfix (expr n) (S n) (P "(" :: ta ++ P ")" :: rest)) with
        (match accept_args (expr n) (S n) (ta ++ P ")" :: rest) with
         | Acc args r1 => expect (str ")") r1 (fun r2 => Acc [UCall args] r2)
         | Rej => Err
         | Err => Err
         | Fuel => Fuel
         end).
      rewrite IHa by len.
      change (P ")" :: rest) with (TPunct (str ")") :: rest). rewrite expect_ok. reflexivity.
  - intros e i ts ti _ IHe _ IHi n rest Hn Ht.
    cbn [units].
    apply post_app_ok; auto; try (cbn; lia).
    + apply text_closer.
    + cbn [app]. rewrite <- app_assoc. cbn [app].
      change (accept_postfix (expr n) (S n) (P "[" :: ti ++ P "]" :: rest)) with
        (expect_expr (expr n) (ti ++ P "]" :: rest) (fun us r1 =>
         expect (str "]") r1 (fun r2 => Acc (us ++ [UOp xop_index false]) r2))).
      rewrite (expect_expr_ok n i ti); [|apply full_of; assumption | len | closer].
      change (P "]" :: rest) with (TPunct (str "]") :: rest). rewrite expect_ok. reflexivity.
  - intros e t key ts _ IHe Hk n rest Hn Ht.
    cbn [units].
    apply post_app_ok; auto; try (cbn; lia).
    + apply text_closer.
    + cbn [app].
      change (accept_postfix (expr n) (S n) (P "." :: t :: rest)) with
        (match accept_key (t :: rest) with
         | Acc key r1 => Acc [ULit (LStr key); UOp xop_index false] r1
         | _ => Err
         end).
      rewrite (key_of t key) by assumption. reflexivity.
  (* with prefix operators *)
  - intros e ts Hp IH n m rest Hn Hm Hs.
    destruct (IH n rest Hn (proj1 Hs)) as (us & r & l & k & H1 & H2 & H3 & H4).
    exists [], (ts ++ rest), us, r, l.
    destruct (post_head _ _ Hp) as (t & r0 & -> & Hst).
    destruct m as [|m]; [lia|].
    cbn [app accept_prefixes]. rewrite pstart_prefix by assumption.
    split; [reflexivity|]. split; [assumption|]. split.
    + specialize (H4 (S n - k)%nat).
      assert (k <= n)%nat by (clear - H3 Hn; len).
      replace (k + (S n - k))%nat with (S n) in H4 by lia.
      rewrite H4, postfixes_stop by (auto; lia). cbn. rewrite app_nil_r. reflexivity.
    + cbn [rev]. rewrite app_nil_r. assumption.
  - intros t x e ts Hin _ IH n m rest Hn Hm Hs.
    destruct m as [|m]; [lia|].
    destruct (IH n m rest) as (ps & r & us & r1 & l & H1 & H2 & H3 & H4); [len | len | assumption|].
    exists (UOp x false :: ps), r, us, r1, l.
    assert (E : accept_prefix (t :: ts ++ rest) = Acc (UOp x false) (ts ++ rest)).
    { unfold prefix_operators in Hin. clear - Hin. in_cases Hin; reflexivity. }
    cbn [app accept_prefixes]. rewrite E, H1.
    split; [reflexivity|]. split; [assumption|]. split; [assumption|].
    cbn [rev units]. rewrite <- H4, <- !app_assoc. reflexivity.
  (* with infix operators *)
  - intros p e ts He IH Hp n rest Hn Hs.
    exists (units e), rest. split; [apply element_of; assumption|].
    intros top below _. exists (units e), [], O.
    split; [|split; [constructor | split; [reflexivity | reflexivity]]].
    destruct (elem_head _ _ He) as (t & r0 & -> & _). cbn. lia.
  - intros p q f top l r tl tr _ IHo Hqp _ IHl _ IHr Hp n rest Hn Hs.
    destruct IHo as (Hq & Hts & Htop & IHo).
    assert (Hlhs : lhs_level q <= 11 /\ lhs_level q <= p /\ lhs_level q <= 10
                   /\ lhs_level q <= q) by (unfold lhs_level; destruct (q =? 11) eqn:E; lia).
    assert (Hrhs : rhs_level q <= 11 /\ rhs_level q <= p /\ (rhs_level q < q \/ q = 11))
      by (unfold rhs_level; destruct (q =? 11) eqn:E; lia).
    assert (El : (tl ++ top ++ tr) ++ rest = tl ++ top ++ (tr ++ rest))
      by (rewrite <- !app_assoc; reflexivity).
    rewrite El in *.
    destruct (IHl ltac:(lia) n (top ++ tr ++ rest)) as (us & r0 & H1 & H2); [assumption | auto|].
    exists us, r0. split; [assumption|]. intros te below Hbelow.
    destruct (H2 te below) as (j & gs & k & Hk & Hgs & Hsq & Hrun).
    { destruct Hbelow as [H | H]; [left; assumption | right; lia]. }
    destruct (IHo n (tr ++ rest)) as (op & Hop & Hpq & Hunits); [len|].
    destruct (IHr ltac:(lia) n rest) as (us' & r0' & H1' & H2'); [len | assumption|].
    destruct (H2' op (junction_append te (units l) :: below)) as (j' & gs' & k' & Hk' & Hgs' & Hsq' & Hrun').
    { right. lia. }
    exists (units l), (junction_append op j' :: gs'), (k + S k')%nat.
    split; [len|]. split; [|split].
    + constructor; [rewrite ja_prec; lia|].
      eapply Forall_impl; [|eassumption]. cbn. intros. lia.
    + cbn [squash]. rewrite Hsq', ja_ja, Hunits. reflexivity.
    + intros m. rewrite <- Nat.add_assoc. rewrite Hrun. cbn [Nat.add].
      rewrite (loop_st_step _ _ _ _ _ op (tr ++ rest) us' r0');
        [|apply rev_app_cons | assumption | assumption].
      rewrite Hpq. replace (if q =? 11 then 10 else q) with (lhs_level q) by reflexivity.
      rewrite collapse_rev by assumption. rewrite Hsq.
      replace (collapse_st (lhs_level q) (junction_append te (units l) :: below))
        with (junction_append te (units l) :: below).
      2:{ unfold collapse_st, split_stack. destruct below as [|b below]; [reflexivity|].
          cbn [collapse]. rewrite ja_prec.
          replace (tell_precedence te <=? lhs_level q) with false; [reflexivity|].
          destruct Hbelow as [H | H]; [discriminate | lia]. }
      rewrite Hrun'. cbn [rev]. rewrite <- app_assoc. reflexivity.
  (* operators *)
  - intros q ops t f H1 H2. eapply left_op_ok; eassumption.
  - intros t f H. apply right_op_ok; assumption.
  - intros a e ts _ IH. split; [lia|]. split; [|split].
    + intros rest. destruct a; stop_token.
    + cbn. lia.
    + intros n rest Hn. exists (MTern a (units e) []).
      split; [|split; [reflexivity | reflexivity]].
      cbn [app] in *. rewrite <- app_assoc in *. cbn [app] in *.
      assert (E : forall r, accept_infix (expr n) ((if a then P "?=" else P "?") :: r) =
        expect_expr (expr n) r (fun bt r1 =>
        expect (str ":") r1 (fun r2 => Acc (MTern a bt []) r2))) by (destruct a; reflexivity).
      rewrite E.
      rewrite (expect_expr_ok n e ts); [|apply full_of; assumption | len | closer].
      change (P ":" :: rest) with (TPunct (str ":") :: rest). rewrite expect_ok. reflexivity.
  (* arguments *)
  - intros n m rest Hn Hm. destruct m as [|m]; [lia|]. destruct n as [|n]; [cbn in Hn; lia|].
    reflexivity.
  - intros b e ta ts Href He IH n m rest Hn Hm. destruct m as [|m]; [lia|].
    assert (Er : accept_ref (ta ++ ts ++ P ")" :: rest) = (b, ts ++ P ")" :: rest)).
    { destruct (exp_head _ _ _ He) as (t & r & -> & Hst).
      destruct Href as [|t' Ht']; cbn [app].
      - apply start_ref. assumption.
      - destruct Ht' as [-> | ->]; reflexivity. }
    rewrite <- app_assoc in *. cbn [accept_args]. rewrite Er.
    rewrite (check_ok n b e ts); [|apply full_of; assumption | len | closer].
    reflexivity.
  - intros b e ta ts l tl Href He IH _ IHl n m rest Hn Hm. destruct m as [|m]; [lia|].
    assert (Er : forall r, accept_ref (ta ++ ts ++ r) = (b, ts ++ r)).
    { intros r. destruct (exp_head _ _ _ He) as (t & r' & -> & Hst).
      destruct Href as [|t' Ht']; cbn [app].
      - apply start_ref. assumption.
      - destruct Ht' as [-> | ->]; reflexivity. }
    rewrite <- !app_assoc in *. cbn [app] in *. cbn [accept_args]. rewrite Er.
    rewrite (check_ok n b e ts); [|apply full_of; assumption | len | closer].
    change (is_punct (str ",") (P ",")) with true. cbv iota.
    rewrite IHl by len. reflexivity.
  (* elements *)
  - intros n m c rest Hn Hm Hc. destruct m as [|m]; [lia|]. destruct n as [|n]; [cbn in Hn; lia|].
    cbn [accept_elements app length flat_map]. replace (c + Z.of_nat 0) with c by lia. reflexivity.
  - intros e ts _ IH n m c rest Hn Hm Hc. destruct m as [|m]; [lia|].
    cbn [accept_elements].
    rewrite (check_ok n false e ts); [|apply full_of; assumption | len | closer].
    cbn [length] in *. replace (0xFFFFF <=? c) with false by lia.
    change (is_punct (str ",") (P "]") || is_punct (str ";") (P "]")) with false. cbv iota.
    cbn [flat_map]. rewrite app_nil_r. reflexivity.
  - intros e t ts l tl _ IH Hsep _ IHl n m c rest Hn Hm Hc. destruct m as [|m]; [lia|].
    rewrite <- app_assoc in *. cbn [app accept_elements] in *.
    rewrite (check_ok n false e ts);
      [|apply full_of; assumption | len | destruct Hsep as [-> | ->]; closer].
    cbn [length] in *. replace (0xFFFFF <=? c) with false by lia.
    replace (is_punct (str ",") t || is_punct (str ";") t) with true
      by (destruct Hsep as [-> | ->]; reflexivity).
    rewrite IHl by len. cbn [flat_map]. do 2 f_equal. lia.
  (* members *)
  - intros n m seen rest Hn Hm Hnd. destruct m as [|m]; [lia|].
    cbn [accept_members app accept_key map flat_map]. rewrite app_nil_r. reflexivity.
  - intros k tk ti e ts Hk Hti _ IH n m seen rest Hn Hm Hnd. destruct m as [|m]; [lia|].
    cbn [app accept_members]. rewrite (key_of tk k) by assumption.
    cbn [map fst] in Hnd. rewrite not_seen by (intros Hin; eapply NoDup_remove_2; [eassumption|];
      apply in_or_app; auto).
    replace (is_punct (str "=") ti || is_punct (str ":") ti) with true
      by (destruct Hti as [-> | ->]; reflexivity).
    rewrite (check_ok n false e ts); [|apply full_of; assumption | len | closer].
    cbn [flat_map map fst snd]. rewrite app_nil_r. reflexivity.
  - intros k tk ti e t ts l tl Hk Hti _ IH Hsep _ IHl n m seen rest Hn Hm Hnd.
    destruct m as [|m]; [lia|].
    cbn [app accept_members]. rewrite (key_of tk k) by assumption.
    cbn [map fst] in Hnd. rewrite not_seen by (intros Hin; eapply NoDup_remove_2; [eassumption|];
      apply in_or_app; auto).
    replace (is_punct (str "=") ti || is_punct (str ":") ti) with true
      by (destruct Hti as [-> | ->]; reflexivity).
    rewrite <- app_assoc in *. cbn [app] in *.
    rewrite (check_ok n false e ts);
      [|apply full_of; assumption | len | destruct Hsep as [-> | ->]; closer].
    replace (is_punct (str ",") t || is_punct (str ";") t) with true
      by (destruct Hsep as [-> | ->]; reflexivity).
    rewrite IHl; [|len | len | rewrite <- app_assoc; exact Hnd].
    cbn [flat_map map fst snd]. rewrite <- app_assoc. reflexivity.
Qed.

Lemma complete e ts rest :
  Gexp 11 e ts -> stops rest -> parse (ts ++ rest) = Acc (units e) rest.
Proof.
  intros H Hs. unfold parse. apply full_of; auto. apply grammar_ok. assumption.
Qed.
