From Verif Require Import Base Lists CsvModel CsvSpec CsvProofs CsvProofs2.

(* ---- rows ---- *)
Definition seen (s : bytes) : bytes := if needs_quotes s then lossy false s else s.
Definition seen_row (r : list bytes) : list bytes := match r with [[]] => [] | _ => map seen r end.
Fixpoint after_row (r : list bytes) : bool :=
  match r with
  | [] => true
  | [s] => negb (needs_quotes s)
  | _ :: r => after_row r
  end.
Definition allowed_after (qa : bool) (r : list bytes) : bool :=
  match r with [] | [[]] => qa | _ => after_row r end.

Definition text (r : list bytes) : bytes := print_cells true (map Str r).
Lemma text_one : forall s, text [s] = print_cell (Str s).
Proof. intros s. unfold text. simpl. rewrite app_nil_r. reflexivity. Qed.
Lemma text_cons : forall s s2 r, text (s :: s2 :: r) = print_cell (Str s) ++ comma :: text (s2 :: r).
Proof. intros s s2 r. unfold text. simpl. reflexivity. Qed.

Lemma print_plain : forall s, plain s -> print_cell (Str s) = s.
Proof.
  intros s H. simpl. destruct (needs_quotes s) eqn:E; [|reflexivity].
  apply needs_quotes_spec in E. apply not_special in H. contradiction.
Qed.
Lemma print_special : forall s, special s -> print_cell (Str s) = quote :: doubled s ++ [quote].
Proof. intros s H. simpl. apply needs_quotes_spec in H. rewrite H. reflexivity. Qed.
Lemma seen_plain : forall s, plain s -> seen s = s.
Proof.
  intros s H. unfold seen. destruct (needs_quotes s) eqn:E; [|reflexivity].
  apply needs_quotes_spec in E. apply not_special in H. contradiction.
Qed.
Lemma seen_special : forall s, special s -> seen s = lossy false s.
Proof. intros s H. unfold seen. apply needs_quotes_spec in H. rewrite H. reflexivity. Qed.
Lemma plain_nil : plain [].
Proof. repeat split; simpl; tauto. Qed.

(* a quoted cell *)
Lemma cont_quoted : forall n R cs s t, 1 <= n -> special s -> In lf t -> (forall t', t <> quote :: t') ->
  exists n', n <= n' /\
  cont n (mid R cs [] true 0) (print_cell (Str s) ++ t) = cont n' (mid R cs (seen s) false 0) t.
Proof.
  intros n R cs s t Hn Hs H1 H2. rewrite print_special by assumption. rewrite seen_special by assumption.
  cbn [app]. rewrite cont_open. rewrite <- app_assoc. cbn [app].
  destruct (cont_inside (S (length s)) s [] n R cs [] n t ltac:(lia) Hn ltac:(lia) ltac:(simpl; tauto) ltac:(simpl; tauto)
    ltac:(intros p s' H; destruct p; discriminate) H1 H2) as [n' [Hn' Heq]].
  exists n'. split; [assumption|]. cbn [app nonempty] in Heq. exact Heq.
Qed.

Lemma cells : forall r s n R cs t, 1 <= n ->
  exists n' p', 1 <= n' /\
  cont n (mid R cs [] true 0) (text (s :: r) ++ cr :: lf :: t)
  = top n' (mk_st (R ++ [cs ++ map seen (s :: r)]) p' (after_row (s :: r)) 0) t.
Proof.
  induction r as [|s2 r IH]; intros s n R cs t Hn.
  - rewrite text_one. destruct (special_dec s) as [Hs|Hs].
    + destruct (cont_quoted n R cs s (cr :: lf :: t) Hn Hs ltac:(simpl; auto) ltac:(discriminate)) as [n' [Hn' ->]].
      rewrite cont_end. exists n', (Some (length R, length cs)). split; [lia|]. unfold mid. simpl.
      apply needs_quotes_spec in Hs. rewrite Hs. reflexivity.
    + rewrite print_plain by assumption. exists n, (Some (length R, length cs)). split; [assumption|].
      simpl map. rewrite seen_plain by assumption. simpl after_row.
      replace (needs_quotes s) with false
        by (symmetry; destruct (needs_quotes s) eqn:E; [apply needs_quotes_spec in E; apply not_special in Hs; contradiction|reflexivity]).
      destruct s as [|c s'] eqn:E; [simpl app at 1; rewrite cont_end; reflexivity|]. rewrite <- E in *.
      rewrite cont_plain_end; [reflexivity|assumption|rewrite E; discriminate].
  - rewrite text_cons. rewrite <- app_assoc. cbn [app]. destruct (special_dec s) as [Hs|Hs].
    + destruct (cont_quoted n R cs s (comma :: text (s2 :: r) ++ cr :: lf :: t) Hn Hs
        ltac:(right; rewrite in_app_iff; simpl; auto) ltac:(discriminate)) as [n1 [Hn1 ->]].
      pose proof (cont_plain_comma n1 R cs (seen s) false [] (text (s2 :: r) ++ cr :: lf :: t) plain_nil) as Hc.
      cbn [app] in Hc. rewrite app_nil_r in Hc. rewrite Hc.
      destruct (IH s2 n1 R (cs ++ [seen s]) t ltac:(lia)) as [n' [p' [Hn' Heq]]].
      exists n', p'. split; [assumption|]. etransitivity; [exact Heq|]. rewrite <- app_assoc. reflexivity.
    + rewrite print_plain by assumption. rewrite cont_plain_comma by assumption.
      destruct (IH s2 n R (cs ++ [[] ++ s]) t Hn) as [n' [p' [Hn' Heq]]].
      exists n', p'. split; [assumption|]. etransitivity; [exact Heq|]. rewrite <- app_assoc. simpl app. simpl map. rewrite (seen_plain s) by assumption.
      reflexivity.
Qed.

Lemma row_step : forall n R p qa r t, 1 <= n -> (qa = false -> ~ starts_special r) ->
  exists n' p', 1 <= n' /\
  cont n (fresh R p qa) (text r ++ cr :: lf :: t)
  = top n' (mk_st (R ++ [seen_row r]) p' (allowed_after qa r) 0) t.
Proof.
  intros n R p qa r t Hn Hqa. destruct r as [|s r].
  - cbn [text map print_cells app]. exists n, p. split; [assumption|]. rewrite cont_end. reflexivity.
  - destruct (special_dec s) as [Hs|Hs].
    + assert (Eq : qa = true).
      { destruct qa; [reflexivity|]. exfalso. apply (Hqa eq_refl). exists s, r. auto. }
      subst qa. assert (Hne : s <> []) by (intros ->; destruct Hs as [[]|[[]|[]]]).
      assert (Hh : text (s :: r) = quote :: (doubled s ++ [quote]) ++ print_cells false (map Str r)).
      { unfold text. cbn [map print_cells]. rewrite print_special by assumption. reflexivity. }
      destruct (cells r s n R [] t Hn) as [n' [p' [Hn' Heq]]]. exists n', p'. split; [assumption|].
      rewrite Hh in *. cbn [app] in *. rewrite cont_fresh by discriminate. rewrite Heq.
      destruct s as [|c s]; [congruence|]. reflexivity.
    + destruct r as [|s2 r].
      * rewrite text_one, print_plain by assumption. destruct s as [|c s].
        -- cbn [app]. rewrite cont_end. exists n, p. split; [assumption|]. reflexivity.
        -- destruct (Z.eq_dec c cr) as [->|Hc].
           ++ exists n, (Some (length R, O)). split; [assumption|].
              assert (Hx : cont n (fresh R p qa) ((cr :: s) ++ cr :: lf :: t) = cont n (mid R [] [] qa 0) ((cr :: s) ++ cr :: lf :: t)).
              { unfold cont. destruct Hs as [_ [H2 _]]. rewrite cut_end by assumption. cbn [fst snd]. rewrite strip_cr_end.
                rewrite scan_fresh by discriminate. reflexivity. }
              rewrite Hx. rewrite cont_plain_end; [|assumption|discriminate].
              cbn [seen_row map]. rewrite seen_plain by assumption. cbn [allowed_after after_row].
              replace (needs_quotes (cr :: s)) with false; [reflexivity|].
              symmetry. destruct (needs_quotes (cr :: s)) eqn:E; [|reflexivity]. apply needs_quotes_spec in E.
              apply not_special in Hs. contradiction.
           ++ exists n, (Some (length R, O)). split; [assumption|]. cbn [app].
              rewrite cont_fresh; [|intros ->; destruct Hs as [_ [Hs _]]; apply Hs; left; reflexivity|assumption].
              change (c :: s ++ cr :: lf :: t) with ((c :: s) ++ cr :: lf :: t).
              rewrite (cont_plain_end n R [] [] qa (c :: s)); [|assumption|discriminate].
              cbn [seen_row map]. rewrite seen_plain by assumption. cbn [allowed_after after_row].
              replace (needs_quotes (c :: s)) with false; [reflexivity|].
              symmetry. destruct (needs_quotes (c :: s)) eqn:E; [|reflexivity]. apply needs_quotes_spec in E.
              apply not_special in Hs. contradiction.
      * rewrite text_cons, print_plain by assumption. rewrite <- app_assoc. cbn [app].
        assert (Hx : forall u, cont n (fresh R p qa) (s ++ comma :: u) = cont n (mid R [] [] qa 0) (s ++ comma :: u)).
        { intros u. destruct Hs as [_ [H2 _]]. unfold cont. rewrite cut_app by assumption.
          rewrite cut_cons by discriminate. cbn [fst snd]. rewrite strip_cr_app by discriminate.
          rewrite scan_fresh; [reflexivity|]. destruct s; discriminate. }
        rewrite Hx. rewrite cont_plain_comma by assumption.
        destruct (cells r s2 n R ([] ++ [[] ++ s]) t Hn) as [n' [p' [Hn' Heq]]].
        exists n', p'. split; [assumption|]. etransitivity; [exact Heq|]. cbn [app].
        assert (Hsr : seen_row (s :: s2 :: r) = s :: map seen (s2 :: r)).
        { transitivity (map seen (s :: s2 :: r)); [destruct s; reflexivity|]. cbn [map].
          rewrite (seen_plain s) by assumption. reflexivity. }
        rewrite Hsr. destruct s; reflexivity.
Qed.

(* ---- what has been read stays ---- *)
Definition extends (R : list (list bytes)) (a : st) : Prop :=
  (exists Q cs x qa q, a = mid (R ++ Q) cs x qa q) \/ (exists Q p qa, a = fresh (R ++ Q) p qa).
Lemma scan_mid : forall n k R cs x qa q rest, (length rest < n)%nat ->
  exists cs' x' qa' q', scan n k (mid R cs x qa q) rest = Run (mid R (cs ++ cs') x' qa' q').
Proof.
  induction n as [|n IH]; intros k R cs x qa q rest Hn; [lia|]. destruct rest as [|c tl].
  { exists [], x, qa, q. rewrite app_nil_r. reflexivity. }
  cbn [scan]. cbn [quote_at_line mid]. fold (mid R cs x qa q). destruct (q =? 0) eqn:Eq.
  - rewrite last_row_mid, row_mid. cbn [bind_st quote_allowed mid]. fold (mid R cs x qa q).
    destruct (qa && (c =? quote)).
    { change (at_line (mid R cs x qa q) k) with (mid R cs x qa k). apply IH. simpl in Hn. lia. }
    destruct (find_char comma (c :: tl)) as [e|] eqn:Ef.
    + rewrite append_mid. cbn [bind_st]. change (allow (mid R cs (x ++ firstn e (c :: tl)) qa q) true)
        with (mid R cs (x ++ firstn e (c :: tl)) true q). rewrite new_cell_mid. cbn [bind_st].
      destruct (IH k R (cs ++ [x ++ firstn e (c :: tl)]) [] true q (skipn (e + 1) (c :: tl))) as [cs' [x' [qa' [q' Hb]]]].
      { rewrite skipn_length. cbn [length] in *. lia. }
      eexists _, x', qa', q'. etransitivity; [exact Hb|]. rewrite <- app_assoc. reflexivity.
    + rewrite append_mid. cbn [bind_st]. exists [], (x ++ c :: tl), true, q. rewrite app_nil_r. reflexivity.
  - destruct (find_char quote (c :: tl)) as [e|] eqn:Ef.
    + destruct (nth (e + 1) (c :: tl) 0 =? quote); rewrite append_mid; cbn [bind_st].
      * apply IH. rewrite skipn_length. cbn [length] in *. lia.
      * change (at_line (allow (mid R cs (x ++ firstn e (c :: tl)) qa q) false) 0)
          with (mid R cs (x ++ firstn e (c :: tl)) false 0). apply IH. rewrite skipn_length. cbn [length] in *. lia.
    + rewrite append_mid. cbn [bind_st]. rewrite append_mid. cbn [bind_st]. exists [], ((x ++ c :: tl) ++ [lf]), qa, q.
      rewrite app_nil_r. reflexivity.
Qed.
Lemma scan_extends : forall n k R a rest, (length rest < n)%nat -> extends R a ->
  exists b, scan n k a rest = Run b /\ extends R b.
Proof.
  intros n k R a rest Hn [[Q [cs [x [qa [q ->]]]]]|[Q [p [qa ->]]]].
  - destruct (scan_mid n k (R ++ Q) cs x qa q rest Hn) as [cs' [x' [qa' [q' ->]]]].
    eexists. split; [reflexivity|]. left. eauto 6.
  - destruct rest as [|c tl].
    { destruct n; [simpl in Hn; lia|]. eexists. split; [reflexivity|]. right. eauto. }
    rewrite (scan_fuel _ (S (length (c :: tl)))) by (simpl in *; lia).
    fold (scan' k (fresh (R ++ Q) p qa) (c :: tl)). rewrite scan_fresh by discriminate. unfold scan'.
    destruct (scan_mid (S (length (c :: tl))) k (R ++ Q) [] [] qa 0 (c :: tl) ltac:(lia)) as [cs' [x' [qa' [q' ->]]]].
    eexists. split; [reflexivity|]. left. eauto 6.
Qed.
Lemma over_extends : forall ls n R a, extends R a \/ (quote_at_line a = 0 /\ exists Q, root a = R ++ Q) ->
  forall T, fin (over_lines n a ls) = Table T -> exists T', T = R ++ T'.
Proof.
  induction ls as [|l ls IH]; intros n R a Ha T HT.
  - simpl in HT. destruct (quote_at_line a =? 0); [|discriminate]. injection HT as <-.
    destruct Ha as [[[Q [cs [x [qa [q ->]]]]]|[Q [p [qa ->]]]]|[_ [Q HQ]]].
    + simpl. rewrite <- app_assoc. eauto.
    + simpl. rewrite <- app_assoc. eauto.
    + exists Q. assumption.
  - cbn [over_lines] in HT. set (a' := if quote_at_line a =? 0 then _ else a) in HT.
    assert (Ha' : extends R a').
    { unfold a'. destruct (quote_at_line a =? 0) eqn:E.
      - apply Z.eqb_eq in E. right.
        assert (HQ : exists Q, root a = R ++ Q).
        { destruct Ha as [[[Q [cs [x [qa [q ->]]]]]|[Q [p [qa ->]]]]|[_ HQ]]; [| |assumption];
            simpl; rewrite <- app_assoc; eauto. }
        destruct HQ as [Q HQ]. exists Q, (cellp a), (quote_allowed a). unfold fresh. rewrite HQ, E. reflexivity.
      - apply Z.eqb_neq in E. tauto. }
    match type of HT with context [scan (S (length ?l)) ?k _ _] =>
      destruct (scan_extends (S (length l)) k R a' l ltac:(lia) Ha') as [b [Hb Hb']]; rewrite Hb in HT end.
    eapply IH; [left; exact Hb'|exact HT].
Qed.
Lemma top_grow : forall n R p qa t T, top n (mk_st R p qa 0) t = Table T -> exists T', T = R ++ T'.
Proof.
  intros n R p qa t T H. eapply over_extends; [|exact H]. right. split; [reflexivity|]. exists []. simpl. rewrite app_nil_r. reflexivity.
Qed.
(* a row with a complete first cell *)
Lemma over_row : forall ls n R c cs x qa q T, fin (over_lines n (mid R (c :: cs) x qa q) ls) = Table T ->
  exists r T', T = R ++ (c :: r) :: T'.
Proof.
  induction ls as [|l ls IH]; intros n R c cs x qa q T HT.
  - simpl in HT. destruct (q =? 0); [|discriminate]. injection HT as <-. eauto.
  - cbn [over_lines quote_at_line mid] in HT. fold (mid R (c :: cs) x qa q) in HT. destruct (q =? 0) eqn:Eq.
    + change (mk_st (root (mid R (c :: cs) x qa q) ++ [[]]) _ _ _)
        with (mk_st ((R ++ [(c :: cs) ++ [x]]) ++ [[]]) (cellp (mid R (c :: cs) x qa q)) qa q) in HT.
      apply Z.eqb_eq in Eq. subst q. fold (fresh (R ++ [(c :: cs) ++ [x]]) (cellp (mid R (c :: cs) x qa 0)) qa) in HT.
      match type of HT with context [scan (S (length ?l)) ?k ?a _] =>
        destruct (scan_extends (S (length l)) k (R ++ [(c :: cs) ++ [x]]) a l ltac:(lia)) as [b [Hb Hb']] end.
      { right. exists [], (cellp (mid R (c :: cs) x qa 0)), qa. rewrite app_nil_r. reflexivity. }
      rewrite Hb in HT. destruct (over_extends _ _ _ _ (or_introl Hb') _ HT) as [T' ->].
      rewrite <- app_assoc. simpl. eauto.
    + match type of HT with context [scan (S (length ?l)) ?k _ _] =>
        destruct (scan_mid (S (length l)) k R (c :: cs) x qa q l ltac:(lia)) as [cs' [x' [qa' [q' Hb]]]] end.
      rewrite Hb in HT. eapply IH. exact HT.
Qed.

(* ---- a row which starts with a quotation mark where none is allowed ---- *)
Definition up_to (u c : bytes) : Prop := ~ In comma c /\ (u = c \/ exists w, u = c ++ comma :: w).
Lemma bad_start : forall n R p t T, cont n (fresh R p false) (quote :: t) = Table T ->
  exists c r T', T = R ++ (c :: r) :: T' /\ up_to (strip_cr (fst (cut (quote :: t)))) c.
Proof.
  intros n R p t T H. rewrite cont_fresh in H by discriminate. unfold cont in H.
  rewrite cut_cons in H |- * by discriminate. cbn [fst snd] in *.
  rewrite strip_cr_cons in H |- * by discriminate. set (u := quote :: strip_cr (fst (cut t))) in *.
  rewrite scan'_eq in H. unfold u in H at 1. cbn [quote_at_line mid] in H. simpl (0 =? 0) in H. cbv iota in H.
  fold (mid R [] [] false 0) in H. rewrite last_row_mid, row_mid in H. cbn [bind_st quote_allowed mid andb] in H.
  fold (mid R [] [] false 0) in H. destruct (find_char comma u) as [e|] eqn:Ef.
  - destruct (find_char_some _ _ _ Ef) as [_ [a [b [Hu [He Ha]]]]].
    replace (firstn e u) with a in H by (rewrite Hu, <- He, firstn_length_app; reflexivity).
    rewrite append_mid in H. cbn [bind_st] in H.
    change (allow (mid R [] ([] ++ a) false 0) true) with (mid R [] a true 0) in H.
    rewrite new_cell_mid in H. cbn [bind_st app] in H. unfold scan' in H.
    match type of H with context [scan ?m ?k ?a0 ?l] =>
      assert (Hb : exists cs' x' qa' q', scan m k a0 l = Run (mid R ([a] ++ cs') x' qa' q')) by (apply scan_mid; lia) end.
    destruct Hb as [cs' [x' [qa' [q' Hb]]]]. rewrite Hb in H. cbn [app] in H. destruct (over_row _ _ _ _ _ _ _ _ _ H) as [r [T' ->]].
    exists a, r, T'. split; [reflexivity|]. split; [assumption|]. right. eauto.
  - apply find_char_none' in Ef. rewrite append_mid in H. cbn [bind_st app] in H.
    change (allow (mid R [] u false 0) true) with (mk_st (R ++ [[u]]) (Some (length R, O)) true 0) in H.
    apply top_grow in H. destruct H as [T' ->]. rewrite <- app_assoc. exists u, [], T'. split; [reflexivity|].
    split; [assumption|]. auto.
Qed.

Definition quotes (k : nat) : bytes := repeat quote k.
Lemma split_quotes : forall s, exists k s', s = quotes k ++ s' /\ forall z, s' <> quote :: z.
Proof.
  induction s as [|c s [k [s' [-> H]]]].
  - exists O, []. split; [reflexivity|discriminate].
  - destruct (Z.eq_dec c quote) as [->|Hc].
    + exists (S k), s'. split; [reflexivity|assumption].
    + exists O, (c :: quotes k ++ s'). split; [reflexivity|]. intros z Hz. congruence.
Qed.
Lemma doubled_quotes : forall k s, doubled (quotes k ++ s) = quotes (k + k) ++ doubled s.
Proof.
  induction k as [|k IH]; intros s; [reflexivity|]. unfold quotes in *. cbn [repeat app doubled].
  rewrite Z.eqb_refl. rewrite IH. replace (S k + S k)%nat with (S (S (k + k))) by lia. reflexivity.
Qed.
Lemma quotes_in : forall c k, In c (quotes k) -> c = quote.
Proof. intros c k H. apply repeat_spec in H. assumption. Qed.
Lemma strip_quotes : forall k u, strip_cr (quotes k ++ u) = quotes k ++ strip_cr u.
Proof.
  induction k as [|k IH]; intros u; [reflexivity|]. unfold quotes in *. cbn [repeat app].
  rewrite strip_cr_cons by discriminate. rewrite IH. reflexivity.
Qed.
Lemma up_to_quotes : forall k u c, up_to (quotes k ++ u) c -> exists c', c = quotes k ++ c'.
Proof.
  induction k as [|k IH]; intros u c H; [exists c; reflexivity|]. unfold quotes in *. cbn [repeat app] in *.
  destruct H as [H1 H2]. destruct c as [|d c].
  - destruct H2 as [H2|[w H2]]; cbn [app] in H2; [congruence|]. injection H2 as H2 _. unfold quote, comma in H2. lia.
  - assert (Hd : d = quote /\ up_to (repeat quote k ++ u) c).
    { split.
      - destruct H2 as [H2|[w H2]]; cbn [app] in H2; congruence.
      - split; [intros Hi; apply H1; right; assumption|]. destruct H2 as [H2|[w H2]]; cbn [app] in H2; injection H2 as _ H2.
        + left. exact H2.
        + right. exists w. exact H2. }
    destruct Hd as [-> Hu]. destruct (IH u c Hu) as [c' ->]. exists c'. reflexivity.
Qed.
Lemma bad_cell : forall s z c, up_to (strip_cr (fst (cut (quote :: doubled s ++ z)))) c -> (exists z', z = quote :: z') -> c <> s.
Proof.
  intros s z c H [z' ->] ->. destruct (split_quotes s) as [k [s' [Hs Hs']]].
  assert (Hq : quote :: doubled s ++ quote :: z' = quotes (S (k + k)) ++ doubled s' ++ quote :: z').
  { rewrite Hs, doubled_quotes. rewrite <- app_assoc. reflexivity. }
  rewrite Hq in H. rewrite cut_app in H by (intros Hi; apply quotes_in in Hi; discriminate).
  cbn [fst] in H. rewrite strip_quotes in H. apply up_to_quotes in H. destruct H as [c' Hc].
  rewrite Hs in Hc.
  assert (Hsplit : quotes (S (k + k)) = quotes k ++ quote :: quotes k).
  { unfold quotes. replace (S (k + k)) with (k + S k)%nat by lia. rewrite repeat_app. reflexivity. }
  rewrite Hsplit, <- app_assoc in Hc. apply app_inv_head in Hc. exact (Hs' _ Hc).
Qed.

(* ---- cells that survive ---- *)
Lemma lossy_len : forall s b, (length (lossy b s) <= length s)%nat.
Proof.
  induction s as [|c s IH]; intros b; [simpl; lia|]. cbn [lossy].
  destruct (c =? lf); [rewrite app_length; specialize (IH false); destruct b; simpl; lia|].
  destruct (c =? quote); [specialize (IH false); simpl; lia|].
  destruct ((c =? cr) && _); [specialize (IH b); simpl; lia|]. specialize (IH true). simpl. lia.
Qed.

(* [b] says that a line feed would be kept here *)
Fixpoint kept (b : bool) (s : bytes) : Prop :=
  match s with
  | [] => True
  | c :: s' =>
      if c =? lf then b = true /\ kept false s'
      else kept (negb ((c =? quote) || (c =? cr))) s'
  end.
Lemma kept_lossy : forall s b, lossy b s = s <-> kept b s.
Proof.
  induction s as [|c s IH]; intros b; [simpl; tauto|].
  cbn [lossy kept]. destruct (c =? lf) eqn:E1.
  - apply Z.eqb_eq in E1. subst c. destruct b.
    + rewrite <- (IH false). cbn [app]. split; [intros H; injection H as H; auto|intros [_ H]; congruence].
    + split; [|intros [H _]; discriminate]. cbn [app]. intros H. pose proof (lossy_len s false) as Hn.
      rewrite H in Hn. simpl in Hn. lia.
  - destruct (c =? quote) eqn:E2.
    + apply Z.eqb_eq in E2. subst c. cbn [orb negb]. rewrite <- (IH false).
      split; [intros H; injection H as H; auto|congruence].
    + destruct (c =? cr) eqn:E3; cbn [andb orb negb].
      * apply Z.eqb_eq in E3. subst c. destruct s as [|d s]; [split; [intros _; exact I|reflexivity]|].
        destruct (d =? lf) eqn:E4.
        -- split.
           ++ intros H. pose proof (lossy_len (d :: s) b) as Hn. rewrite H in Hn. simpl in Hn. lia.
           ++ cbn [kept]. rewrite E4. intros [H _]. discriminate.
        -- transitivity (kept true (d :: s)); [|cbn [kept]; rewrite E4; tauto]. rewrite <- (IH true).
           split; [intros H; injection H as H; auto|congruence].
      * rewrite <- (IH true). split; [intros H; injection H as H; auto|congruence].
Qed.
Lemma kept_breaks : forall s b, kept b s <->
  (forall p q, s = p ++ lf :: q -> (p = [] -> b = true)
     /\ (p = [] \/ exists p' c, p = p' ++ [c] /\ c <> lf /\ c <> cr /\ c <> quote)).
Proof.
  induction s as [|c s IH]; intros b.
  - simpl. split; [intros _ p q H; destruct p; discriminate|auto].
  - cbn [kept]. destruct (c =? lf) eqn:E1.
    + apply Z.eqb_eq in E1. subst c. rewrite IH. split.
      * intros [Hb H] p q Hp. destruct p as [|d p]; [auto|]. injection Hp as <- Hp.
        split; [discriminate|]. right. destruct (H p q Hp) as [H1 H2]. destruct H2 as [->|[p' [c [-> Hc]]]].
        -- specialize (H1 eq_refl). discriminate.
        -- exists (lf :: p'), c. auto.
      * intros H. split; [exact (proj1 (H [] s eq_refl) eq_refl)|]. intros p q Hp.
        destruct (H (lf :: p) q ltac:(cbn [app]; rewrite Hp; reflexivity)) as [_ [Hx|[p' [c [Hx [Hc1 Hc2]]]]]]; [discriminate|].
        destruct p' as [|d p']; cbn [app] in Hx; injection Hx as Hx1 Hx2; [congruence|]. subst p.
        split; [intros Hz; destruct p'; discriminate|]. right. exists p', c. auto.
    + apply Z.eqb_neq in E1. rewrite IH. split.
      * intros H p q Hp. destruct p as [|d p]; [cbn [app] in Hp; congruence|]. injection Hp as <- Hp.
        split; [discriminate|]. right. destruct (H p q Hp) as [H1 H2]. destruct H2 as [->|[p' [e [-> He]]]].
        -- specialize (H1 eq_refl). rewrite Bool.negb_true_iff, Bool.orb_false_iff, !Z.eqb_neq in H1.
           exists [], c. split; [reflexivity|]. tauto.
        -- exists (c :: p'), e. auto.
      * intros H p q Hp.
        destruct (H (c :: p) q ltac:(cbn [app]; rewrite Hp; reflexivity)) as [_ [Hx|[p' [e [Hx [Hc1 Hc2]]]]]]; [discriminate|].
        destruct p' as [|d p']; cbn [app] in Hx; injection Hx as Hx1 Hx2.
        -- subst e p. split; [|auto]. intros _. rewrite Bool.negb_true_iff, Bool.orb_false_iff, !Z.eqb_neq. tauto.
        -- subst p. split; [intros Hz; destruct p'; discriminate|]. right. exists p', e. auto.
Qed.
Lemma seen_breaks : forall s, seen s = s <-> breaks_ok s.
Proof.
  intros s. assert (Hk : breaks_ok s <-> kept false s).
  { rewrite kept_breaks. unfold breaks_ok. split.
    - intros H p q Hp. destruct (H p q Hp) as [p' [c [-> Hc]]]. split; [intros Hz; destruct p'; discriminate|].
      right. exists p', c. auto.
    - intros H p q Hp. destruct (H p q Hp) as [H1 [->|H2]]; [specialize (H1 eq_refl); discriminate|assumption]. }
  rewrite Hk. unfold seen. destruct (needs_quotes s) eqn:E; [apply kept_lossy|].
  split; [intros _|reflexivity]. apply Hk. intros p q Hp. exfalso.
  assert (Hs : special s). { right. left. rewrite Hp, in_app_iff. right. left. reflexivity. }
  apply needs_quotes_spec in Hs. congruence.
Qed.
Lemma seen_row_ok : forall r, seen_row r = r <-> r <> [[]] /\ Forall breaks_ok r.
Proof.
  intros r. assert (Hm : map seen r = r <-> Forall breaks_ok r).
  { induction r as [|s r IH]; [simpl; split; [constructor|reflexivity]|]. cbn [map]. split.
    - intros H. injection H as H1 H2. constructor; [apply seen_breaks; assumption|apply IH; assumption].
    - intros H. inversion H; subst. f_equal; [apply seen_breaks; assumption|apply IH; assumption]. }
  destruct r as [|[|c s] r]; cbn [seen_row].
  - split; [intros _; split; [discriminate|constructor]|reflexivity].
  - destruct r as [|s2 r]; [split; [discriminate|intros [H _]; exfalso; exact (H eq_refl)]|].
    cbn [seen_row]. rewrite Hm. split; [intros H; split; [discriminate|assumption]|tauto].
  - cbn [seen_row]. rewrite Hm. split; [intros H; split; [discriminate|assumption]|tauto].
Qed.
