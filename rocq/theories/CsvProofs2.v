From Verif Require Import Base Lists CsvModel CsvSpec CsvProofs.

(* ---- the text from some point of a line on ---- *)
Fixpoint cut (t : bytes) : bytes * bytes :=
  match t with
  | [] => ([], [])
  | c :: t => if c =? lf then ([], t) else let '(a, b) := cut t in (c :: a, b)
  end.
Lemma cut_cons : forall c t, c <> lf -> cut (c :: t) = (c :: fst (cut t), snd (cut t)).
Proof. intros c t H. simpl. apply Z.eqb_neq in H. rewrite H. destruct (cut t). reflexivity. Qed.
Lemma cut_lf : forall t, cut (lf :: t) = ([], t).
Proof. intros t. simpl. reflexivity. Qed.
Lemma cut_app : forall a t, ~ In lf a -> cut (a ++ t) = (a ++ fst (cut t), snd (cut t)).
Proof.
  induction a as [|c a IH]; intros t H; [simpl; destruct (cut t); reflexivity|].
  simpl app. rewrite cut_cons by (intros ->; apply H; left; reflexivity).
  rewrite IH by (intros Hi; apply H; right; assumption). reflexivity.
Qed.
Lemma lines_app : forall l acc t, ~ In lf l -> lines acc (l ++ lf :: t) = (acc ++ l) :: lines [] t.
Proof.
  induction l as [|c l IH]; intros acc t H; simpl.
  - rewrite app_nil_r. reflexivity.
  - destruct (c =? lf) eqn:E; [apply Z.eqb_eq in E; exfalso; apply H; left; congruence|].
    rewrite IH by (intros Hi; apply H; right; assumption). rewrite <- app_assoc. reflexivity.
Qed.
Lemma cut_in : forall t, In lf t -> t = fst (cut t) ++ lf :: snd (cut t) /\ ~ In lf (fst (cut t)).
Proof.
  induction t as [|c t IH]; intros H; [destruct H|]. destruct (Z.eq_dec c lf) as [->|Hc].
  - rewrite cut_lf. simpl. auto.
  - rewrite cut_cons by assumption. simpl. destruct H as [H|H]; [congruence|]. destruct (IH H) as [H1 H2].
    split; [f_equal; assumption|]. intros [Hx|Hx]; [congruence|auto].
Qed.
Lemma lines_cut : forall t, In lf t -> lines [] t = fst (cut t) :: lines [] (snd (cut t)).
Proof.
  intros t H. destruct (cut_in t H) as [H1 H2]. rewrite H1 at 1. rewrite lines_app by assumption. reflexivity.
Qed.

Lemma strip_cr_app : forall a c u, c <> cr -> strip_cr (a ++ c :: u) = a ++ c :: strip_cr u.
Proof.
  induction a as [|x a IH]; intros c u H.
  - simpl. apply Z.eqb_neq in H. destruct u as [|y u]; [rewrite H; reflexivity|reflexivity].
  - simpl app. rewrite <- (IH c u H). destruct (a ++ c :: u) eqn:E; [destruct a; discriminate|]. reflexivity.
Qed.
Lemma strip_cr_cons : forall c u, c <> cr -> strip_cr (c :: u) = c :: strip_cr u.
Proof. intros c u H. exact (strip_cr_app [] c u H). Qed.
Lemma strip_cr_end : forall a, strip_cr (a ++ [cr]) = a.
Proof.
  induction a as [|x a IH]; [reflexivity|]. simpl app. rewrite <- IH at 2.
  destruct (a ++ [cr]) eqn:E; [destruct a; discriminate|reflexivity].
Qed.
Lemma strip_cr_not : forall a, (forall p, a <> p ++ [cr]) -> strip_cr a = a.
Proof.
  intros a H. destruct a as [|x a] using rev_ind; [reflexivity|].
  rewrite strip_cr_app; [reflexivity|]. intros ->. exact (H a eq_refl).
Qed.

Definition fin (r : res) : parsed :=
  match r with
  | Run a => if quote_at_line a =? 0 then Table (root a) else Unmatched
  | Undefined => Wrong
  | Fuel => No_fuel
  end.
Definition top (n : Z) (a : st) (t : bytes) : parsed := fin (over_lines n a (lines [] t)).
Definition cont (n : Z) (a : st) (t : bytes) : parsed :=
  match scan' n a (strip_cr (fst (cut t))) with Run b => top n b (snd (cut t)) | r => fin r end.

Definition open_line (a : st) : st :=
  if quote_at_line a =? 0 then fresh (root a) (cellp a) (quote_allowed a) else a.
Lemma top_cont : forall n a t, 1 <= n -> In lf t -> top n a t = cont (n + 1) (open_line a) t.
Proof.
  intros n a t Hn Ht. unfold top. rewrite lines_cut by assumption. cbn [over_lines].
  replace (n + 1 =? 1) with false by (symmetry; apply Z.eqb_neq; lia).
  unfold cont, scan', open_line. destruct (quote_at_line a =? 0) eqn:E.
  - apply Z.eqb_eq in E. rewrite E. fold (fresh (root a) (cellp a) (quote_allowed a)).
    destruct (scan _ _ _ _); reflexivity.
  - destruct (scan _ _ _ _); reflexivity.
Qed.
Lemma top_p : forall t n R p p' qa, top n (mk_st R p qa 0) t = top n (mk_st R p' qa 0) t.
Proof.
  intros t n R p p' qa. unfold top. generalize (lines [] t). intros ls. revert n R p p' qa.
  induction ls as [|l ls IH]; intros n R p p' qa; [reflexivity|]. cbn [over_lines quote_at_line root cellp quote_allowed].
  simpl (0 =? 0). cbv iota. fold (fresh R p qa). fold (fresh R p' qa).
  set (l' := strip_cr _). destruct l' as [|c tl] eqn:E.
  - cbn [scan length]. apply IH.
  - fold (scan' (n + 1) (fresh R p qa) (c :: tl)). fold (scan' (n + 1) (fresh R p' qa) (c :: tl)).
    rewrite !scan_fresh by discriminate. reflexivity.
Qed.

(* ---- cells ---- *)
Definition plain (s : bytes) : Prop := ~ In comma s /\ ~ In lf s /\ ~ In quote s.
Lemma needs_quotes_spec : forall s, needs_quotes s = true <-> special s.
Proof.
  intros s. unfold needs_quotes, special. rewrite existsb_exists. unfold comma, lf, quote. split.
  - intros [x [Hx H]]. rewrite !Bool.orb_true_iff, !Z.eqb_eq in H. destruct H as [[->| ->]| ->]; auto.
  - intros [H|[H|H]]; eexists; (split; [exact H|reflexivity]).
Qed.
Lemma not_special : forall s, ~ special s <-> plain s.
Proof. intros s. unfold special, plain, comma, lf, quote. tauto. Qed.
Lemma special_dec : forall s, special s \/ plain s.
Proof.
  intros s. destruct (needs_quotes s) eqn:E; [left; apply needs_quotes_spec; assumption|].
  right. apply not_special. intros H. apply needs_quotes_spec in H. congruence.
Qed.

Lemma cont_plain_comma : forall n R cs x qa s t, plain s ->
  cont n (mid R cs x qa 0) (s ++ comma :: t) = cont n (mid R (cs ++ [x ++ s]) [] true 0) t.
Proof.
  intros n R cs x qa s t [H1 [H2 H3]]. unfold cont at 1. rewrite cut_app by assumption.
  rewrite cut_cons by discriminate. cbn [fst snd]. rewrite strip_cr_app by discriminate.
  set (u := strip_cr (fst (cut t))). rewrite scan'_eq.
  destruct (s ++ comma :: u) as [|c tl] eqn:E; [destruct s; discriminate|].
  assert (Hc : c <> quote).
  { destruct s as [|y s]; injection E as <- _; [discriminate|]. intros ->. apply H3. left. reflexivity. }
  rewrite <- E. cbn [quote_at_line mid]. simpl (0 =? 0). cbv iota. fold (mid R cs x qa 0).
  rewrite last_row_mid, row_mid. cbn [bind_st].
  apply Z.eqb_neq in Hc. rewrite Hc, Bool.andb_false_r. rewrite find_char_app by assumption.
  rewrite firstn_length_app, append_mid. cbn [bind_st].
  change (allow (mid R cs (x ++ s) qa 0) true) with (mid R cs (x ++ s) true 0). rewrite new_cell_mid. cbn [bind_st].
  replace (skipn (length s + 1) (s ++ comma :: u)) with u; [reflexivity|].
  rewrite <- skipn_skipn, skipn_length_app. reflexivity.
Qed.
Lemma cut_end : forall s t, ~ In lf s -> cut (s ++ cr :: lf :: t) = (s ++ [cr], t).
Proof.
  intros s t H. rewrite cut_app by assumption. rewrite cut_cons by discriminate. rewrite cut_lf. reflexivity.
Qed.
Lemma cont_plain_end : forall n R cs x qa s t, plain s -> s <> [] ->
  cont n (mid R cs x qa 0) (s ++ cr :: lf :: t) = top n (mid R cs (x ++ s) true 0) t.
Proof.
  intros n R cs x qa s t [H1 [H2 H3]] Hs. unfold cont. rewrite cut_end by assumption. cbn [fst snd].
  rewrite strip_cr_end. rewrite scan'_eq. destruct s as [|c tl] eqn:E; [congruence|]. rewrite <- E in *.
  assert (Hc : c <> quote). { intros ->. apply H3. rewrite E. left. reflexivity. }
  cbn [quote_at_line mid]. simpl (0 =? 0). cbv iota. fold (mid R cs x qa 0).
  rewrite last_row_mid, row_mid. cbn [bind_st]. apply Z.eqb_neq in Hc. rewrite Hc, Bool.andb_false_r.
  rewrite find_char_none by assumption. rewrite append_mid. reflexivity.
Qed.
Lemma cont_end : forall n a t, cont n a (cr :: lf :: t) = top n a t.
Proof. intros n a t. unfold cont. change (cr :: lf :: t) with ([] ++ cr :: lf :: t). rewrite cut_end by (simpl; tauto). reflexivity. Qed.
Lemma cont_fresh : forall n R p qa c t, c <> lf -> c <> cr ->
  cont n (fresh R p qa) (c :: t) = cont n (mid R [] [] qa 0) (c :: t).
Proof.
  intros n R p qa c t H H'. unfold cont. rewrite cut_cons by assumption. cbn [fst snd].
  rewrite strip_cr_cons by assumption. rewrite scan_fresh; [reflexivity|]. discriminate.
Qed.
Lemma cont_open : forall n R cs x t, cont n (mid R cs x true 0) (quote :: t) = cont n (mid R cs x true n) t.
Proof.
  intros n R cs x t. unfold cont. rewrite cut_cons by discriminate. cbn [fst snd].
  rewrite strip_cr_cons by discriminate. cbn [app]. rewrite scan'_eq.
  cbn [quote_at_line mid]. simpl (0 =? 0). cbv iota. fold (mid R cs x true 0).
  rewrite last_row_mid, row_mid. reflexivity.
Qed.

(* what is read back from a quotation; [b]: something has been read from the
   line since the last quotation mark *)
Fixpoint lossy (b : bool) (s : bytes) : bytes :=
  match s with
  | [] => []
  | c :: s' =>
      if c =? lf then (if b then [lf] else []) ++ lossy false s'
      else if c =? quote then quote :: lossy false s'
      else if (c =? cr) && match s' with d :: _ => d =? lf | [] => false end then lossy b s'
      else c :: lossy true s'
  end.

Definition nonempty (a : bytes) : bool := match a with [] => false | _ => true end.
Lemma nonempty_app : forall a c, nonempty (a ++ [c]) = true.
Proof. intros [|x a] c; reflexivity. Qed.
Lemma doubled_lf : forall s, In lf (doubled s) <-> In lf s.
Proof.
  induction s as [|c s IH]; [tauto|]. simpl. rewrite in_app_iff, IH.
  destruct (c =? quote) eqn:E; [apply Z.eqb_eq in E; subst|]; simpl; unfold quote, lf; intuition lia.
Qed.

Lemma skipn_app_more : forall (a b : bytes) k, skipn (length a + k) (a ++ b) = skipn k b.
Proof. intros a b k. rewrite <- skipn_skipn, skipn_length_app. reflexivity. Qed.
Lemma nth_app_more : forall (a b : bytes) k, nth (length a + k) (a ++ b) 0 = nth k b 0.
Proof. intros a b k. rewrite app_nth2_plus. reflexivity. Qed.

Lemma cont_inside : forall len s a n R cs x q t, (length s < len)%nat -> 1 <= n -> q <> 0 ->
  ~ In quote a -> ~ In lf a -> (forall p s', a = p ++ [cr] -> s = lf :: s' -> False) ->
  In lf t -> (forall t', t <> quote :: t') ->
  exists n', n <= n' /\
  cont n (mid R cs x true q) (a ++ doubled s ++ quote :: t)
  = cont n' (mid R cs (x ++ a ++ lossy (nonempty a) s) false 0) t.
Proof.
  induction len as [|len IH]; intros s a n R cs x q t Hlen Hn Hq Ha1 Ha2 Ha3 Ht1 Ht2; [lia|].
  destruct s as [|c s].
  - (* the closing quotation mark *)
    simpl doubled. simpl app. exists n. split; [lia|]. unfold cont. rewrite cut_app by assumption.
    rewrite cut_cons by discriminate. cbn [fst snd]. rewrite strip_cr_app by discriminate.
    set (u := strip_cr (fst (cut t))).
    assert (Hu : nth 0 u 0 <> quote).
    { unfold u. destruct t as [|d t]; [destruct Ht1|]. assert (d <> quote) by (intros ->; exact (Ht2 t eq_refl)).
      destruct (Z.eq_dec d lf) as [->|Hd]; [rewrite cut_lf; discriminate|]. rewrite cut_cons by assumption. cbn [fst].
      destruct (fst (cut t)); simpl; [destruct (d =? cr); simpl; [discriminate|assumption]|assumption]. }
    rewrite scan'_eq. destruct (a ++ quote :: u) as [|d tl] eqn:E; [destruct a; discriminate|]. rewrite <- E.
    cbn [quote_at_line mid]. fold (mid R cs x true q). apply Z.eqb_neq in Hq. rewrite Hq.
    rewrite find_char_app by assumption. rewrite nth_app_more. cbn [nth].
    apply Z.eqb_neq in Hu. rewrite Hu. rewrite firstn_length_app, append_mid. cbn [bind_st].
    rewrite skipn_app_more. cbn [skipn]. rewrite app_nil_r. reflexivity.
  - destruct (Z.eq_dec c quote) as [->|Hcq].
    + (* a doubled one *)
      destruct (IH s [] n R cs (x ++ a ++ [quote]) q t ltac:(simpl in Hlen; lia) Hn Hq ltac:(tauto) ltac:(tauto)
                  ltac:(intros p s' H; destruct p; discriminate) Ht1 Ht2) as [n' [Hn' Heq]].
      exists n'. split; [assumption|].
      replace (x ++ a ++ lossy (nonempty a) (quote :: s)) with ((x ++ a ++ [quote]) ++ [] ++ lossy (nonempty []) s)
        by (simpl; rewrite <- !app_assoc; reflexivity).
      rewrite <- Heq. clear Heq. simpl doubled. simpl app.
      unfold cont. rewrite cut_app by assumption. rewrite !cut_cons by discriminate. cbn [fst snd].
      rewrite strip_cr_app by discriminate. rewrite strip_cr_cons by discriminate. cbn [app].
      set (u := strip_cr _). rewrite scan'_eq.
      destruct (a ++ quote :: quote :: u) as [|d tl] eqn:E; [destruct a; discriminate|]. rewrite <- E.
      cbn [quote_at_line mid]. fold (mid R cs x true q). pose proof Hq as Hq'. apply Z.eqb_neq in Hq'. rewrite Hq'.
      rewrite find_char_app by assumption. rewrite nth_app_more. cbn [nth]. rewrite Z.eqb_refl.
      replace (firstn (length a + 1) (a ++ quote :: quote :: u)) with (a ++ [quote])
        by (rewrite firstn_app_2; reflexivity).
      rewrite append_mid. cbn [bind_st]. rewrite skipn_app_more. reflexivity.
    + replace (doubled (c :: s)) with (c :: doubled s)
        by (simpl; apply Z.eqb_neq in Hcq; rewrite Hcq; reflexivity).
      destruct (Z.eq_dec c lf) as [->|Hcl].
      * (* the end of a line *)
        assert (Hsc : strip_cr a = a).
        { apply strip_cr_not. intros p Hp. exact (Ha3 p s Hp eq_refl). }
        destruct (IH s [] (n + 1) R cs (x ++ a ++ (if nonempty a then [lf] else [])) q t ltac:(simpl in Hlen; lia) ltac:(lia) Hq
                    ltac:(tauto) ltac:(tauto) ltac:(intros p s' H; destruct p; discriminate) Ht1 Ht2) as [n' [Hn' Heq]].
        exists n'. split; [lia|].
        replace (x ++ a ++ lossy (nonempty a) (lf :: s))
          with ((x ++ a ++ (if nonempty a then [lf] else [])) ++ [] ++ lossy (nonempty []) s)
          by (simpl; rewrite <- !app_assoc; reflexivity).
        rewrite <- Heq. clear Heq. simpl app at 2.
        unfold cont at 1. rewrite cut_app by assumption. simpl app. rewrite cut_lf. cbn [fst snd]. rewrite app_nil_r, Hsc.
        assert (Hin : In lf (doubled s ++ quote :: t)) by (rewrite in_app_iff; right; right; assumption).
        assert (Hol : forall y, open_line (mid R cs y true q) = mid R cs y true q).
        { intros y. unfold open_line. cbn [quote_at_line mid]. pose proof Hq as Hq'. apply Z.eqb_neq in Hq'.
          rewrite Hq'. reflexivity. }
        rewrite scan'_eq. destruct a as [|d tl] eqn:E.
        -- simpl nonempty. cbv iota. rewrite top_cont by assumption. rewrite Hol. simpl app. rewrite app_nil_r. reflexivity.
        -- rewrite <- E in *. cbn [quote_at_line mid]. fold (mid R cs x true q).
           pose proof Hq as Hq'. apply Z.eqb_neq in Hq'. rewrite Hq'.
           rewrite find_char_none by assumption. rewrite append_mid. cbn [bind_st]. rewrite append_mid. cbn [bind_st].
           rewrite top_cont by assumption. rewrite Hol.
           replace (nonempty a) with true by (rewrite E; reflexivity). rewrite <- app_assoc. reflexivity.
      * destruct (Z.eq_dec c cr) as [->|Hcc].
        -- destruct s as [|d s].
           ++ (* at the end *)
              destruct (IH [] (a ++ [cr]) n R cs x q t ltac:(simpl in *; lia) Hn Hq
                ltac:(rewrite in_app_iff; simpl; unfold quote, cr in *; intuition lia)
                ltac:(rewrite in_app_iff; simpl; unfold lf, cr in *; intuition lia)
                ltac:(intros; discriminate) Ht1 Ht2) as [n' [Hn' Heq]].
              exists n'. split; [assumption|].
              replace (a ++ lossy (nonempty a) [cr]) with ((a ++ [cr]) ++ lossy (nonempty (a ++ [cr])) [])
                by (simpl; rewrite app_nil_r; reflexivity).
              rewrite <- Heq. f_equal. simpl. rewrite <- app_assoc. reflexivity.
           ++ destruct (Z.eq_dec d lf) as [->|Hd].
              ** (* CR LF *)
                 destruct (IH s [] (n + 1) R cs (x ++ a ++ (if nonempty a then [lf] else [])) q t ltac:(simpl in Hlen; lia) ltac:(lia) Hq
                    ltac:(tauto) ltac:(tauto) ltac:(intros p s' H; destruct p; discriminate) Ht1 Ht2) as [n' [Hn' Heq]].
                 exists n'. split; [lia|].
                 replace (x ++ a ++ lossy (nonempty a) (cr :: lf :: s))
                   with ((x ++ a ++ (if nonempty a then [lf] else [])) ++ [] ++ lossy (nonempty []) s)
                   by (simpl; rewrite <- !app_assoc; reflexivity).
                 rewrite <- Heq. clear Heq.
                 change (doubled (lf :: s)) with (lf :: doubled s). simpl app.
                 unfold cont at 1. rewrite cut_end by assumption. cbn [fst snd]. rewrite strip_cr_end.
                 assert (Hin : In lf (doubled s ++ quote :: t)) by (rewrite in_app_iff; right; right; assumption).
                 assert (Hol : forall y, open_line (mid R cs y true q) = mid R cs y true q).
                 { intros y. unfold open_line. cbn [quote_at_line mid]. pose proof Hq as Hq'. apply Z.eqb_neq in Hq'.
                   rewrite Hq'. reflexivity. }
                 rewrite scan'_eq. destruct a as [|d tl] eqn:E.
                 --- simpl nonempty. cbv iota. rewrite top_cont by assumption. rewrite Hol. simpl app. rewrite app_nil_r. reflexivity.
                 --- rewrite <- E in *. cbn [quote_at_line mid]. fold (mid R cs x true q).
                     pose proof Hq as Hq'. apply Z.eqb_neq in Hq'. rewrite Hq'.
                     rewrite find_char_none by assumption. rewrite append_mid. cbn [bind_st]. rewrite append_mid. cbn [bind_st].
                     rewrite top_cont by assumption. rewrite Hol.
                     replace (nonempty a) with true by (rewrite E; reflexivity). rewrite <- app_assoc. reflexivity.
              ** destruct (IH (d :: s) (a ++ [cr]) n R cs x q t ltac:(simpl in *; lia) Hn Hq
                   ltac:(rewrite in_app_iff; simpl; unfold quote, cr in *; intuition lia)
                   ltac:(rewrite in_app_iff; simpl; unfold lf, cr in *; intuition lia)
                   ltac:(intros p s' _ He; injection He as He _; congruence) Ht1 Ht2) as [n' [Hn' Heq]].
                 exists n'. split; [assumption|].
                 replace (a ++ lossy (nonempty a) (cr :: d :: s)) with ((a ++ [cr]) ++ lossy (nonempty (a ++ [cr])) (d :: s)).
                 { rewrite <- Heq. f_equal. rewrite <- app_assoc. reflexivity. }
                 rewrite <- app_assoc, nonempty_app. f_equal.
                 change (lossy (nonempty a) (cr :: d :: s)) with
                   (if d =? lf then lossy (nonempty a) (d :: s) else cr :: lossy true (d :: s)).
                 apply Z.eqb_neq in Hd. rewrite Hd. reflexivity.
        -- (* any other character *)
           destruct (IH s (a ++ [c]) n R cs x q t ltac:(simpl in *; lia) Hn Hq
                ltac:(rewrite in_app_iff; simpl; intuition congruence)
                ltac:(rewrite in_app_iff; simpl; intuition congruence)
                ltac:(intros p s' He _; apply app_inj_tail in He; destruct He; congruence) Ht1 Ht2) as [n' [Hn' Heq]].
           exists n'. split; [assumption|].
           replace (a ++ lossy (nonempty a) (c :: s)) with ((a ++ [c]) ++ lossy (nonempty (a ++ [c])) s).
           { rewrite <- Heq. f_equal. rewrite <- app_assoc. reflexivity. }
           rewrite <- app_assoc, nonempty_app. f_equal. cbn [lossy].
           apply Z.eqb_neq in Hcl, Hcq, Hcc. rewrite Hcl, Hcq, Hcc. reflexivity.
Qed.
