From Verif Require Import Base Lists CsvModel CsvSpec CsvProofs CsvProofs2 CsvProofs3.

Fixpoint ok_from (qa : bool) (rows : list (list bytes)) : Prop :=
  match rows with
  | [] => True
  | r :: rows => (r <> [[]] /\ Forall breaks_ok r) /\ (qa = false -> ~ starts_special r)
                 /\ ok_from (allowed_after qa r) rows
  end.

Lemma format_cons : forall r rows, csv_format (r :: rows) = text r ++ cr :: lf :: csv_format rows.
Proof. reflexivity. Qed.
Lemma starts_dec : forall r, starts_special r \/ ~ starts_special r.
Proof.
  intros [|s r]; [right; intros [s [r' [H _]]]; discriminate|].
  destruct (special_dec s) as [H|H]; [left; exists s, r; auto|].
  right. intros [s' [r' [He Hs]]]. injection He as <- _. apply not_special in H. contradiction.
Qed.

(* one row from the start of a line on *)
Lemma row_iff : forall n R p qa r rows, 1 <= n ->
  (forall n R p qa, 1 <= n -> (top n (mk_st R p qa 0) (csv_format rows) = Table (R ++ rows) <-> ok_from qa rows)) ->
  (cont n (fresh R p qa) (csv_format (r :: rows)) = Table (R ++ r :: rows) <-> ok_from qa (r :: rows)).
Proof.
  intros n R p qa r rows Hn IH. rewrite format_cons. cbn [ok_from].
  destruct (starts_dec r) as [Hst|Hst].
  - destruct qa.
    + destruct (row_step n R p true r (csv_format rows) Hn ltac:(discriminate)) as [n' [p' [Hn' ->]]]. split.
      * intros H. pose proof H as Hg. apply top_grow in Hg. destruct Hg as [T' Hg]. rewrite <- app_assoc in Hg.
        apply app_inv_head in Hg. injection Hg as Hr _. symmetry in Hr. pose proof Hr as Hr'. apply seen_row_ok in Hr'.
        split; [assumption|]. split; [discriminate|]. rewrite Hr in H.
        change (R ++ r :: rows) with (R ++ [r] ++ rows) in H. rewrite app_assoc in H. apply IH in H; assumption.
      * intros [H1 [_ H2]]. apply seen_row_ok in H1. rewrite H1. change (R ++ r :: rows) with (R ++ [r] ++ rows).
        rewrite app_assoc. apply IH; assumption.
    + split; [|intros [_ [H _]]; exfalso; exact (H eq_refl Hst)]. intros H. exfalso.
      destruct Hst as [s [r' [-> Hs]]].
      assert (Hh : text (s :: r') ++ cr :: lf :: csv_format rows
        = quote :: doubled s ++ quote :: print_cells false (map Str r') ++ cr :: lf :: csv_format rows).
      { unfold text. cbn [map print_cells]. rewrite print_special by assumption. cbn [app].
        rewrite <- !app_assoc. reflexivity. }
      rewrite Hh in H. apply bad_start in H. destruct H as [c [r [T' [HT Hu]]]].
      apply app_inv_head in HT. injection HT as Hc _ _. symmetry in Hc. revert Hc.
      eapply bad_cell; [exact Hu|]. eauto.
  - destruct (row_step n R p qa r (csv_format rows) Hn ltac:(auto)) as [n' [p' [Hn' ->]]]. split.
    + intros H. pose proof H as Hg. apply top_grow in Hg. destruct Hg as [T' Hg]. rewrite <- app_assoc in Hg.
      apply app_inv_head in Hg. injection Hg as Hr _. symmetry in Hr. pose proof Hr as Hr'. apply seen_row_ok in Hr'.
      split; [assumption|]. split; [auto|]. rewrite Hr in H.
      change (R ++ r :: rows) with (R ++ [r] ++ rows) in H. rewrite app_assoc in H. apply IH in H; assumption.
    + intros [H1 [_ H2]]. apply seen_row_ok in H1. rewrite H1. change (R ++ r :: rows) with (R ++ [r] ++ rows).
      rewrite app_assoc. apply IH; assumption.
Qed.
Lemma rows_iff : forall rows n R p qa, 1 <= n ->
  (top n (mk_st R p qa 0) (csv_format rows) = Table (R ++ rows) <-> ok_from qa rows).
Proof.
  induction rows as [|r rows IH]; intros n R p qa Hn.
  - cbn [csv_format map print_to ok_from]. unfold top. simpl. rewrite app_nil_r. tauto.
  - rewrite top_cont; [|assumption|rewrite format_cons, in_app_iff; right; right; left; reflexivity].
    change (open_line (mk_st R p qa 0)) with (fresh R p qa). apply row_iff; [lia|assumption].
Qed.

(* ---- the byte order mark ---- *)
Definition bom : bytes := [239; 187; 191].
Lemma strip_bom_app : forall t, strip_bom (bom ++ t) = t.
Proof. reflexivity. Qed.
Lemma strip_bom_cases : forall t, (exists u, t = bom ++ u) \/ strip_bom t = t.
Proof.
  intros [|a [|b [|c t]]]; try (right; reflexivity). simpl.
  destruct ((a =? 239) && (b =? 187) && (c =? 191)) eqn:E; [|auto].
  rewrite !Bool.andb_true_iff, !Z.eqb_eq in E. destruct E as [[-> ->] ->]. left. exists t. reflexivity.
Qed.
Lemma top_first : forall t, In lf t ->
  top 0 (mk_st [] None true 0) t = cont 1 (fresh [] None true) (strip_bom t).
Proof.
  intros t Ht. unfold top. rewrite lines_cut by assumption. cbn [over_lines]. change (0 + 1) with 1. simpl (1 =? 1). cbv iota.
  change (mk_st (root (mk_st [] None true 0) ++ [[]]) _ _ _) with (fresh [] None true).
  assert (Hc : cut (strip_bom t) = (strip_bom (fst (cut t)), snd (cut t))).
  { destruct (strip_bom_cases t) as [[u ->]|Hs].
    - rewrite strip_bom_app. rewrite cut_app by (simpl; unfold lf; intuition lia). cbn [fst snd].
      rewrite strip_bom_app. destruct (cut u); reflexivity.
    - rewrite Hs. destruct (cut_in t Ht) as [H1 H2]. destruct (strip_bom_cases (fst (cut t))) as [[u Hu]|Hu].
      + exfalso. rewrite H1, Hu, <- app_assoc, strip_bom_app in Hs. apply (f_equal (@length Z)) in Hs.
        rewrite !app_length in Hs. simpl in Hs. lia.
      + rewrite Hu. destruct (cut t); reflexivity. }
  unfold cont. rewrite Hc. cbn [fst snd quote_at_line]. unfold scan'. simpl (0 =? 0). cbv iota.
  match goal with |- fin (match ?s with _ => _ end) = _ => destruct s; reflexivity end.
Qed.

Lemma parse_iff : forall rows, csv_parse (csv_format rows) = Table rows <->
  ok_from true rows /\ (forall s row q, rows = ((bom ++ s) :: row) :: q -> special s).
Proof.
  intros rows. change (csv_parse (csv_format rows)) with (top 0 (mk_st [] None true 0) (csv_format rows)).
  destruct rows as [|r rows].
  { unfold top. simpl. split; [intros _|reflexivity]. split; [exact I|]. intros; discriminate. }
  rewrite top_first by (rewrite format_cons, in_app_iff; right; right; left; reflexivity).
  assert (Hcase : (exists s row, r = (bom ++ s) :: row /\ plain s) \/
    (strip_bom (csv_format (r :: rows)) = csv_format (r :: rows) /\
     forall s row, r = (bom ++ s) :: row -> special s)).
  { destruct r as [|s0 row].
    - right. split; [|discriminate]. destruct (strip_bom_cases (csv_format ([] :: rows))) as [[u Hu]|Hu]; [discriminate|exact Hu].
    - destruct (special_dec s0) as [Hs|Hs].
      + right. split.
        * rewrite format_cons. unfold text. cbn [map print_cells]. rewrite print_special by assumption. cbn [app].
          destruct (strip_bom_cases (quote :: ((doubled s0 ++ [quote]) ++ print_cells false (map Str row)) ++ cr :: lf :: csv_format rows))
            as [[u Hu]|Hu]; [discriminate|exact Hu].
        * intros s row' He. injection He as He _. subst s0. destruct Hs as [Hs|[Hs|Hs]]; cbn [bom app In] in Hs;
            [left|right; left|right; right]; (destruct Hs as [Hs|[Hs|[Hs|Hs]]]; [lia|lia|lia|assumption]).
      + destruct (strip_bom_cases s0) as [[s ->]|Hb].
        * left. exists s, row. split; [reflexivity|]. destruct Hs as [H1 [H2 H3]].
          repeat split; intros Hi; [apply H1|apply H2|apply H3]; apply in_app_iff; right; assumption.
        * right. split.
          -- rewrite format_cons. unfold text. cbn [map print_cells]. rewrite print_plain by assumption. cbn [app].
             match goal with |- strip_bom ?t = _ => destruct (strip_bom_cases t) as [[u Hu]|Hu]; [exfalso|exact Hu] end.
             destruct s0 as [|a [|b [|c s]]].
             ++ destruct row as [|s2 row]; cbn in Hu; discriminate.
             ++ destruct row as [|s2 row]; cbn in Hu; injection Hu; intros; discriminate.
             ++ destruct row as [|s2 row]; cbn in Hu; injection Hu; intros; discriminate.
             ++ cbn in Hu. injection Hu as -> -> -> _. apply (f_equal (@length Z)) in Hb. simpl in Hb. lia.
          -- intros s row' He. injection He as He _. subst s0.
             apply (f_equal (@length Z)) in Hb. simpl in Hb. lia. }
  destruct Hcase as [[s [row [-> Hs]]]|[Hsb Hm]].
  - (* the mark is lost *)
    split.
    + intros H. exfalso.
      assert (Hp : plain (bom ++ s)).
      { destruct Hs as [H1 [H2 H3]]. repeat split; rewrite in_app_iff; simpl; unfold comma, lf, quote in *; intuition lia. }
      rewrite format_cons in H. unfold text in H. cbn [map print_cells] in H. rewrite print_plain in H by assumption.
      cbn [app] in H. rewrite <- !app_assoc in H. rewrite strip_bom_app in H.
      assert (Ht : s ++ print_cells false (map Str row) ++ cr :: lf :: csv_format rows
        = text (s :: row) ++ cr :: lf :: csv_format rows).
      { unfold text. cbn [map print_cells]. rewrite print_plain by assumption. cbn [app]. rewrite <- app_assoc. reflexivity. }
      rewrite Ht in H.
      destruct (row_step 1 [] None true (s :: row) (csv_format rows) ltac:(lia) ltac:(discriminate)) as [n' [p' [Hn' Heq]]].
      rewrite Heq in H. apply top_grow in H. destruct H as [T' H]. cbn [app] in H. injection H as H _.
      destruct s as [|c s].
      * destruct row; discriminate.
      * cbn [seen_row map] in H. injection H as H _. rewrite seen_plain in H by assumption.
        apply (f_equal (@length Z)) in H. simpl in H. lia.
    + intros [_ H]. exfalso. specialize (H s row rows eq_refl). apply not_special in Hs. contradiction.
  - rewrite Hsb. change (r :: rows) with ([] ++ r :: rows) at 2. rewrite row_iff; [|lia|intros; apply rows_iff; assumption].
    split; [|tauto]. intros H. split; [assumption|]. intros s row q He. injection He as He _.
    exact (Hm s row He).
Qed.

(* ---- rows apart ---- *)
Lemma after_row_spec : forall r, r <> [] -> (after_row r = false <-> ends_special r).
Proof.
  induction r as [|s r IH]; intros Hr; [congruence|]. destruct r as [|s2 r].
  - cbn [after_row]. rewrite Bool.negb_false_iff, needs_quotes_spec. split.
    + intros H. exists s, []. auto.
    + intros [s' [r' [He H]]]. destruct r' as [|x r']; [injection He as <-; assumption|].
      injection He as _ He. destruct r'; discriminate.
  - change (after_row (s :: s2 :: r)) with (after_row (s2 :: r)). rewrite IH by discriminate. split.
    + intros [s' [r' [He H]]]. exists s', (s :: r'). rewrite He. auto.
    + intros [s' [r' [He H]]]. destruct r' as [|x r']; [discriminate|]. injection He as <- He. exists s', r'. auto.
Qed.
Lemma ok_apart : forall rows qa, ok_from qa rows <->
  Forall (fun row => row <> [[]] /\ Forall breaks_ok row) rows /\ apart rows
  /\ (qa = false -> forall mid r q, rows = mid ++ r :: q -> Forall (fun r => r = []) mid -> ~ starts_special r).
Proof.
  induction rows as [|r rows IH]; intros qa.
  - cbn [ok_from]. split; [intros _|intros; exact I]. split; [constructor|]. split.
    + intros p r1 mid r2 q H. destruct p; discriminate.
    + intros _ mid r q H. destruct mid; discriminate.
  - cbn [ok_from]. rewrite IH. split.
    + intros [H1 [H2 [H3 [H4 H5]]]]. split; [constructor; assumption|]. split.
      * intros p r1 mid r2 q He Hend Hmid. destruct p as [|x p]; cbn [app] in He; injection He as Hr He.
        -- subst r1. apply H5 with (mid := mid) (q := q); [|assumption|assumption].
           assert (Hne : r <> []) by (intros ->; destruct Hend as [s [r' [Hx _]]]; destruct r'; discriminate).
           apply after_row_spec in Hend; [|assumption].
           destruct r as [|[|c s] [|s2 r]]; cbn [allowed_after]; try assumption; [congruence|].
           discriminate.
        -- eapply H4; eassumption.
      * intros Hqa mid r2 q He Hmid. destruct mid as [|x mid]; cbn [app] in He; injection He as Hr He.
        -- subst r2. auto.
        -- inversion Hmid; subst. apply H5 with (mid := mid) (q := q); [reflexivity|reflexivity|assumption].
    + intros [H1 [H2 H3]]. inversion H1 as [|? ? H4 H5]; subst. split; [assumption|].
      split; [intros Hqa; apply (H3 Hqa [] r rows eq_refl); constructor|]. split; [assumption|]. split.
      * intros p r1 mid r2 q He. apply (H2 (r :: p) r1 mid r2 q). rewrite He. reflexivity.
      * intros Hqa mid r2 q He Hmid. destruct (list_eq_dec (list_eq_dec Z.eq_dec) r []) as [->|Hne].
        -- cbn [allowed_after] in Hqa. apply (H3 Hqa ([] :: mid) r2 q); [rewrite He; reflexivity|]. constructor; auto.
        -- apply (H2 [] r mid r2 q); [rewrite He; reflexivity| |assumption]. apply after_row_spec; [assumption|].
           destruct r as [|[|c s] [|s2 r]]; cbn [allowed_after] in Hqa; try assumption; [exfalso; apply Hne; reflexivity|].
           exfalso. apply (proj1 H4). reflexivity.
Qed.

Theorem round_trip : forall rows, csv_parse (csv_format rows) = Table rows <-> survives rows.
Proof.
  intros rows. rewrite parse_iff, ok_apart. unfold survives. change [239; 187; 191] with bom. split.
  - intros [[H1 [H2 _]] H3]. auto.
  - intros [H1 [H2 H3]]. split; [|assumption]. split; [assumption|]. split; [assumption|discriminate].
Qed.
