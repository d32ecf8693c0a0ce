(* Log records. *)
From Verif Require Import Base Text Monad NumPutModel ValueModel FmtModel FmtSpec
  FmtProofs1 FmtProofs2 FmtProofs3 FmtProofs4.

Local Open Scope Z_scope.

Lemma log_u64 t : tm_ok t ->
  let Y := tm_year t + 1900 in let Mo := tm_mon t + 1 in
  let date := to_u32 (to_u32 (tm_year t) + 1900) in
  let date := to_u64 (date * 100) in
  let date := to_u64 (date + to_u32 (to_u32 (tm_mon t) + 1)) in
  let date := to_u64 (date * 100) in
  let date := to_u64 (date + to_u32 (tm_mday t)) in
  let date := to_u64 (date * 100) in
  let date := to_u64 (date + to_u32 (tm_hour t)) in
  let date := to_u64 (date * 100) in
  let date := to_u64 (date + to_u32 (tm_min t)) in
  let date := to_u64 (date * 100) in
  let date := to_u64 (date + to_u32 (tm_sec t)) in
  date = ((((Y * 100 + Mo) * 100 + tm_mday t) * 100 + tm_hour t) * 100 + tm_min t) * 100 + tm_sec t.
Proof.
  intros (H1 & H2 & H3 & H4 & H5 & H6 & _). cbv zeta.
  rewrite year_ok, mon_ok by assumption. rewrite !u32_ok by lia.
  repeat match goal with |- context [to_u64 ?x] =>
    lazymatch x with context [to_u64 _] => fail | _ => rewrite (u64_ok x) by lia end end.
  reflexivity.
Qed.

Lemma decimal_at k v t : 10 ^ Z.of_nat k <= v < 10 ^ Z.of_nat (S k) -> decimal v t -> t = dec (S k) v.
Proof.
  intros H D. apply (decimal_fun v); [exact D|]. exists k. repeat split; try lia.
Qed.

Lemma log_digits y mo d h mi s :
  1000 <= y <= 9999 -> 0 <= mo < 100 -> 0 <= d < 100 -> 0 <= h < 100 -> 0 <= mi < 100 -> 0 <= s < 100 ->
  put_DU (((((y * 100 + mo) * 100 + d) * 100 + h) * 100 + mi) * 100 + s) 1 =
  Ok (dec 4 y ++ dec 2 mo ++ dec 2 d ++ dec 2 h ++ dec 2 mi ++ dec 2 s).
Proof.
  intros. set (v := _ + s). assert (V : 10 ^ Z.of_nat 13 <= v < 10 ^ Z.of_nat 14).
  { change (10 ^ Z.of_nat 13) with 10000000000000. change (10 ^ Z.of_nat 14) with 100000000000000.
    unfold v. lia. }
  destruct (put_DU_1 v) as (t & E & D).
  { split; [|eapply Z.lt_trans; [apply V|reflexivity]]. eapply Z.le_trans; [|apply V]. discriminate. }
  rewrite E. f_equal. rewrite (decimal_at 13 v t V D). unfold v. change 100 with (10 ^ Z.of_nat 2).
  change (S 13) with (12 + 2)%nat. rewrite dec_group by (change (10 ^ Z.of_nat 2) with 100; lia).
  change 12%nat with (10 + 2)%nat. rewrite dec_group by (change (10 ^ Z.of_nat 2) with 100; lia).
  change 10%nat with (8 + 2)%nat. rewrite dec_group by (change (10 ^ Z.of_nat 2) with 100; lia).
  change 8%nat with (6 + 2)%nat. rewrite dec_group by (change (10 ^ Z.of_nat 2) with 100; lia).
  change 6%nat with (4 + 2)%nat. rewrite dec_group by (change (10 ^ Z.of_nat 2) with 100; lia).
  now rewrite <- !app_assoc.
Qed.

Lemma log_time_ok t nsec : tm_ok t -> -900 <= tm_year t -> 0 <= nsec < 10 ^ 9 ->
  log_time t nsec = Ok (date_text t nsec ++ str " ").
Proof.
  intros HT HY HN. unfold log_time. cbv zeta.
  pose proof (log_u64 t HT) as U. cbv zeta in U. rewrite U. clear U.
  destruct HT as (H1 & H2 & H3 & H4 & H5 & H6 & H7).
  rewrite log_digits by lia. rewrite u32_ok by lia.
  rewrite (put_DU_p 9) by (exact HN || lia).
  unfold date_text.
  destruct (len4 (dec 4 (tm_year t + 1900)) (dec_length _ _)) as (y1 & y2 & y3 & y4 & ->).
  destruct (len2 (dec 2 (tm_mon t + 1)) (dec_length _ _)) as (m1 & m2 & ->).
  destruct (len2 (dec 2 (tm_mday t)) (dec_length _ _)) as (d1 & d2 & ->).
  destruct (len2 (dec 2 (tm_hour t)) (dec_length _ _)) as (h1 & h2 & ->).
  destruct (len2 (dec 2 (tm_min t)) (dec_length _ _)) as (i1 & i2 & ->).
  destruct (len2 (dec 2 (tm_sec t)) (dec_length _ _)) as (s1 & s2 & ->).
  destruct (len9 (dec 9 nsec) (dec_length _ _)) as (n1 & n2 & n3 & n4 & n5 & n6 & n7 & n8 & n9 & ->).
  reflexivity.
Qed.

(* bytes of the message *)
Lemma z_below (P : Z -> Prop) n : (forall k, (k < n)%nat -> P (Z.of_nat k)) ->
  forall c, 0 <= c < Z.of_nat n -> P c.
Proof. intros H c Hc. rewrite <- (Z2Nat.id c) by lia. apply H. lia. Qed.

Lemma neutralize_other c : 32 <= c -> c <> 127 -> neutralize c = [c].
Proof.
  intros H N. destruct c as [|p|p]; try lia.
  do 7 (destruct p as [p|p|]; try reflexivity; try lia).
Qed.

Lemma neutralize_shown c : 0 <= c -> shown c (neutralize c).
Proof.
  intros H. destruct (Z_lt_le_dec c 32) as [L|L].
  - revert c H L. assert (G : forall c, 0 <= c < Z.of_nat 32 -> shown c (neutralize c)).
    { apply z_below. intros k Hk.
      do 32 (destruct k as [|k]; [first [exact Sh_tab | exact Sh_line | exact Sh_return
        | match goal with |- shown ?c _ =>
            exact (Sh_control c (nth (Z.to_nat c) abbreviations []) ltac:(lia) ltac:(lia) ltac:(lia)
                     ltac:(lia) eq_refl) end]|]). lia. }
    intros c H L. apply G. lia.
  - destruct (Z.eq_dec c 127) as [->|]; [exact Sh_del|]. rewrite neutralize_other by assumption. now constructor.
Qed.

(* trailing blanks *)
Lemma is_blank_ok c : is_blank c = true <-> blank c.
Proof.
  unfold is_blank, blank. rewrite !orb_true_iff, !Z.eqb_eq. lia.
Qed.

Lemma skip_blank_spec l : exists w, l = w ++ skip_blank l /\ Forall blank w /\
  (skip_blank l = [] \/ exists c q, skip_blank l = c :: q /\ ~ blank c).
Proof.
  induction l as [|c l IH]; cbn.
  - exists []. auto.
  - destruct (is_blank c) eqn:E.
    + destruct IH as (w & IE & F & R). exists (c :: w). repeat split.
      * cbn. congruence.
      * constructor; [now apply is_blank_ok|exact F].
      * exact R.
    + exists []. repeat split; auto. right. exists c, l. split; [reflexivity|]. rewrite <- is_blank_ok. congruence.
Qed.

Lemma erase_stripped l : stripped l (erase_trailing l).
Proof.
  unfold erase_trailing. destruct (skip_blank_spec (rev l)) as (w & E & F & R).
  exists (rev w). repeat split.
  - apply (f_equal (@rev Z)) in E. rewrite rev_involutive, rev_app_distr in E. exact E.
  - apply Forall_rev. exact F.
  - destruct R as [->|(c & q & -> & N)]; [now left|]. right. exists (rev q), c. auto.
Qed.

Lemma skip_blank_app l c r : is_blank c = false ->
  skip_blank (l ++ c :: r) = skip_blank l ++ c :: r.
Proof.
  intros E. induction l as [|d l IH]; cbn.
  - now rewrite E.
  - destruct (is_blank d); [exact IH|reflexivity].
Qed.

Lemma erase_app l c r : is_blank c = false ->
  erase_trailing (l ++ c :: r) = l ++ c :: erase_trailing r.
Proof.
  intros E. unfold erase_trailing. rewrite rev_app_distr. cbn [rev]. rewrite <- app_assoc. cbn [app].
  rewrite skip_blank_app by exact E. rewrite rev_app_distr. cbn [rev]. rewrite rev_involutive, <- app_assoc.
  reflexivity.
Qed.

Lemma record_exact s file line func msg : log_ok s line -> Forall (fun c => 0 <= c) msg ->
  exists number texts tail, decimal line number /\ Forall2 shown msg texts /\
    stripped (9 :: concat texts) tail /\
    log_record s file line func msg =
      Ok (date_text (local_tm s) (tv_nsec s) ++ str " (" ++ func ++ str ") @ " ++ file ++ str ":" ++
          number ++ next_line ++ tail ++ next_line ++ [10]).
Proof.
  intros (HS & HY & HL) HM. pose proof HS as (_ & HN & HT & _).
  destruct (put_DU_1 line) as (n & E & D); [lia|].
  exists n, (map neutralize msg), (erase_trailing (9 :: concat (map neutralize msg))).
  repeat split; [exact D| |apply erase_stripped|].
  - induction HM; constructor; auto. now apply neutralize_shown.
  - unfold log_record. rewrite log_time_ok by assumption. cbn [obind].
    rewrite u64_ok by lia. rewrite E. cbn [obind]. f_equal.
    remember (date_text (local_tm s) (tv_nsec s)) as dt eqn:Ed. clear Ed.
    replace (((dt ++ str " ") ++ [40] ++ func ++ str ") @ " ++ file ++ [58] ++ n ++ [27; 69; 9])
             ++ concat (map neutralize msg))
      with ((dt ++ str " (" ++ func ++ str ") @ " ++ file ++ str ":" ++ n ++ [27]) ++
            69 :: 9 :: concat (map neutralize msg)).
    + rewrite erase_app by reflexivity. repeat rewrite <- app_assoc. reflexivity.
    + change (str " (") with (str " " ++ [40]). repeat rewrite <- app_assoc. reflexivity.
Qed.

(* printable text *)
Lemma printable_app a b : printable a -> printable b -> printable (a ++ b).
Proof. intros H G. induction H; cbn; auto; [now apply Pr_char|now apply Pr_tab|now apply Pr_line]. Qed.

Lemma printable_plain l : Forall (fun c => ~ control c) l -> printable l.
Proof. induction 1; constructor; auto. Qed.

Lemma printable_snoc l c : blank c -> printable (l ++ [c]) -> printable l.
Proof.
  intros B H. remember (l ++ [c]) as m eqn:E. revert l E. induction H; intros l E.
  - destruct l; discriminate.
  - destruct l as [|x l]; [constructor|]. injection E as -> E. apply Pr_char; auto.
  - destruct l as [|x l]; [constructor|]. injection E as <- E. apply Pr_tab; auto.
  - destruct l as [|x [|y l]]; [constructor| |].
    + injection E as <- E _. exfalso. rewrite <- E in B. red in B. lia.
    + injection E as <- <- E. apply Pr_line; auto.
Qed.

Lemma printable_stripped l r : stripped l r -> printable l -> printable r.
Proof.
  intros (w & -> & F & _). revert F. induction w as [|c w IH] using rev_ind; intros F H.
  - now rewrite app_nil_r in H.
  - apply Forall_app in F as [F1 F2]. rewrite app_assoc in H. apply printable_snoc in H; [auto|].
    now inversion F2.
Qed.

Lemma dec_plain k n : Forall (fun c => ~ control c) (dec k n).
Proof.
  revert n; induction k; intros n; [constructor|]. cbn. apply Forall_app; split; [apply IHk|].
  constructor; [|constructor]. pose proof (Z.mod_pos_bound n 10 ltac:(lia)). unfold control. lia.
Qed.

Lemma str_plain l : forallb (fun c => (32 <=? c) && negb (c =? 127)) l = true ->
  Forall (fun c => ~ control c) l.
Proof.
  intros H. rewrite forallb_forall in H. apply Forall_forall. intros c I. apply H in I.
  apply andb_true_iff in I as [A B]. apply Z.leb_le in A. apply negb_true_iff, Z.eqb_neq in B.
  unfold control. lia.
Qed.

Lemma date_plain t n : Forall (fun c => ~ control c) (date_text t n).
Proof.
  unfold date_text.
  repeat match goal with
    | |- Forall _ (dec _ _ ++ _) => apply Forall_app; split; [apply dec_plain|]
    | |- Forall _ (str _ ++ _) => apply Forall_app; split; [apply str_plain; reflexivity|]
    end. apply dec_plain.
Qed.

Lemma abbreviations_plain : forallb (forallb (fun c => (32 <=? c) && negb (c =? 127))) abbreviations = true.
Proof. reflexivity. Qed.

Lemma shown_printable c t : shown c t -> printable t.
Proof.
  destruct 1 as [c H1 H2| | | |c name H1 H2 H3 H4 E|].
  - apply Pr_char; [unfold control; lia|constructor].
  - apply Pr_tab. constructor.
  - apply Pr_line, Pr_tab. constructor.
  - constructor.
  - apply printable_plain. apply Forall_app; split; [apply str_plain; reflexivity|].
    apply Forall_app; split; [|apply str_plain; reflexivity]. apply str_plain. pose proof abbreviations_plain as A. rewrite forallb_forall in A. apply A.
    eapply nth_error_In; eauto.
  - apply printable_plain, str_plain. reflexivity.
Qed.

Lemma record_printable s file line func msg : log_ok s line -> Forall (fun c => 0 <= c) msg ->
  printable file -> printable func ->
  exists body, log_record s file line func msg = Ok (body ++ [10]) /\ printable body.
Proof.
  intros HO HM HF HG. destruct (record_exact s file line func msg HO HM) as (n & ts & tail & D & F & S & E).
  eexists. split.
  - rewrite E. rewrite !app_assoc. reflexivity.
  - repeat rewrite <- app_assoc. apply printable_app; [apply printable_plain, date_plain|].
    apply printable_app; [apply printable_plain, str_plain; reflexivity|].
    apply printable_app; [exact HG|].
    apply printable_app; [apply printable_plain, str_plain; reflexivity|].
    apply printable_app; [exact HF|].
    apply printable_app; [apply printable_plain, str_plain; reflexivity|].
    apply printable_app; [destruct D as (k & -> & _); apply printable_plain, dec_plain|].
    apply printable_app; [apply Pr_line; constructor|].
    apply printable_app; [|apply Pr_line; constructor].
    eapply printable_stripped; [exact S|]. apply Pr_tab.
    clear - F. induction F; cbn; [constructor|]. apply printable_app; [eauto using shown_printable|assumption].
Qed.

Lemma printable_no_lf l : printable l -> ~ In 10 l.
Proof.
  induction 1; cbn; intros I; [exact I| | |]; intuition (try lia).
  subst. apply H. unfold control. lia.
Qed.
