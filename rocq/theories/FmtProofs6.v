(* The theorems on formatting and logging, and their counterexamples. *)
From Verif Require Import Base Text Monad NumPutModel ValueModel FmtModel FmtSpec
  FmtProofs1 FmtProofs2 FmtProofs3 FmtProofs4 FmtProofs5.

Local Open Scope Z_scope.

Lemma exact_any print s templ values o : sys_ok s -> Z.of_nat (length values) <= max_args ->
  (string_format print s templ values = Ok o <->
   exists ps, template templ ps /\ composed s templ (map (arg_text print) values) ps o).
Proof. intros HS. now apply exact. Qed.
Lemma refused_any print s templ values : sys_ok s -> Z.of_nat (length values) <= max_args ->
  string_format print s templ values <> UB /\
  (string_format print s templ values = Throw <-> forall ps, ~ template templ ps).
Proof. intros HS. now apply refused. Qed.
Lemma unambiguous templ ps qs : template templ ps -> template templ qs -> ps = qs.
Proof. apply template_fun. Qed.
Lemma acceptance_any print s templ vs ws : sys_ok s -> Z.of_nat (length vs) <= max_args ->
  Z.of_nat (length ws) <= max_args ->
  (string_format print s templ vs = Throw <-> string_format print s templ ws = Throw).
Proof. intros HS. now apply acceptance. Qed.
Lemma quote_any print s text values : sys_ok s -> Z.of_nat (length values) <= max_args ->
  ~ In 0 text -> string_format print s (quote text) values = Ok text.
Proof. intros HS. now apply quote_ok. Qed.
Lemma append_any print s a b ps qs x y values : sys_ok s -> Z.of_nat (length values) <= max_args ->
  template a ps -> template b qs -> ~ In (Num 0) ps -> ~ In (Num 0) qs ->
  string_format print s a values = Ok x -> string_format print s b values = Ok y ->
  string_format print s (a ++ b) values = Ok (x ++ y).
Proof. intros HS. now apply append. Qed.
Lemma number_any print s n text v values : sys_ok s -> Z.of_nat (length values) <= max_args ->
  1 <= n -> nth_error values (Z.to_nat (n - 1)) = Some v -> decimal n text ->
  string_format print s (str "${" ++ text ++ str "}") values = Ok (arg_text print v).
Proof. intros HS. now apply number. Qed.

Lemma shanghai_ok : sys_ok shanghai.
Proof. unfold sys_ok, tm_ok, shanghai. cbn. lia. Qed.

Lemma limit_refuted : exists print s n text v values,
  sys_ok s /\ 1 <= n /\ nth_error values (Z.to_nat (n - 1)) = Some v /\ decimal n text /\
  string_format print s (str "${" ++ text ++ str "}") values <> Ok (arg_text print v).
Proof.
  exists (fun _ => str "null"), shanghai, 655350, (str "655350"), VNull, (repeat VNull (Z.to_nat 655350)).
  split; [apply shanghai_ok|]. split; [lia|]. split; [|split].
  - rewrite nth_error_repeat; [reflexivity|]. apply Z2Nat.inj_lt; lia.
  - exists 5%nat. repeat split; intros; reflexivity || discriminate.
  - change (str "${" ++ str "655350" ++ str "}") with (str "${655350}"). rewrite limit_ex. discriminate.
Qed.

Lemma utc_refuted : exists print s, sys_ok s /\
  string_format print s (str "${time:utc}") [] <>
    Ok (date_text (utc_tm s) (tv_nsec s) ++ str " UTC").
Proof. exists (fun _ => []), shanghai. split; [apply shanghai_ok|]. vm_compute. discriminate. Qed.

Lemma name_refuted : exists print s name, sys_ok s /\
  (forall p, ~ builtin name p) /\ (forall n, ~ numeral name n) /\
  string_format print s (str "${" ++ name ++ str "}") [] <> Throw.
Proof.
  exists (fun _ => []), shanghai, (str "foo"). split; [apply shanghai_ok|]. repeat split.
  - unfold builtin. intros p B. decompose [and or] B; discriminate.
  - intros n N. apply numeral_val in N as [F _]. inversion F. unfold is_digit in *. lia.
  - vm_compute. discriminate.
Qed.

Lemma abbr_range c name : 0 <= c -> nth_error abbreviations (Z.to_nat c) = Some name -> c < 32.
Proof.
  intros H E. assert (nth_error abbreviations (Z.to_nat c) <> None) as X by congruence.
  apply nth_error_Some in X. cbn [length abbreviations] in X. lia.
Qed.

Lemma shown_fun c t u : shown c t -> shown c u -> t = u.
Proof.
  intros H G. inversion H; subst; inversion G; subst; try reflexivity; try lia; try congruence;
    repeat match goal with E : nth_error abbreviations _ = Some _ |- _ =>
      first [pose proof (abbr_range _ _ ltac:(eassumption) E); lia | revert E] end; intros; try congruence.
Qed.

Lemma one_line s file line func msg :
  log_ok s line -> Forall (fun c => 0 <= c) msg -> printable file -> printable func ->
  exists body, log_record s file line func msg = Ok (body ++ [10]) /\ printable body /\ ~ In 10 body.
Proof.
  intros H1 H2 H3 H4. destruct (record_printable s file line func msg H1 H2 H3 H4) as (b & E & P).
  exists b. repeat split; auto. now apply printable_no_lf.
Qed.

Lemma logf_ok print s file line templ values :
  log_ok s line -> printable file -> Z.of_nat (length values) <= max_args ->
  (forall ps, ~ template templ ps) /\ debug_logf print s file line templ values = Throw \/
  exists ps msg, template templ ps /\ composed s templ (map (arg_text print) values) ps msg /\
    (Forall (fun c => 0 <= c) msg ->
     exists body, debug_logf print s file line templ values = Ok (body ++ [10]) /\
       printable body /\ ~ In 10 body).
Proof.
  intros HO HF HA. unfold debug_logf.
  destruct (format_sem print s templ values (proj1 HO) HA) as [(ps & o & E & T & C)|[E N]].
  - right. exists ps, o. repeat split; auto. intros HM. rewrite E. cbn [obind].
    apply one_line; auto. apply printable_plain, str_plain. reflexivity.
  - left. split; [exact N|]. rewrite E. reflexivity.
Qed.

Lemma shanghai_log : log_ok shanghai 31.
Proof. split; [apply shanghai_ok|]. cbn. lia. Qed.

Lemma verbatim_refuted : exists s file line func msg r,
  log_ok s line /\ log_record s file line func msg = Ok r /\ forall a b, r <> a ++ msg ++ b.
Proof.
  exists shanghai, [], 31, [], [13]. eexists. split; [apply shanghai_log|]. split; [vm_compute; reflexivity|].
  intros a b E. assert (I : In 13 (a ++ [13] ++ b)) by (apply in_or_app; right; now left).
  rewrite <- E in I. cbn in I. repeat destruct I as [I|I]; try discriminate I. exact I.
Qed.

Lemma injective_refuted : exists m n, m <> n /\
  forall s file line func, log_record s file line func m = log_record s file line func n.
Proof. exists [27], (str "[ESC]"). split; [discriminate|]. intros s file line func.
  unfold log_record.
  replace (concat (map neutralize [27])) with (concat (map neutralize (str "[ESC]"))) by reflexivity.
  reflexivity.
Qed.

Lemma c1_refuted : exists s file line func msg r,
  log_ok s line /\ log_record s file line func msg = Ok r /\ In 155 r.
Proof.
  exists shanghai, [], 31, [], [155]. eexists. split; [apply shanghai_log|]. split; [vm_compute; reflexivity|].
  cbn. tauto.
Qed.
