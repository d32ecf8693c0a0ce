(* Log records, and the consequences for std.string.format and std.debug.logf. *)
From Verif Require Import Base Text Monad NumPutModel ValueModel FmtModel FmtSpec
  FmtProofs1 FmtProofs2 FmtProofs3.

Local Open Scope Z_scope.

Section Format.
  Variables (print : value -> bytes) (s : system).
  Hypothesis HS : sys_ok s.

  Lemma exact templ values o : Z.of_nat (length values) <= max_args ->
    (string_format print s templ values = Ok o <->
     exists ps, template templ ps /\ composed s templ (map (arg_text print) values) ps o).
  Proof.
    intros HA. destruct (format_sem print s templ values HS HA) as [(ps & o' & E & T & C)|[E N]].
    - split.
      + intros E'. rewrite E in E'. injection E' as <-. eauto.
      + intros (qs & T' & C'). rewrite (template_fun _ _ _ T' T) in C'.
        rewrite E. f_equal. eauto using composed_fun.
    - split; [congruence|]. intros (qs & T' & _). exfalso. eapply N; eauto.
  Qed.

  Lemma refused templ values : Z.of_nat (length values) <= max_args ->
    string_format print s templ values <> UB /\
    (string_format print s templ values = Throw <-> forall ps, ~ template templ ps).
  Proof.
    intros HA. destruct (format_sem print s templ values HS HA) as [(ps & o' & -> & T & C)|[-> N]].
    - split; [discriminate|]. split; [discriminate|]. intros N. exfalso. eapply N; eauto.
    - split; [discriminate|]. tauto.
  Qed.

  Lemma quote_template text : ~ In 0 text -> template (quote text) (map Lit text).
  Proof.
    unfold quote. induction text as [|c text IH]; cbn; intros H; [constructor|].
    destruct (Z.eqb_spec c 36) as [->|]; cbn; [apply T_dollar|apply T_lit]; try apply IH; tauto.
  Qed.

  Lemma quote_ok text values : Z.of_nat (length values) <= max_args -> ~ In 0 text ->
    string_format print s (quote text) values = Ok text.
  Proof.
    intros HA H. apply exact; [exact HA|]. exists (map Lit text). split; [now apply quote_template|].
    pose proof (composed_lits s (quote text) (map (arg_text print) values) text [] []
      (composed_nil _ _ _)) as C. now rewrite !app_nil_r in C.
  Qed.

  Lemma template_app a b ps qs : template a ps -> template b qs -> template (a ++ b) (ps ++ qs).
  Proof.
    intros H G. induction H; cbn.
    - exact G.
    - now apply T_lit.
    - now apply T_dollar.
    - now apply T_digit.
    - rewrite <- app_assoc. cbn. now apply T_brace.
  Qed.

  Lemma puts_any p args x y t : p <> Num 0 -> puts s x args p t -> puts s y args p t.
  Proof.
    intros NP H. induction H; try congruence; try (now constructor).
    constructor. apply IHputs. discriminate.
  Qed.

  Lemma append a b ps qs x y values : Z.of_nat (length values) <= max_args ->
    template a ps -> template b qs -> ~ In (Num 0) ps -> ~ In (Num 0) qs ->
    string_format print s a values = Ok x -> string_format print s b values = Ok y ->
    string_format print s (a ++ b) values = Ok (x ++ y).
  Proof.
    intros HA TA TB NA NB EA EB. apply exact in EA as (ps' & TA' & CA); [|exact HA].
    apply exact in EB as (qs' & TB' & CB); [|exact HA].
    rewrite (template_fun _ _ _ TA' TA) in CA. rewrite (template_fun _ _ _ TB' TB) in CB.
    apply exact; [exact HA|]. exists (ps ++ qs). split; [now apply template_app|].
    destruct CA as (u & FU & ->). destruct CB as (v & FV & ->). exists (u ++ v).
    split; [|symmetry; apply concat_app].
    assert (G : forall l rs t, ~ In (Num 0) rs ->
      Forall2 (puts s l (map (arg_text print) values)) rs t ->
      Forall2 (puts s (a ++ b) (map (arg_text print) values)) rs t).
    { intros l rs t NI F. induction F; constructor; cbn in NI.
      - eapply puts_any; [|eassumption]. intuition congruence.
      - apply IHF. tauto. }
    apply Forall2_app; eapply G; eauto.
  Qed.

  Lemma numeral_dec k n : 0 <= n < 10 ^ Z.of_nat k -> numeral (dec k n) n.
  Proof.
    revert n; induction k; intros n H.
    - change (10 ^ Z.of_nat 0) with 1 in H. replace n with 0 by lia. constructor.
    - cbn [dec]. rewrite (Z.div_mod n 10) at 3 by lia.
      pose proof (Z.mod_pos_bound n 10 ltac:(lia)). constructor; [apply IHk, div10_lt, H|lia].
  Qed.

  Lemma number n text v values : Z.of_nat (length values) <= max_args -> 1 <= n ->
    nth_error values (Z.to_nat (n - 1)) = Some v -> decimal n text ->
    string_format print s (str "${" ++ text ++ str "}") values = Ok (arg_text print v).
  Proof.
    intros HA Hn HV (k & -> & L1 & L2). apply exact; [exact HA|]. exists [Num n].
    assert (NM : numeral (dec (S k) n) n) by (apply numeral_dec; lia).
    assert (F : Forall is_digit (dec (S k) n)) by (apply numeral_val in NM; tauto).
    rewrite Forall_forall in F. split.
    - change (template (36 :: 123 :: dec (S k) n ++ 125 :: []) [Num n]). constructor.
      + intros I. apply F in I. red in I. lia.
      + intros I. apply F in I. red in I. lia.
      + apply Nm_num; [|exact NM]. intros E. apply (f_equal (@length Z)) in E. rewrite dec_length in E. discriminate.
      + constructor.
    - exists [arg_text print v]. split; [|cbn; now rewrite app_nil_r]. constructor; [|constructor].
      apply P_arg; [exact Hn|]. rewrite nth_error_map, HV. reflexivity.
  Qed.

  Lemma acceptance templ vs ws : Z.of_nat (length vs) <= max_args -> Z.of_nat (length ws) <= max_args ->
    (string_format print s templ vs = Throw <-> string_format print s templ ws = Throw).
  Proof.
    intros A B. rewrite (proj2 (refused templ vs A)), (proj2 (refused templ ws B)). reflexivity.
  Qed.
End Format.

(* a template with more arguments than can be referred to *)
Lemma limit_ex print s : string_format print s (str "${655350}") (repeat VNull (Z.to_nat 655350))
  = Ok (str "(no arg)").
Proof.
  unfold string_format.
  change (safe_c_str (str "${655350}")) with (Ok (str "${655350}")). cbn [obind].
  set (l := map _ _). unfold formatv.
  assert (E : put_arg (str "${655350}") l uint32_max = Ok (str "(no arg)")).
  { unfold put_arg. change (uint32_max =? 0) with false. cbv iota.
    replace (Z.of_nat (length l)) with 655350; [reflexivity|].
    unfold l. rewrite map_length, repeat_length, Z2Nat.id; lia. }
  cbn [length str]. remember l as l' eqn:EL. clear EL l.
  set (t := str "${655350}") in *.
  change ((do r <- (do x <- put_arg t l' uint32_max ; Ok (x, [125])) ;
           do rest <- formatv_loop 9 s t l' (tl (snd r)) ; Ok ([] ++ fst r ++ rest)) = Ok (str "(no arg)")).
  rewrite E. reflexivity.
Qed.
