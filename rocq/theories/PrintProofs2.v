(* What is printed determines the value, and is determined by it. *)
From Verif Require Import Base Text Monad NumPutModel ValueModel ValueProofs TokModel TokProofs1.
From Verif Require Import FmtModel FmtSpec FmtProofs1 FmtProofs2 PrintModel PrintSpec PrintProofs1.

Local Open Scope Z_scope.

Definition digit (c : Z) : Prop := 48 <= c <= 57.
Definition delim (a : bytes) : Prop := match a with [] => True | c :: _ => ~ digit c end.

Lemma dec_digits k : forall n, Forall digit (dec k n).
Proof.
  induction k as [|k IH]; intros n; cbn [dec]; [constructor|]. apply Forall_app. split; [apply IH|].
  repeat constructor; unfold digit; pose proof (Z.mod_pos_bound n 10 ltac:(lia)); lia.
Qed.
Lemma dec_inj k : forall n m, 0 <= n < 10 ^ Z.of_nat k -> 0 <= m < 10 ^ Z.of_nat k -> dec k n = dec k m -> n = m.
Proof.
  induction k as [|k IH]; intros n m Hn Hm E; [cbn in *; lia|]. cbn [dec] in E.
  apply app_inj_tail in E as [E1 E2]. apply IH in E1; [|now apply div10_lt..].
  pose proof (Z.div_mod n 10 ltac:(lia)). pose proof (Z.div_mod m 10 ltac:(lia)). lia.
Qed.

Lemma munch t : Forall digit t -> forall u a b, Forall digit u -> delim a -> delim b -> t ++ a = u ++ b -> t = u /\ a = b.
Proof.
  induction 1 as [|c t Hc _ IH]; intros [|d u] a b Hu Ha Hb E; cbn [app] in E.
  - now split.
  - subst a. inversion Hu; subst. cbn in Ha. tauto.
  - subst b. cbn in Hb. tauto.
  - injection E as -> E. inversion Hu; subst. apply IH in E as [-> ->]; auto.
Qed.
Lemma decimal_digits n t : decimal n t -> Forall digit t /\ exists c r, t = c :: r /\ digit c.
Proof.
  intros (k & -> & _). pose proof (dec_digits (S k) n) as D. split; [exact D|].
  pose proof (dec_length (S k) n) as L. destruct (dec (S k) n) as [|c r]; [discriminate|]. inversion D; subst. eauto.
Qed.
Lemma decimal_read n m t u a b : 0 <= n -> 0 <= m -> decimal n t -> decimal m u -> delim a -> delim b ->
  t ++ a = u ++ b -> n = m /\ a = b.
Proof.
  intros Hn Hm Dn Dm Ha Hb E. apply munch in E as [-> ->]; auto; [|now apply decimal_digits in Dn|now apply decimal_digits in Dm].
  split; [|reflexivity]. destruct Dn as (k & -> & H1 & _), Dm as (j & E & H2 & _).
  assert (k = j). { apply (f_equal (@length Z)) in E. rewrite !dec_length in E. lia. }
  subst j. eapply dec_inj; [| |exact E]; lia.
Qed.
Lemma integer_head n t : integer_text n t -> exists c r, t = c :: r /\ (c = 45 \/ digit c).
Proof.
  destruct 1 as [n t H D|n t H D].
  - apply decimal_digits in D as (_ & c & r & -> & Hc). eauto.
  - exists 45, t. split; [reflexivity|now left].
Qed.
Lemma integer_read n m t u a b : integer_text n t -> integer_text m u -> delim a -> delim b ->
  t ++ a = u ++ b -> n = m /\ a = b.
Proof.
  intros Hn Hm Ha Hb E. destruct Hn as [n t Hn Dn|n t Hn Dn], Hm as [m u Hm Dm|m u Hm Dm].
  - eapply decimal_read; eauto.
  - apply decimal_digits in Dn as (_ & c & r & -> & Hc). unfold digit in Hc. injection E as -> _. lia.
  - apply decimal_digits in Dm as (_ & c & r & -> & Hc). unfold digit in Hc. injection E as <- _. lia.
  - injection E as E. destruct (decimal_read (- n) (- m) t u a b) as [X ->]; auto; try lia. split; [lia|reflexivity].
Qed.
Lemma integer_text_fun n a b : integer_text n a -> integer_text n b -> a = b.
Proof. intros H1 H2. inversion H1; subst; inversion H2; subst; try lia; [|f_equal]; eauto using decimal_fun. Qed.

Lemma literal_read s r a b : all_bytes s -> all_bytes r -> literal s ++ a = literal r ++ b -> s = r /\ a = b.
Proof.
  intros Hs Hr E. rewrite <- !literal_ok in E by assumption. rewrite <- !app_assoc in E.
  injection E as E. cbn [app] in E. change (str """" ++ a) with (34 :: a) in E. change (str """" ++ b) with (34 :: b) in E.
  pose proof (string_body_quote s Hs [] a) as A. rewrite E, (string_body_quote r Hr [] b) in A. cbn in A. split; congruence.
Qed.
Lemma literal_head s : exists r, literal s = 34 :: r.
Proof. eexists. reflexivity. Qed.
Lemma literal_visible s : all_bytes s -> visible (literal s).
Proof. intros H. rewrite <- literal_ok by exact H. exact (print_string_printable s H). Qed.

Lemma decimal_visible n t : decimal n t -> visible t.
Proof. intros D. apply decimal_digits in D as [D _]. revert D. apply Forall_impl. unfold digit. lia. Qed.
Lemma integer_visible n t : integer_text n t -> visible t.
Proof. destruct 1 as [n t H D|n t H D]; apply decimal_visible in D; [exact D|]. change (visible (45 :: t)). constructor; [lia|exact D]. Qed.
Lemma visible_app a b : visible a -> visible b -> visible (a ++ b).
Proof. intros A B. apply Forall_app. now split. Qed.

Section Print.
  Variable real_text : real -> bytes.
  Variable opaque_text : Z -> bytes.
  Variable function_text : Z -> bytes.
  Notation prints := (prints real_text opaque_text function_text).
  Notation elements := (elements real_text opaque_text function_text).
  Notation fields := (fields real_text opaque_text function_text).

  (* ---------- one text for a value ---------- *)
  Lemma elements_fun l : Forall (fun v => forall a b, prints v a -> prints v b -> a = b) l ->
    forall ts us, elements l ts -> elements l us -> ts = us.
  Proof.
    induction 1 as [|v l Hv _ IH]; intros ts us A B; inversion A; inversion B; subst; [reflexivity|]. f_equal; eauto.
  Qed.
  Lemma fields_fun l : Forall (fun kv => forall a b, prints (snd kv) a -> prints (snd kv) b -> a = b) l ->
    forall ts us, fields l ts -> fields l us -> ts = us.
  Proof.
    induction 1 as [|[k v] l Hv _ IH]; intros ts us A B; inversion A; inversion B; subst; [reflexivity|].
    cbn [snd] in Hv. f_equal; [do 2 f_equal|]; eauto.
  Qed.
  Lemma prints_fun v : forall a b, prints v a -> prints v b -> a = b.
  Proof.
    induction v using value_ind'; intros x y A B; inversion A; subst; inversion B; subst; try reflexivity; try congruence.
    - eauto using integer_text_fun.
    - do 2 f_equal. f_equal. eapply elements_fun; eauto.
    - do 2 f_equal. f_equal. eapply fields_fun; eauto.
  Qed.

  (* ---------- one value for a text ---------- *)
  Definition lead (v : value) (c : Z) : Prop :=
    match v with
    | VNull => c = 110
    | VBool b => c = if b then 116 else 102
    | VInt _ => c = 45 \/ digit c
    | VStr _ => c = 34
    | VArr _ => c = 91
    | VObj _ => c = 123
    | _ => False
    end.
  Lemma prints_lead v t : plain v -> prints v t -> exists c r, t = c :: r /\ lead v c.
  Proof.
    intros Hp H. destruct H; cbn [plain] in Hp; try tauto;
      try (eexists; eexists; split; [reflexivity|reflexivity]).
    eapply integer_head; eassumption.
  Qed.

  Definition readable (v : value) : Prop := plain v -> value_ok v -> forall w t u a b, plain w -> value_ok w ->
    prints v t -> prints w u -> delim a -> delim b -> t ++ a = u ++ b -> v = w /\ a = b.

  Notation tail sep ts := (flat_map (fun t => sep ++ t) ts).

  Lemma tail_delim c ts a : ~ digit c -> delim (tail (str ", ") ts ++ [32; c] ++ a).
  Proof. intros H. destruct ts; cbn; unfold digit; lia. Qed.

  Lemma elements_read l : Forall readable l -> fold_right (fun v P => plain v /\ P) True l ->
    fold_right (fun v P => value_ok v /\ P) True l -> forall m, fold_right (fun v P => plain v /\ P) True m ->
    fold_right (fun v P => value_ok v /\ P) True m -> forall ts us a b, elements l ts -> elements m us ->
    tail (str ", ") ts ++ [32; 93] ++ a = tail (str ", ") us ++ [32; 93] ++ b -> l = m /\ a = b.
  Proof.
    induction 1 as [|v l Hv _ IH]; intros Pl Ol [|w m] Pm Om ts us a b El Em E;
      inversion El as [|? t ? ts' Hvt Hl]; inversion Em as [|? u ? us' Hwu Hm]; subst; cbn [flat_map] in E.
    - cbn in E. split; [reflexivity|congruence].
    - discriminate.
    - discriminate.
    - cbn [fold_right] in *. destruct Pl as [Pv Pl], Ol as [Ov Ol], Pm as [Pw Pm], Om as [Ow Om].
      rewrite <- !app_assoc in E. apply app_inv_head in E.
      eapply Hv in E as [-> E]; try eassumption; try (apply tail_delim; unfold digit; lia).
      eapply IH in E as [-> ->]; try eassumption. now split.
  Qed.
  Lemma fields_read l : Forall (fun kv => readable (snd kv)) l ->
    fold_right (fun kv P => plain (snd kv) /\ P) True l ->
    fold_right (fun kv P => all_bytes (fst kv) /\ value_ok (snd kv) /\ P) True l ->
    forall m, fold_right (fun kv P => plain (snd kv) /\ P) True m ->
    fold_right (fun kv P => all_bytes (fst kv) /\ value_ok (snd kv) /\ P) True m ->
    forall ts us a b, fields l ts -> fields m us ->
    tail (str ", ") ts ++ [32; 125] ++ a = tail (str ", ") us ++ [32; 125] ++ b -> l = m /\ a = b.
  Proof.
    induction 1 as [|[k v] l Hv _ IH]; intros Pl Ol [|[h w] m] Pm Om ts us a b El Em E;
      inversion El as [|? ? t ? ts' Hvt Hl]; inversion Em as [|? ? u ? us' Hwu Hm]; subst; cbn [flat_map] in E.
    - cbn in E. split; [reflexivity|congruence].
    - discriminate.
    - discriminate.
    - cbn [fold_right fst snd] in *. destruct Pl as [Pv Pl], Ol as (Ok & Ov & Ol), Pm as [Pw Pm], Om as (Oh & Ow & Om).
      rewrite <- !app_assoc in E. apply app_inv_head in E.
      apply literal_read in E as [-> E]; [|assumption|assumption]. apply app_inv_head in E.
      eapply Hv in E as [-> E]; try eassumption; try (apply tail_delim; unfold digit; lia).
      eapply IH in E as [-> ->]; try eassumption. now split.
  Qed.

  Lemma fields_first k v l ts : fields ((k, v) :: l) ts -> exists t ts', ts = (literal k ++ str ": " ++ t) :: ts'
    /\ prints v t /\ fields l ts'.
  Proof. intros H. inversion H; subst. eauto. Qed.
  Lemma elements_first v l ts : elements (v :: l) ts -> exists t ts', ts = t :: ts' /\ prints v t /\ elements l ts'.
  Proof. intros H. inversion H; subst. eauto. Qed.

  Lemma lead_not_bracket v : ~ lead v 93.
  Proof. destruct v as [|[]| | | | | | |]; cbn; unfold digit; lia. Qed.

  Lemma read_back v : readable v.
  Proof.
    induction v using value_ind'; intros Pv Ov w t u ra rb Pw Ow Ht Hu Ha Hb E;
      destruct (prints_lead _ _ Pv Ht) as (c & q & Et & Lv); destruct (prints_lead _ _ Pw Hu) as (c' & q' & Eu & Lw);
      pose proof E as Ec; rewrite Et, Eu in Ec; injection Ec as <- _; clear Et Eu;
      destruct w as [|b'|n'| |s'| | |l'|l']; cbn [lead] in Lv, Lw; unfold digit in Lv, Lw;
      try (exfalso; try destruct b; try destruct b'; try tauto; lia).
    - inversion Ht; subst; inversion Hu; subst. cbn in E. split; [reflexivity|congruence].
    - destruct b, b'; try (exfalso; lia); inversion Ht; subst; inversion Hu; subst; split; try reflexivity; injection E; auto.
    - inversion Ht as [| | |? ? A| | | | | | | |]; inversion Hu as [| | |? ? B| | | | | | | |]; subst.
      destruct (integer_read _ _ _ _ _ _ A B Ha Hb E) as [-> ->]. now split.
    - inversion Ht as [| | | | |? A| | | | | |]; inversion Hu as [| | | | |? B| | | | | |]; subst.
      apply literal_read in E as [-> ->]; [now split|apply Ov|apply Ow].
    - cbn [plain value_ok] in *. destruct Ov as [_ Ov], Ow as [_ Ow].
      inversion Ht as [| | | | | | | |X|? ts N A X| |]; inversion Hu as [| | | | | | | |Y|? us M B Y| |]; subst.
      + split; [reflexivity|]. injection E. auto.
      + exfalso. destruct l' as [|w l']; [congruence|]. apply elements_first in B as (u & us' & -> & Hw & _).
        apply prints_lead in Hw as (c & r'' & -> & L); [|apply Pw]. rewrite join_cons in E.
        injection E as <- _. now apply lead_not_bracket in L.
      + exfalso. destruct l as [|w l]; [congruence|]. apply elements_first in A as (u & us' & -> & Hw & _).
        apply prints_lead in Hw as (c & r'' & -> & L); [|apply Pv]. rewrite join_cons in E.
        injection E as -> _. now apply lead_not_bracket in L.
      + destruct l as [|v l]; [congruence|]. destruct l' as [|w l']; [congruence|].
        apply elements_first in A as (t & ts' & -> & Hv & A). apply elements_first in B as (u & us' & -> & Hw & B).
        rewrite !join_cons in *. injection E as E. change ([32; 93]) with (str " ]") in *.
        rewrite <- !app_assoc in E. inversion H as [|? ? Rv Rl]; subst. cbn [fold_right] in *.
        destruct Pv as [Pv Pl], Pw as [Pw Pm], Ov as [Ov Ol], Ow as [Ow Om].
        eapply Rv in E as [-> E]; try eassumption; try (apply (tail_delim 93); unfold digit; lia).
        apply (elements_read l Rl Pl Ol l' Pm Om ts' us' ra rb A B) in E as [-> ->]. now split.
    - cbn [plain value_ok] in *. destruct Ov as [_ Ov], Ow as [_ Ow].
      inversion Ht as [| | | | | | | | | |X|? ts N A X]; inversion Hu as [| | | | | | | | | |Y|? us M B Y]; subst.
      + split; [reflexivity|]. injection E. auto.
      + exfalso. destruct l' as [|[k w] l']; [congruence|]. apply fields_first in B as (u & us' & -> & _).
        rewrite join_cons in E. destruct (literal_head k) as [z Ez]. rewrite Ez in E. discriminate.
      + exfalso. destruct l as [|[k w] l]; [congruence|]. apply fields_first in A as (u & us' & -> & _).
        rewrite join_cons in E. destruct (literal_head k) as [z Ez]. rewrite Ez in E. discriminate.
      + destruct l as [|[k v] l]; [congruence|]. destruct l' as [|[h w] l']; [congruence|].
        apply fields_first in A as (t & ts' & -> & Hv & A). apply fields_first in B as (u & us' & -> & Hw & B).
        rewrite !join_cons in *. rewrite <- !app_assoc in E. apply app_inv_head in E. inversion H as [|? ? Rv Rl]; subst. cbn [fold_right fst snd] in *.
        destruct Pv as [Pv Pl], Pw as [Pw Pm], Ov as (Ok & Ov & Ol), Ow as (Oh & Ow & Om).
        apply literal_read in E as [-> E]; [|assumption|assumption]. apply app_inv_head in E.
        eapply Rv in E as [-> E]; try eassumption; try (apply (tail_delim 125); unfold digit; lia).
        apply (fields_read l Rl Pl Ol l' Pm Om ts' us' ra rb A B) in E as [-> ->]. now split.
  Qed.

  Lemma read_back' v : plain v -> value_ok v -> forall w t u a b, plain w -> value_ok w ->
    prints v t -> prints w u ->
    (forall c r, a = c :: r -> ~ 48 <= c <= 57) -> (forall c r, b = c :: r -> ~ 48 <= c <= 57) ->
    t ++ a = u ++ b -> v = w /\ a = b.
  Proof.
    intros Pv Ov w t u a b Pw Ow Ht Hu Ha Hb E. eapply (read_back v Pv Ov w t u a b); eauto.
    - destruct a; [exact I|]. exact (Ha _ _ eq_refl).
    - destruct b; [exact I|]. exact (Hb _ _ eq_refl).
  Qed.

  Lemma print_to_injective v w t : plain v -> plain w -> value_ok v -> value_ok w ->
    print_to real_text opaque_text function_text v = Ok t ->
    print_to real_text opaque_text function_text w = Ok t -> v = w.
  Proof.
    intros Pv Pw Ov Ow Ev Ew.
    destruct (print_to_prints real_text opaque_text function_text v Ov) as (t1 & E1 & P1).
    destruct (print_to_prints real_text opaque_text function_text w Ow) as (t2 & E2 & P2).
    rewrite Ev in E1. rewrite Ew in E2. injection E1 as <-. injection E2 as <-.
    eapply (read_back v Pv Ov w t t [] []); eauto; exact I.
  Qed.

  Lemma print_to_exact v t : value_ok v -> print_to real_text opaque_text function_text v = Ok t <-> prints v t.
  Proof.
    intros H. destruct (print_to_prints real_text opaque_text function_text v H) as (u & E & P). rewrite E. split.
    - now intros [= <-].
    - intros P'. f_equal. eapply prints_fun; eauto.
  Qed.

  (* ---------- only characters that can be printed ---------- *)
  Ltac vis := unfold visible; cbn; repeat (constructor; [lia|]); constructor.

  Hypothesis Vr : forall r, visible (real_text r).
  Hypothesis Vo : forall i, visible (opaque_text i).
  Hypothesis Vf : forall i, visible (function_text i).

  Lemma join_visible sep ts : visible sep -> Forall visible ts -> visible (join sep ts).
  Proof.
    intros Hs. destruct 1 as [|t ts Ht Hts]; [constructor|]. rewrite join_cons. apply visible_app; [exact Ht|].
    induction Hts as [|u ts Hu _ IH]; [constructor|]. cbn [flat_map]. auto using visible_app.
  Qed.
  Lemma prints_visible v : value_ok v -> forall t, prints v t -> visible t.
  Proof.
    induction v using value_ind'; intros Ov t Ht; inversion Ht; subst; try (now vis); cbn [value_ok] in Ov.
    - eauto using integer_visible.
    - apply Vr.
    - apply literal_visible, Ov.
    - apply visible_app; [vis|]. apply visible_app; [apply Vo|vis].
    - apply visible_app; [vis|]. apply visible_app; [apply Vf|vis].
    - apply visible_app; [vis|]. apply visible_app; [|vis]. apply join_visible; [vis|].
      destruct Ov as [_ Ov]. clear Ht. match goal with E : elements _ _ |- _ => rename E into HE end.
      match goal with N : l <> [] |- _ => clear N end. revert ts HE Ov. induction H as [|v l Hv _ IH]; intros ts HE Ov; inversion HE; subst; [constructor|].
      destruct Ov as [Ov Ol]. constructor; eauto.
    - apply visible_app; [vis|]. apply visible_app; [|vis]. apply join_visible; [vis|].
      destruct Ov as [_ Ov]. clear Ht. match goal with E : fields _ _ |- _ => rename E into HE end.
      match goal with N : l <> [] |- _ => clear N end. revert ts HE Ov. induction H as [|[k v] l Hv _ IH]; intros ts HE Ov; inversion HE; subst; [constructor|].
      destruct Ov as (Ok & Ov & Ol). cbn [fst snd] in *. constructor; [|eauto].
      apply visible_app; [now apply literal_visible|]. apply visible_app; [vis|eauto].
  Qed.
End Print.

Lemma one_and_one : exists v w, v <> w /\ value_ok v /\ value_ok w /\
  forall rt ot ft, put_Dec true 4607182418800017408 = Ok (rt (RFin false 1 0)) ->
  print_to rt ot ft v = print_to rt ot ft w.
Proof.
  exists (VInt 1), (VReal (RFin false 1 0)). split; [discriminate|]. split; [cbn; lia|]. split; [exact I|].
  intros rt ot ft E. replace (put_Dec true 4607182418800017408) with (Ok [49] : outcome bytes) in E by (vm_compute; reflexivity).
  injection E as E. unfold print_to. cbn [work print_loop]. rewrite <- E. vm_compute. reflexivity.
Qed.
