(* Tokenizer: character classes, quoting, punctuators and names. *)
From Verif Require Import Base Monad Text UtfModel UtfSpec UtfProofs CsvModel TokModel TokSpec.

(* ---------- classes ---------- *)
Definition class_b (P : Z -> bool) (mask : Z) : bool :=
  forallb (fun n => Bool.eqb (is_cmask (Z.of_nat n) mask) (P (Z.of_nat n))) (List.seq 0 128).

Lemma class_sweep P mask : class_b P mask = true ->
  forall c, 0 <= c < 128 -> is_cmask c mask = P c.
Proof.
  intros H c Hc. unfold class_b in H. rewrite forallb_forall in H.
  specialize (H (Z.to_nat c)). rewrite Z2Nat.id in H by lia.
  apply Bool.eqb_prop, H. apply in_seq. lia.
Qed.

Lemma cmask_high c mask : 128 <= c -> is_cmask c mask = false.
Proof. intros H. unfold is_cmask, get_cmask. destruct (Z.ltb_spec c 128); [lia | reflexivity]. Qed.

Lemma cmask_negative c mask : c < 0 -> is_cmask c mask = is_cmask 0 mask.
Proof.
  intros H. unfold is_cmask, get_cmask. destruct (Z.ltb_spec c 128); [|lia].
  replace (Z.to_nat c) with 0%nat by lia. reflexivity.
Qed.

Lemma class_gen (P : Z -> bool) mask : class_b P mask = true ->
  is_cmask 0 mask = false -> (forall c, c < 0 \/ 128 <= c -> P c = false) ->
  forall c, is_cmask c mask = P c.
Proof.
  intros H H0 HP c. destruct (Z.ltb_spec c 0).
  - rewrite cmask_negative by lia. rewrite H0, HP; auto.
  - destruct (Z.ltb_spec c 128); [apply class_sweep; auto; lia |].
    rewrite cmask_high by lia. rewrite HP; auto.
Qed.

Definition digit_b c := (48 <=? c) && (c <=? 57).
Definition letter_b c := (65 <=? c) && (c <=? 90) || (97 <=? c) && (c <=? 122).
Definition xdigit_b c := digit_b c || (65 <=? c) && (c <=? 70) || (97 <=? c) && (c <=? 102).
Definition name_start_b c := letter_b c || (c =? 95).
Definition name_char_b c := name_start_b c || digit_b c.
Definition space_b c := (c =? 32) || (9 <=? c) && (c <=? 13).
Ltac unb := unfold name_char_b, name_start_b, xdigit_b, digit_b, letter_b, space_b,
  name_char, name_start, xdigit, digit, letter, space in *.
Ltac lb := rewrite ?Bool.orb_true_iff, ?Bool.andb_true_iff, ?Z.leb_le, ?Z.eqb_eq in *.
Lemma digit_b_iff c : digit_b c = true <-> digit c. Proof. unb; lb; lia. Qed.
Lemma letter_b_iff c : letter_b c = true <-> letter c. Proof. unb; lb; lia. Qed.
Lemma xdigit_b_iff c : xdigit_b c = true <-> xdigit c. Proof. unb; lb; lia. Qed.
Lemma name_start_b_iff c : name_start_b c = true <-> name_start c. Proof. unb; lb; lia. Qed.
Lemma name_char_b_iff c : name_char_b c = true <-> name_char c. Proof. unb; lb; lia. Qed.
Lemma space_b_iff c : space_b c = true <-> space c. Proof. unb; lb; lia. Qed.

Ltac outside := let x := fresh in let Hx := fresh in intros x Hx; apply Bool.not_true_is_false; unb; lb; lia.
Lemma is_digit c : is_cmask c cmask_digit = digit_b c.
Proof. apply class_gen; [reflexivity | reflexivity | outside]. Qed.
Lemma is_letter c : is_cmask c cmask_alpha = letter_b c.
Proof. apply class_gen; [reflexivity | reflexivity | outside]. Qed.
Lemma is_xdigit c : is_cmask c cmask_xdigit = xdigit_b c.
Proof. apply class_gen; [reflexivity | reflexivity | outside]. Qed.
Lemma is_name_start c : is_cmask c cmask_namei = name_start_b c.
Proof. apply class_gen; [reflexivity | reflexivity | outside]. Qed.
Lemma is_name_char c : is_cmask c cmask_name = name_char_b c.
Proof. apply class_gen; [reflexivity | reflexivity | outside]. Qed.
Lemma is_space c : is_cmask c cmask_space = space_b c.
Proof. apply class_gen; [reflexivity | reflexivity | outside]. Qed.
Lemma is_alnum c : is_cmask c (Z.lor cmask_alpha cmask_digit) = letter_b c || digit_b c.
Proof. apply (class_gen (fun c => letter_b c || digit_b c)); [reflexivity | reflexivity | outside]. Qed.

Lemma classes :
  forall c, (is_cmask c cmask_space = true <-> space c)
         /\ (is_cmask c cmask_alpha = true <-> letter c)
         /\ (is_cmask c cmask_digit = true <-> digit c)
         /\ (is_cmask c cmask_xdigit = true <-> xdigit c)
         /\ (is_cmask c cmask_namei = true <-> name_start c)
         /\ (is_cmask c cmask_name = true <-> name_char c).
Proof.
  intros c. rewrite is_space, is_letter, is_digit, is_xdigit, is_name_start, is_name_char.
  rewrite space_b_iff, letter_b_iff, digit_b_iff, xdigit_b_iff, name_start_b_iff, name_char_b_iff.
  tauto.
Qed.

Lemma blank_refuted : exists c, is_byte c /\ is_cmask c cmask_blank = true /\ ~ blank c.
Proof. exists 10. repeat split; [unfold is_byte; lia .. | unfold blank; lia]. Qed.
Lemma control_refuted : exists c, is_byte c /\ control c /\ is_cmask c cmask_cntrl = false.
Proof. exists 9. repeat split; [unfold is_byte; lia .. | unfold control; lia]. Qed.

(* ---------- quoting ---------- *)
Definition escape_of (c : Z) : bytes := nth (Z.to_nat c) char_escapes [].

Lemma c_quote_cons c s : c_quote (c :: s) = escape_of c ++ c_quote s.
Proof. reflexivity. Qed.

(* reading back one escape sequence: decided for every byte, with an arbitrary
   rest *)
Ltac zsweep c n H :=
  let rec go k := match k with
    | 0%nat => exfalso; lia
    | S ?k' => destruct (Z.eq_dec c (Z.of_nat k')) as [-> | ?]; [clear H | go k']
    end in go n.

Definition printable_b (c : Z) := (32 <=? c) && (c <=? 126).
Lemma escape_printable c : is_byte c -> forallb printable_b (escape_of c) = true.
Proof.
  intros H. assert (E : forallb (fun n => forallb printable_b (nth n char_escapes [])) (List.seq 0 256) = true)
    by (vm_compute; reflexivity).
  rewrite forallb_forall in E. apply E, in_seq. unfold is_byte in H. lia.
Qed.

(* the three forms an escape sequence has *)
Definition form (c : Z) (e : bytes) : bool :=
  match e with
  | [x] => (x =? c) && negb (x =? 0) && negb (x =? 34) && negb (x =? 92)
  | [x; y] => (x =? 92) && match simple_escape y with Some d => d =? c | None => false end
  | [x; y; a; b] =>
    (x =? 92) && (y =? 120) && match hex_number 0 [a; b] with Some d => d =? c | None => false end
  | _ => false
  end.
Lemma escape_form c : is_byte c -> form c (escape_of c) = true.
Proof.
  intros H. assert (E : forallb (fun n => form (Z.of_nat n) (nth n char_escapes [])) (List.seq 0 256) = true)
    by (vm_compute; reflexivity).
  rewrite forallb_forall in E. specialize (E (Z.to_nat c)).
  unfold is_byte in H. rewrite Z2Nat.id in E by lia. apply E, in_seq. lia.
Qed.

Lemma string_body_escape c val r : is_byte c ->
  string_body 34 val (escape_of c ++ r) = string_body 34 (val ++ [c]) r.
Proof.
  intros H. pose proof (escape_form c H) as F.
  destruct (escape_of c) as [|x [|y [|a [|b [|z l]]]]]; cbn [form] in F; try discriminate.
  - apply andb_prop in F as [F F4]; apply andb_prop in F as [F F3]; apply andb_prop in F as [F1 F2].
    apply Z.eqb_eq in F1; subst x.
    cbn [app string_body]. apply Bool.negb_true_iff in F2, F3, F4.
    rewrite F2, F3, F4. reflexivity.
  - apply andb_prop in F as [F1 F]. apply Z.eqb_eq in F1; subst x.
    cbn [app string_body]. change (92 =? 0) with false. change (92 =? 34) with false.
    change (negb (34 =? 34) || negb (92 =? 92)) with false. cbn [app].
    destruct (simple_escape y); [|discriminate]. apply Z.eqb_eq in F; subst. reflexivity.
  - apply andb_prop in F as [F F3]. apply andb_prop in F as [F1 F2].
    apply Z.eqb_eq in F1, F2; subst x y.
    change ([92; 120; a; b] ++ r) with (92 :: 120 :: a :: b :: r).
    set (h := hex_number 0 [a; b]) in *.
    cbn -[hex_number]. fold h. destruct h as [d|]; [|discriminate].
    apply Z.eqb_eq in F3; subst. rewrite Z.mod_small by (unfold is_byte in H; lia). reflexivity.
Qed.

Lemma string_body_quote s : all_bytes s -> forall val u,
  string_body 34 val (c_quote s ++ 34 :: u) = Ok (val ++ s, u).
Proof.
  induction 1 as [|c s Hc Hs IH]; intros val u.
  - cbn. rewrite app_nil_r. reflexivity.
  - rewrite c_quote_cons, <- app_assoc, string_body_escape by assumption.
    rewrite IH, <- app_assoc. reflexivity.
Qed.

Lemma print_string_cons s : print_string s = 34 :: c_quote s ++ [34].
Proof. reflexivity. Qed.

Lemma accept_string_print s u : all_bytes s ->
  accept_string 34 (print_string s ++ u) = Ok (Some (T_string s, u)).
Proof.
  intros H. rewrite print_string_cons.
  change ((34 :: c_quote s ++ [34]) ++ u) with (34 :: (c_quote s ++ [34]) ++ u).
  rewrite <- app_assoc. unfold accept_string. cbn [peek nth tl app].
  change (34 =? 34) with true. cbv iota.
  rewrite (string_body_quote s H [] u). reflexivity.
Qed.

(* ---------- what a literal stands for ---------- *)
Definition hex_b (c : Z) : bool :=
  match hex_value c, find (fun e => fst e =? c) hex_digits with
  | Some v, Some e => v =? snd e
  | None, None => true
  | _, _ => false
  end.
Lemma hex_sweep : forallb (fun k => hex_b (Z.of_nat k)) (List.seq 0 128) = true.
Proof. vm_compute. reflexivity. Qed.
Lemma find_none_in (l : list (Z * Z)) c : find (fun e => fst e =? c) l = None -> forall d, ~ In (c, d) l.
Proof. intros H d Hi. pose proof (find_none _ _ H _ Hi) as E. cbn in E. lia. Qed.
Definition functional2 (l : list (Z * Z)) : bool :=
  forallb (fun e => forallb (fun f => negb (fst e =? fst f) || (snd e =? snd f)) l) l.
Lemma functional2_ok l : functional2 l = true -> forall c d e, In (c, d) l -> In (c, e) l -> d = e.
Proof.
  intros H c d e A B. unfold functional2 in H. rewrite forallb_forall in H. apply H in A. rewrite forallb_forall in A.
  apply A in B. cbn [fst snd] in B. rewrite Z.eqb_refl in B. cbn [negb orb] in B. lia.
Qed.
Lemma hex_digits_functional : functional2 hex_digits = true. Proof. vm_compute. reflexivity. Qed.
Lemma escapes_functional : functional2 escapes = true. Proof. vm_compute. reflexivity. Qed.
Lemma hex_digits_range c d : In (c, d) hex_digits -> 48 <= c <= 102 /\ 0 <= d <= 15.
Proof.
  assert (E : forallb (fun e => (48 <=? fst e) && (fst e <=? 102) && (0 <=? snd e) && (snd e <=? 15)) hex_digits = true) by (vm_compute; reflexivity).
  rewrite forallb_forall in E. intros H. apply E in H. cbn [fst snd] in H. lia.
Qed.
Lemma find_in_table (l : list (Z * Z)) c d : functional2 l = true -> In (c, d) l ->
  exists e, find (fun e => fst e =? c) l = Some e /\ snd e = d.
Proof.
  intros F H. destruct (find (fun e => fst e =? c) l) as [[c' d']|] eqn:E.
  - exists (c', d'). split; [reflexivity|]. apply find_some in E. destruct E as [E1 E2]. cbn in E2. assert (c' = c) by lia. subst.
    cbn. apply (functional2_ok l F c); assumption.
  - exfalso. apply (find_none_in l c E d H).
Qed.
Lemma hex_value_iff c d : hex_value c = Some d <-> In (c, d) hex_digits.
Proof.
  destruct (Z_lt_dec c 0) as [L|L].
  { split; intros H.
    - unfold hex_value in H. rewrite is_xdigit in H. unfold xdigit_b, digit_b in H. revert H. unb. intros H.
      destruct (_ || _ || _) eqn:E in H; [lb; lia | discriminate].
    - apply hex_digits_range in H. lia. }
  destruct (Z_lt_dec c 128) as [M|M].
  2:{ split; intros H.
    - unfold hex_value in H. rewrite cmask_high in H by lia. discriminate.
    - apply hex_digits_range in H. lia. }
  assert (E : hex_b c = true).
  { pose proof hex_sweep as S. rewrite forallb_forall in S. specialize (S (Z.to_nat c)). rewrite Z2Nat.id in S by lia. apply S.
    apply in_seq. lia. }
  unfold hex_b in E. split; intros H.
  - rewrite H in E. destruct (find _ hex_digits) as [[c' d']|] eqn:F; [|discriminate]. apply find_some in F. cbn in *. destruct F as [F1 F2].
    replace c with c' by lia. replace d with d' by lia. exact F1.
  - destruct (find_in_table _ _ _ hex_digits_functional H) as [e [F <-]]. rewrite F in E. destruct (hex_value c); [|discriminate]. f_equal. lia.
Qed.
Lemma hex_number_app ds : forall cp c, hex_number cp (ds ++ [c]) =
  match hex_number cp ds with None => None | Some v => match hex_value c with None => None | Some d => Some (v * 16 + d) end end.
Proof.
  induction ds as [|a ds IH]; intros cp c; cbn [app hex_number].
  - destruct (hex_value c); reflexivity.
  - destruct (hex_value a); [apply IH | reflexivity].
Qed.
Lemma hexadecimal_iff ds v : hex_number 0 ds = Some v <-> hexadecimal ds v.
Proof.
  split.
  - revert v. induction ds as [|c ds IH] using rev_ind; intros v H.
    + cbn in H. injection H as <-. constructor.
    + rewrite hex_number_app in H. destruct (hex_number 0 ds) as [u|]; [|discriminate]. destruct (hex_value c) as [d|] eqn:E; [|discriminate].
      injection H as <-. replace (u * 16 + d) with (16 * u + d) by lia. constructor; [apply IH; reflexivity | apply hex_value_iff, E].
  - induction 1 as [|ds v c d H IH Hd]; [reflexivity|]. rewrite hex_number_app, IH. apply hex_value_iff in Hd. rewrite Hd. f_equal. lia.
Qed.
Lemma hexadecimal_range ds v : hexadecimal ds v -> 0 <= v < 16 ^ Z.of_nat (length ds).
Proof.
  induction 1 as [|ds v c d H IH Hd]; [cbn; lia|]. apply hex_digits_range in Hd. rewrite app_length. cbn [length].
  replace (Z.of_nat (length ds + 1)) with (Z.of_nat (length ds) + 1) by lia. rewrite Z.pow_add_r by lia. lia.
Qed.
Lemma simple_escape_iff e c : simple_escape e = Some c <-> In (e, c) escapes.
Proof.
  split.
  - unfold simple_escape. cbn [existsb]. intros H.
    repeat match type of H with (if ?b then _ else _) = _ => destruct b eqn:? end; try discriminate; injection H as <-; lb;
      repeat match goal with H : _ = _ \/ _ |- _ => destruct H | H : False |- _ => destruct H end; try discriminate; subst; cbn [escapes In]; tauto.
  - intros H. repeat (destruct H as [H | H]; [injection H as <- <-; reflexivity|]). destruct H.
Qed.
Lemma escapes_letters e c : In (e, c) escapes -> e <> 120 /\ e <> 117 /\ e <> 85.
Proof. intros H. repeat (destruct H as [H | H]; [injection H as <- <-; lia|]). destruct H. Qed.

Lemma unicode_escape_iff ds u : (length ds <= 6)%nat -> unicode_escape ds = Some u <-> exists cp, hexadecimal ds cp /\ scalar cp /\ u = rfc3629 cp.
Proof.
  intros L. unfold unicode_escape. split.
  - intros H. destruct (hex_number 0 ds) as [cp|] eqn:E; [|discriminate]. apply hexadecimal_iff in E. exists cp. split; [exact E|].
    pose proof (hexadecimal_range _ _ E) as R.
    assert (16 ^ Z.of_nat (length ds) <= 16 ^ 6) by (apply Z.pow_le_mono_r; lia). change (16 ^ 6) with 16777216 in *.
    destruct (utf8_encode_spec cp) as [[A B]|[A B]]; [change (2 ^ 32) with 4294967296; lia | |]; rewrite B in H; [|discriminate].
    injection H as <-. auto.
  - intros (cp & H & S & ->). pose proof (hexadecimal_range _ _ H) as R. apply hexadecimal_iff in H. rewrite H.
    assert (16 ^ Z.of_nat (length ds) <= 16 ^ 6) by (apply Z.pow_le_mono_r; lia). change (16 ^ 6) with 16777216 in *.
    destruct (utf8_encode_spec cp) as [[A B]|[A B]]; [change (2 ^ 32) with 4294967296; lia | exact B | contradiction].
Qed.

Lemma denotes_read w v : denotes w v -> forall val r, string_body 34 val (w ++ 34 :: r) = Ok (val ++ v, r).
Proof.
  induction 1 as [|c w v H0 H1 H2 H IH|e c w v He H IH|ds b w v L Hx H IH|ds cp w v L Hx S H IH|ds cp w v L Hx S H IH]; intros val r.
  - cbn. rewrite app_nil_r. reflexivity.
  - cbn [app string_body]. replace (c =? 0) with false by lia. replace (c =? 34) with false by lia. replace (c =? 92) with false by lia.
    cbn [negb orb]. change (34 =? 34) with true. cbn [negb orb]. rewrite IH, <- app_assoc. reflexivity.
  - apply simple_escape_iff in He. cbn -[simple_escape]. rewrite He, IH, <- app_assoc. reflexivity.
  - destruct ds as [|a [|c [|d ds]]]; try discriminate. pose proof (hexadecimal_range _ _ Hx) as R. cbn in R. apply hexadecimal_iff in Hx.
    cbn -[hex_number]. rewrite Hx, IH, <- app_assoc. rewrite Z.mod_small by lia. reflexivity.
  - destruct ds as [|a [|c [|d [|e [|f ds]]]]]; try discriminate.
    assert (E : unicode_escape [a; c; d; e] = Some (rfc3629 cp)) by (apply unicode_escape_iff; [cbn; lia | exists cp; auto]).
    cbn -[unicode_escape rfc3629]. rewrite E, IH, <- app_assoc. reflexivity.
  - destruct ds as [|a [|c [|d [|e [|f [|g [|h ds]]]]]]]; try discriminate.
    assert (E : unicode_escape [a; c; d; e; f; g] = Some (rfc3629 cp)) by (apply unicode_escape_iff; [cbn; lia | exists cp; auto]).
    cbn -[unicode_escape rfc3629]. rewrite E, IH, <- app_assoc. reflexivity.
Qed.
Lemma raw_read w : raw_text w -> forall val r, string_body 39 val (w ++ 39 :: r) = Ok (val ++ w, r).
Proof.
  induction 1 as [|c w [H0 H1] H IH]; intros val r.
  - cbn. rewrite app_nil_r. reflexivity.
  - cbn [app string_body]. replace (c =? 0) with false by lia. replace (c =? 39) with false by lia. change (39 =? 34) with false. cbn [negb orb].
    rewrite IH, <- app_assoc. reflexivity.
Qed.
Lemma raw_only : forall s val x r, string_body 39 val s = Ok (x, r) -> exists w, s = w ++ 39 :: r /\ x = val ++ w /\ raw_text w.
Proof.
  induction s as [|c s IH]; intros val x r H; cbn [string_body] in H; [discriminate|].
  destruct (c =? 0) eqn:E0; [discriminate|]. destruct (c =? 39) eqn:E1.
  - injection H as <- <-. exists []. rewrite app_nil_r. split; [cbn; f_equal; lia|]. split; [reflexivity | constructor].
  - change (39 =? 34) with false in H. cbn [negb orb] in H. apply IH in H. destruct H as (w & -> & -> & R). exists (c :: w).
    rewrite <- app_assoc. split; [reflexivity|]. split; [reflexivity|]. constructor; [lia | exact R].
Qed.
Lemma denotes_only : forall n s val x r, (length s <= n)%nat -> string_body 34 val s = Ok (x, r) ->
  exists w v, s = w ++ 34 :: r /\ x = val ++ v /\ denotes w v.
Proof.
  induction n as [|n IH]; intros s val x r L H; (destruct s as [|c s]; [discriminate|]); [cbn in L; lia|]. cbn [length] in L.
  cbn [string_body] in H. destruct (c =? 0) eqn:E0; [discriminate|]. destruct (c =? 34) eqn:E1.
  { injection H as <- <-. exists [], []. rewrite app_nil_r. split; [cbn; f_equal; lia|]. split; [reflexivity | constructor]. }
  change (34 =? 34) with true in H. cbn [negb orb] in H. destruct (c =? 92) eqn:E2; cbn [negb] in H.
  2:{ apply IH in H; [|lia]. destruct H as (w & v & -> & -> & D). exists (c :: w), (c :: v). rewrite <- app_assoc.
      split; [reflexivity|]. split; [reflexivity|]. constructor; try lia. exact D. }
  assert (c = 92) by lia. subst c. destruct s as [|e s]; [discriminate|]. cbn [length] in L. destruct (simple_escape e) as [c|] eqn:Es.
  { apply IH in H; [|lia]. destruct H as (w & v & -> & -> & D). exists (92 :: e :: w), (c :: v). rewrite <- app_assoc.
    split; [reflexivity|]. split; [reflexivity|]. apply denotes_escape; [apply simple_escape_iff, Es | exact D]. }
  destruct (e =? 120) eqn:Ex.
  { assert (e = 120) by lia. subst e. destruct s as [|a [|b s]]; try discriminate. cbn [length] in L.
    destruct (hex_number 0 [a; b]) as [cp|] eqn:Eh; [|discriminate]. apply IH in H; [|lia]. destruct H as (w & v & -> & -> & D).
    apply hexadecimal_iff in Eh. pose proof (hexadecimal_range _ _ Eh) as R. cbn in R. rewrite Z.mod_small by lia.
    exists (92 :: 120 :: [a; b] ++ w), (cp :: v). rewrite <- app_assoc. split; [reflexivity|]. split; [reflexivity|]. apply (denotes_byte [a; b]); auto. }
  destruct (e =? 117) eqn:Eu.
  { assert (e = 117) by lia. subst e. destruct s as [|a [|b [|c [|d s]]]]; try discriminate. cbn [length] in L.
    destruct (unicode_escape [a; b; c; d]) as [u|] eqn:Eh; [|discriminate]. apply IH in H; [|lia]. destruct H as (w & v & -> & -> & D).
    apply unicode_escape_iff in Eh; [|cbn; lia]. destruct Eh as (cp & Hx & S & ->).
    exists (92 :: 117 :: [a; b; c; d] ++ w), (rfc3629 cp ++ v). rewrite <- app_assoc. split; [reflexivity|]. split; [reflexivity|]. apply (denotes_short [a; b; c; d]); auto. }
  destruct (e =? 85) eqn:EU; [|discriminate].
  assert (e = 85) by lia. subst e. destruct s as [|a [|b [|c [|d [|f [|g s]]]]]]; try discriminate. cbn [length] in L.
  destruct (unicode_escape [a; b; c; d; f; g]) as [u|] eqn:Eh; [|discriminate]. apply IH in H; [|lia]. destruct H as (w & v & -> & -> & D).
  apply unicode_escape_iff in Eh; [|cbn; lia]. destruct Eh as (cp & Hx & S & ->).
  exists (92 :: 85 :: [a; b; c; d; f; g] ++ w), (rfc3629 cp ++ v). rewrite <- app_assoc. split; [reflexivity|]. split; [reflexivity|]. apply (denotes_long [a; b; c; d; f; g]); auto.
Qed.

Lemma literal_exact s t r : accept_string 34 s = Ok (Some (t, r)) <-> exists w v, s = 34 :: w ++ 34 :: r /\ t = T_string v /\ denotes w v.
Proof.
  unfold accept_string. split.
  - destruct s as [|c s]; [discriminate|]. cbn [peek nth tl]. destruct (c =? 34) eqn:E; [|discriminate].
    destruct (string_body 34 [] s) as [[x q]| |] eqn:B; cbn [obind]; try discriminate. intros H. injection H as <- <-.
    apply (denotes_only (length s)) in B; [|lia]. destruct B as (w & v & -> & -> & D). exists w, v. split; [f_equal; lia|]. split; [reflexivity | exact D].
  - intros (w & v & -> & -> & D). cbn [peek nth tl]. change (34 =? 34) with true. cbv iota.
    rewrite (denotes_read w v D [] r). reflexivity.
Qed.
Lemma raw_exact s t r : accept_string 39 s = Ok (Some (t, r)) <-> exists w, s = 39 :: w ++ 39 :: r /\ t = T_string w /\ raw_text w.
Proof.
  unfold accept_string. split.
  - destruct s as [|c s]; [discriminate|]. cbn [peek nth tl]. destruct (c =? 39) eqn:E; [|discriminate].
    destruct (string_body 39 [] s) as [[x q]| |] eqn:B; cbn [obind]; try discriminate. intros H. injection H as <- <-.
    apply raw_only in B. destruct B as (w & -> & -> & D). exists w. split; [f_equal; lia|]. split; [reflexivity | exact D].
  - intros (w & -> & -> & D). cbn [peek nth tl]. change (39 =? 39) with true. cbv iota.
    rewrite (raw_read w D [] r). reflexivity.
Qed.
Lemma denotes_unique w v v' : denotes w v -> denotes w v' -> v = v'.
Proof. intros A B. pose proof (denotes_read w v A [] []) as X. rewrite (denotes_read w v' B [] []) in X. cbn in X. congruence. Qed.
Lemma quote_denotes s : all_bytes s -> denotes (c_quote s) s.
Proof.
  intros H. pose proof (string_body_quote s H [] []) as E.
  apply (denotes_only _ _ _ _ _ (le_n _)) in E. destruct E as (w & v & E & E2 & D). cbn [app] in E2. subst v.
  change (34 :: []) with ([34] : bytes) in E. apply app_inj_tail in E. destruct E as [-> _]. exact D.
Qed.

Lemma print_string_printable s : all_bytes s -> Forall (fun c => 32 <= c <= 126) (print_string s).
Proof.
  intros H. rewrite print_string_cons. constructor; [lia|]. apply Forall_app. split; [|repeat constructor; lia].
  induction H as [|c s Hc Hs IH]; [constructor|]. rewrite c_quote_cons. apply Forall_app. split; [|exact IH].
  pose proof (escape_printable c Hc) as E. rewrite forallb_forall in E.
  apply Forall_forall. intros x Hx. apply E in Hx. unfold printable_b in Hx. lb. lia.
Qed.

Lemma c_quote_injective s t : all_bytes s -> all_bytes t -> c_quote s = c_quote t -> s = t.
Proof.
  intros Hs Ht E. pose proof (string_body_quote s Hs [] []) as A.
  pose proof (string_body_quote t Ht [] []) as B. rewrite E in A. rewrite A in B.
  cbn in B. congruence.
Qed.

(* ---------- prefixes ---------- *)
Lemma starts_with_iff w : forall s, starts_with w s = true <-> is_prefix w s.
Proof.
  induction w as [|a w IH]; intros s; cbn.
  - split; [exists s; reflexivity | reflexivity].
  - destruct s as [|b s].
    + split; [discriminate | intros [r H]; discriminate].
    + rewrite Bool.andb_true_iff, Z.eqb_eq, IH. split.
      * intros [-> [r ->]]. exists r. reflexivity.
      * intros [r H]. injection H as -> ->. split; [reflexivity | exists r; reflexivity].
Qed.

Lemma skipn_prefix (w r : bytes) : skipn (length w) (w ++ r) = r.
Proof. induction w; cbn; auto. Qed.

(* ---------- punctuators ---------- *)
Definition entry_dec (a b : bytes * Z) : {a = b} + {a <> b}.
Proof. decide equality; [apply Z.eq_dec | apply (list_eq_dec Z.eq_dec)]. Defined.
Definition swapped_dec (a b : Z * bytes) : {a = b} + {a <> b}.
Proof. decide equality; [apply (list_eq_dec Z.eq_dec) | apply Z.eq_dec]. Defined.
Definition same_entries (t : list (bytes * Z)) (d : list (Z * bytes)) : bool :=
  forallb (fun e => if in_dec swapped_dec (snd e, fst e) d then true else false) t
  && forallb (fun e => if in_dec entry_dec (snd e, fst e) t then true else false) d.
Lemma same_entries_ok t d : same_entries t d = true -> forall p w, In (w, p) t <-> In (p, w) d.
Proof.
  intros H p w. apply andb_prop in H as [A B]. rewrite forallb_forall in A, B. split; intros H.
  - specialize (A _ H). cbn [fst snd] in A. destruct (in_dec _ _ _); [assumption | discriminate].
  - specialize (B _ H). cbn [fst snd] in B. destruct (in_dec _ _ _); [assumption | discriminate].
Qed.
Lemma punctuators_documented p w : In (w, p) punctuators <-> In (p, w) documented_punctuators.
Proof. apply same_entries_ok. vm_compute. reflexivity. Qed.
Lemma keywords_documented p w : In (w, p) keywords <-> In (p, w) documented_keywords.
Proof. apply same_entries_ok. vm_compute. reflexivity. Qed.

(* a later entry is not a proper prefix of an earlier one *)
Definition fits (a b : bytes) : bool := negb (starts_with b a) .
Fixpoint ordered (l : list (bytes * Z)) : bool :=
  match l with
  | [] => true
  | e :: l' => forallb (fun f => fits (fst e) (fst f)) l' && ordered l'
  end.
Lemma punctuators_ordered : ordered punctuators = true.
Proof. vm_compute. reflexivity. Qed.
Lemma ordered_filter f : forall l, ordered l = true -> ordered (filter f l) = true.
Proof.
  induction l as [|e l IH]; [reflexivity|]. cbn. intros H. apply andb_prop in H as [A B].
  destruct (f e); [|auto]. cbn. rewrite IH by assumption. rewrite Bool.andb_true_r.
  apply forallb_forall. intros x Hx. apply filter_In in Hx as [Hx _].
  rewrite forallb_forall in A. auto.
Qed.
Lemma prefix_chain (a b s : bytes) : is_prefix a s -> is_prefix b s -> (length a <= length b)%nat -> is_prefix a b.
Proof.
  revert b s. induction a as [|x a IH]; intros b s [r ->] [q E] L; [exists b; reflexivity|].
  destruct b as [|y b]; [cbn in L; lia|]. injection E as -> E. cbn in L.
  destruct (IH b (a ++ r)) as [z ->]; [exists r; reflexivity | exists q; exact E | lia | exists z; reflexivity].
Qed.

Lemma find_app {A} (f : A -> bool) l m : find f (l ++ m) = match find f l with Some x => Some x | None => find f m end.
Proof. induction l as [|a l IH]; [reflexivity|]. cbn. destruct (f a); auto. Qed.
Lemma find_rev_longest s : forall l e, ordered l = true ->
  find (fun e => starts_with (fst e) s) (rev l) = Some e ->
  In e l /\ is_prefix (fst e) s /\ forall f, In f l -> is_prefix (fst f) s -> (length (fst f) <= length (fst e))%nat.
Proof.
  induction l as [|a l IH]; intros e O F; [discriminate|].
  cbn in O. apply andb_prop in O as [O1 O2]. cbn [rev] in F. rewrite find_app in F.
  destruct (find _ (rev l)) eqn:E.
  - injection F as ->. destruct (IH _ O2 eq_refl) as (I1 & I2 & I3). split; [right; exact I1|].
    split; [exact I2|]. intros f [<- | Hf] P; [|auto].
    rewrite forallb_forall in O1. specialize (O1 _ I1). unfold fits in O1.
    destruct (Nat.le_gt_cases (length (fst a)) (length (fst e))) as [?|G]; [assumption|exfalso].
    assert (X : is_prefix (fst e) (fst a)) by (apply (prefix_chain _ _ s); auto; lia).
    apply starts_with_iff in X. rewrite X in O1. discriminate.
  - cbn [find] in F. destruct (starts_with (fst a) s) eqn:S1; [|discriminate]. injection F as ->.
    split; [left; reflexivity|]. apply starts_with_iff in S1. split; [exact S1|].
    intros f [<- | Hf] P; [lia|]. exfalso.
    apply starts_with_iff in P. pose proof (find_none _ _ E f) as N. cbv beta in N.
    rewrite N in P; [discriminate|]. rewrite <- in_rev. exact Hf.
Qed.

Lemma punctuator_nonempty e : In e punctuators -> fst e <> [].
Proof.
  assert (A : forallb (fun e => match fst e with [] => false | _ => true end) punctuators = true) by reflexivity.
  rewrite forallb_forall in A. destruct e as [w p]. intros H E. specialize (A _ H). cbn in A, E. subst w. discriminate.
Qed.
Lemma in_range e s : In e punctuators -> is_prefix (fst e) s -> In e (prefix_range punctuators (peek s 0)).
Proof.
  destruct e as [w p]. intros H [r ->]. apply filter_In. split; [exact H|]. pose proof (punctuator_nonempty _ H) as N.
  cbn in *. destruct w; [congruence|]. cbn. apply Z.eqb_refl.
Qed.

Lemma same_length_prefix (a b s : bytes) : is_prefix a s -> is_prefix b s -> length a = length b -> a = b.
Proof.
  intros A B L. destruct (prefix_chain _ _ _ A B) as [r ->]; [lia|]. rewrite app_length in L.
  destruct r; [rewrite app_nil_r; reflexivity | cbn in L; lia].
Qed.
Definition functional (l : list (bytes * Z)) : bool :=
  forallb (fun e => forallb (fun f => if list_eq_dec Z.eq_dec (fst e) (fst f) then snd e =? snd f else true) l) l.
Lemma functional_ok l : functional l = true -> forall w p q, In (w, p) l -> In (w, q) l -> p = q.
Proof.
  intros H w p q A B. unfold functional in H. rewrite forallb_forall in H. specialize (H _ A).
  rewrite forallb_forall in H. specialize (H _ B). cbn [fst snd] in H.
  destruct (list_eq_dec _ _ _); [apply Z.eqb_eq, H | congruence].
Qed.
Lemma punctuators_functional : functional punctuators = true. Proof. vm_compute. reflexivity. Qed.
Lemma keywords_functional : functional keywords = true. Proof. vm_compute. reflexivity. Qed.
Opaque punctuators keywords documented_punctuators documented_keywords.

Lemma punctuator_none s : accept_punctuator s = Ok None <->
  forall p w, In (p, w) documented_punctuators -> ~ is_prefix w s.
Proof.
  unfold accept_punctuator. destruct (find _ _) as [e|] eqn:F.
  - split; [discriminate|]. intros H. exfalso.
    destruct (find_some _ _ F) as [I S]. apply starts_with_iff in S. rewrite <- in_rev in I.
    apply filter_In in I as [I _]. destruct e as [w p]. apply (H p w); [apply punctuators_documented, I | exact S].
  - split; [|reflexivity]. intros _ p w H P. apply punctuators_documented in H.
    assert (R := in_range (w, p) s H P). rewrite in_rev in R. pose proof (find_none _ _ F _ R) as N.
    cbn [fst] in N. apply starts_with_iff in P. congruence.
Qed.

Lemma punctuator_longest s t r : accept_punctuator s = Ok (Some (t, r)) <->
  exists p w, t = T_punctuator p /\ In (p, w) documented_punctuators /\ s = w ++ r
  /\ forall p' w', In (p', w') documented_punctuators -> is_prefix w' s -> (length w' <= length w)%nat.
Proof.
  assert (K : forall e, find (fun e => starts_with (fst e) s) (rev (prefix_range punctuators (peek s 0))) = Some e ->
     In e punctuators /\ is_prefix (fst e) s /\
     forall p' w', In (p', w') documented_punctuators -> is_prefix w' s -> (length w' <= length (fst e))%nat).
  { intros e F. apply find_rev_longest in F; [|apply ordered_filter, punctuators_ordered].
    destruct F as (A & B & C). split; [apply filter_In in A; tauto|]. split; [exact B|].
    intros p' w' H P. apply punctuators_documented in H. apply (C (w', p')); [|exact P].
    apply in_range; assumption. }
  unfold accept_punctuator. destruct (find _ _) as [[w p]|] eqn:F.
  - destruct (K _ eq_refl) as (A & [r' E] & C). cbn [fst snd] in *. split.
    + intros H. injection H as <- <-. exists p, w. repeat split; auto.
      * apply punctuators_documented, A.
      * rewrite E at 1. f_equal. rewrite E, skipn_prefix. reflexivity.
    + intros (p' & w' & -> & H & E' & C').
      assert (W : w = w').
      { apply (same_length_prefix _ _ s); [exists r'; exact E | exists r; exact E'|].
        apply Nat.le_antisymm; [apply (C' p); [apply punctuators_documented, A | exists r'; exact E] |
                                apply (C p'); [exact H | exists r; exact E']]. }
      subst w'. apply punctuators_documented in H.
      rewrite (functional_ok _ punctuators_functional w p p' A H). rewrite E', skipn_prefix. reflexivity.
  - split; [discriminate|]. intros (p & w & -> & H & E & _). exfalso.
    assert (N : accept_punctuator s = Ok None) by (unfold accept_punctuator; rewrite F; reflexivity).
    rewrite punctuator_none in N. apply (N p w H). exists r. exact E.
Qed.

(* ---------- names ---------- *)
Lemma name_char_false c : name_char_b c = false <-> ~ name_char c.
Proof. rewrite <- Bool.not_true_iff_false, name_char_b_iff. tauto. Qed.

Lemma cmask_length_run w r : Forall name_char w -> no_name_follows r ->
  cmask_length cmask_name (w ++ r) = length w.
Proof.
  induction 1 as [|c w Hc Hw IH]; intros N.
  - destruct r as [|c r]; [reflexivity|]. cbn [app cmask_length]. rewrite is_name_char.
    rewrite (proj2 (name_char_false c)) by (apply (N c r); reflexivity). reflexivity.
  - cbn [app cmask_length length]. rewrite is_name_char, (proj2 (name_char_b_iff c) Hc), IH by assumption. reflexivity.
Qed.

Lemma split_name s : exists w r, s = w ++ r /\ Forall name_char w /\ no_name_follows r.
Proof.
  induction s as [|c s IH].
  - exists [], []. repeat split; [constructor | intros c r H; discriminate].
  - destruct (name_char_b c) eqn:E.
    + destruct IH as (w & r & -> & H & N). exists (c :: w), r. repeat split; auto.
      constructor; [apply name_char_b_iff, E | exact H].
    + exists [], (c :: s). repeat split; [constructor|]. intros c' r' H. injection H as <- <-.
      apply name_char_false, E.
Qed.

Lemma name_split w : name w -> exists c w', w = c :: w' /\ name_start c /\ Forall name_char w.
Proof.
  intros (c & w' & -> & A & B). exists c, w'. repeat split; auto. constructor; [left; exact A | exact B].
Qed.

Lemma starts_with_same_length a w r : length a = length w ->
  starts_with a (w ++ r) = if list_eq_dec Z.eq_dec a w then true else false.
Proof.
  revert w. induction a as [|x a IH]; intros [|y w] H; cbn in H; try lia; [reflexivity|].
  cbn [app starts_with]. rewrite IH by lia. destruct (Z.eqb_spec x y) as [->|N]; cbn [andb].
  - destruct (list_eq_dec Z.eq_dec a w) as [->|M];
      [destruct (list_eq_dec Z.eq_dec (y :: w) (y :: w)) | destruct (list_eq_dec Z.eq_dec (y :: a) (y :: w))]; congruence.
  - destruct (list_eq_dec Z.eq_dec (x :: a) (y :: w)); congruence.
Qed.

Lemma find_keyword w r : w <> [] ->
  match find (fun e => Nat.eqb (length (fst e)) (length w) && starts_with (fst e) (w ++ r))
             (prefix_range keywords (peek (w ++ r) 0)) with
  | Some e => In (snd e, w) documented_keywords
  | None => forall k, ~ In (k, w) documented_keywords
  end.
Proof.
  intros Hw. destruct (find _ _) as [[v k]|] eqn:F.
  - destruct (find_some _ _ F) as [I S]. cbn [fst snd] in *. apply andb_prop in S as [S1 S2].
    apply Nat.eqb_eq in S1. rewrite starts_with_same_length in S2 by exact S1.
    destruct (list_eq_dec _ _ _); [subst v | discriminate]. apply keywords_documented.
    apply filter_In in I. tauto.
  - intros k H. apply keywords_documented in H.
    assert (I : In (w, k) (prefix_range keywords (peek (w ++ r) 0))).
    { apply filter_In. split; [exact H|]. destruct w; [congruence|]. cbn. apply Z.eqb_refl. }
    pose proof (find_none _ _ F _ I) as N. cbn [fst] in N. rewrite Nat.eqb_refl in N.
    rewrite starts_with_same_length in N by reflexivity. destruct (list_eq_dec _ _ _); [discriminate | congruence].
Qed.

Lemma firstn_prefix (w r : bytes) : firstn (length w) (w ++ r) = w.
Proof. induction w; cbn; congruence. Qed.

Lemma name_accepted w r : name w -> no_name_follows r ->
  (forall k, In (k, w) documented_keywords -> accept_name (w ++ r) = Ok (Some (T_keyword k, r)))
  /\ ((forall k, ~ In (k, w) documented_keywords) -> accept_name (w ++ r) = Ok (Some (T_identifier w, r))).
Proof.
  intros Hn N. destruct (name_split w Hn) as (c & w' & E & S & A).
  assert (Hw : w <> []) by (rewrite E; discriminate).
  pose proof (find_keyword w r Hw) as F.
  unfold accept_name. rewrite (cmask_length_run w r A N).
  assert (P : is_cmask (peek (w ++ r) 0) cmask_namei = true).
  { rewrite E. cbn. rewrite is_name_start. apply name_start_b_iff, S. }
  rewrite P. cbn [negb]. cbv zeta.
  destruct (find _ _) as [e|].
  - rewrite skipn_prefix. split; intros H.
    + intros K. f_equal. f_equal. f_equal. f_equal.
      apply keywords_documented in K, F.
      exact (functional_ok _ keywords_functional w _ _ F K).
    + exfalso. apply (H _ F).
  - split; intros H; [intros K; exfalso; apply (F _ K)|].
    rewrite skipn_prefix, firstn_prefix. reflexivity.
Qed.

Lemma name_rejected s : accept_name s = Ok None <-> forall w r, s = w ++ r -> ~ name w.
Proof.
  split.
  - intros H w r -> (c & w' & -> & S & _). unfold accept_name in H.
    cbn [app peek nth] in H. rewrite is_name_start, (proj2 (name_start_b_iff c) S) in H. cbn [negb] in H. cbv zeta in H.
    destruct (find _ _); discriminate.
  - intros H. unfold accept_name. rewrite is_name_start. destruct (name_start_b (peek s 0)) eqn:E; [|reflexivity].
    exfalso. apply name_start_b_iff in E. destruct s as [|c s]; [cbn in E; unb; lia|].
    apply (H [c] s); [reflexivity|]. exists c, []. repeat split; [exact E | constructor].
Qed.
