(* Tokenizer: where tokens end, definedness and termination. *)
From Verif Require Import Base Monad Text UtfModel UtfSpec UtfProofs CsvModel TokModel TokSpec TokProofs1 TokProofs2.
Opaque punctuators keywords documented_punctuators documented_keywords.

Definition ascii (c : Z) : Prop := 0 <= c < 128.
(* s is some ASCII characters and then r *)
Definition eats (s r : bytes) : Prop := exists a, s = a ++ r /\ Forall ascii a.
(* what precedes r ends with an ASCII character *)
Definition cut (s r : bytes) : Prop := exists a c, s = a ++ c :: r /\ ascii c.

Lemma eats_refl s : eats s s. Proof. exists []. split; [reflexivity | constructor]. Qed.
Lemma eats_cons c s r : ascii c -> eats s r -> eats (c :: s) r.
Proof. intros H (a & -> & A). exists (c :: a). split; [reflexivity | constructor; assumption]. Qed.
Lemma eats_trans a b c : eats a b -> eats b c -> eats a c.
Proof.
  intros (x & -> & X) (y & -> & Y). exists (x ++ y). rewrite <- app_assoc. split; [reflexivity|].
  apply Forall_app; auto.
Qed.
Lemma eats_cut c s r : ascii c -> eats s r -> cut (c :: s) r.
Proof.
  intros H (a & -> & A). destruct (exists_last (l := c :: a)) as (b & d & E); [discriminate|].
  exists b, d. split.
  - change (c :: a ++ r) with ((c :: a) ++ r). rewrite E, <- app_assoc. reflexivity.
  - assert (F : Forall ascii (c :: a)) by (constructor; assumption). rewrite E in F.
    apply Forall_app in F as [_ F]. inversion F; assumption.
Qed.
Lemma cut_cons c s r : cut s r -> cut (c :: s) r.
Proof. intros (a & d & -> & D). exists (c :: a), d. auto. Qed.
Lemma cut_length s r : cut s r -> (length r < length s)%nat.
Proof. intros (a & c & -> & _). rewrite app_length. cbn. lia. Qed.

Lemma cmask_ascii c mask : is_cmask 0 mask = false -> is_cmask c mask = true -> ascii c.
Proof.
  intros Z H. unfold ascii. destruct (Z.ltb_spec c 0); [rewrite cmask_negative in H by lia; congruence|].
  destruct (Z.ltb_spec c 128); [lia|]. rewrite cmask_high in H by lia. discriminate.
Qed.

Lemma collect_eats mask : is_cmask 0 mask = false -> forall s d r, collect_digits mask s = (d, r) -> eats s r.
Proof.
  intros Z. induction s as [|c s IH]; intros d r H; cbn [collect_digits] in H.
  - injection H as <- <-. apply eats_refl.
  - destruct (Z.eqb_spec c 96) as [->|].
    + apply eats_cons; [unfold ascii; lia | eapply IH, H].
    + destruct (is_cmask c mask) eqn:E; [|injection H as <- <-; apply eats_refl].
      destruct (collect_digits mask s) as [d' r'] eqn:F. injection H as <- <-.
      apply eats_cons; [eapply cmask_ascii; eauto | eapply IH; reflexivity].
Qed.

Lemma peek_eats s : ascii (peek s 0) -> peek s 0 <> 0 -> eats s (tl s).
Proof.
  destruct s as [|c s]; cbn; intros A N; [lia|]. apply eats_cons; [exact A | apply eats_refl].
Qed.

Lemma point_eats mask s hp d r : is_cmask 0 mask = false -> point_part mask s = (hp, d, r) -> eats s r.
Proof.
  intros Z H. unfold point_part in H. destruct (Z.eqb_spec (peek s 0) 46) as [E|].
  - destruct (collect_digits mask (tl s)) as [d' r'] eqn:C. injection H as <- <- <-.
    apply eats_trans with (tl s); [apply peek_eats; unfold ascii; lia | eapply collect_eats; eauto].
  - injection H as <- <- <-. apply eats_refl.
Qed.
Lemma sign_eats s d r : sign_part s = (d, r) -> eats s r.
Proof.
  unfold sign_part. intros H. destruct ((peek s 0 =? 43) || (peek s 0 =? 45)) eqn:E.
  - injection H as <- <-. lb. apply peek_eats; unfold ascii; lia.
  - injection H as <- <-. apply eats_refl.
Qed.
Lemma exponent_eats e s d r : e = 101 \/ e = 112 -> exponent_part e s = (d, r) -> eats s r.
Proof.
  intros L H. unfold exponent_part in H. destruct (Z.lor (peek s 0) 32 =? e) eqn:E.
  - destruct (sign_part (tl s)) as [sg q] eqn:S. destruct (collect_digits cmask_digit q) as [d' r'] eqn:C.
    injection H as <- <-. apply eats_trans with (tl s).
    + assert (X : peek s 0 = 101 \/ peek s 0 = 69 \/ peek s 0 = 112 \/ peek s 0 = 80).
      { destruct L as [-> | ->]; [apply exp_e in E | apply exp_p in E]; tauto. }
      apply peek_eats; unfold ascii; lia.
    + apply eats_trans with q; [eapply sign_eats, S | eapply collect_eats; [|exact C]; reflexivity].
  - injection H as <- <-. apply eats_refl.
Qed.

Section Conv.
Variable conv : bool -> bytes -> option token.

Lemma tail_eats tstr s m e t r : is_cmask 0 m = false -> e = 101 \/ e = 112 ->
  accept_number_tail conv tstr s m e = Ok (Some (t, r)) -> eats s r.
Proof.
  intros Z L H. unfold accept_number_tail in H.
  destruct (collect_digits m s) as [d1 s1] eqn:C1. destruct (point_part m s1) as [[hp d2] s2] eqn:C2.
  destruct (exponent_part e s2) as [d3 s3] eqn:C3.
  destruct (collect_digits (Z.lor cmask_alpha cmask_digit) s3) as [d4 s4] eqn:C4.
  destruct (conv hp _); [|discriminate]. injection H as <- <-.
  eapply eats_trans; [eapply collect_eats; eauto|].
  eapply eats_trans; [eapply point_eats; eauto|].
  eapply eats_trans; [eapply exponent_eats; eauto|].
  eapply collect_eats; [|exact C4]. reflexivity.
Qed.
Lemma tail_never tstr s m e : accept_number_tail conv tstr s m e <> UB /\ accept_number_tail conv tstr s m e <> Ok None.
Proof.
  unfold accept_number_tail. destruct (collect_digits m s) as [d1 s1].
  destruct (point_part m s1) as [[hp d2] s2]. destruct (exponent_part e s2) as [d3 s3].
  destruct (collect_digits _ s3) as [d4 s4]. destruct (conv _ _); split; discriminate.
Qed.

Lemma name_run_eats s : eats s (skipn (cmask_length cmask_name s) s).
Proof.
  induction s as [|c s IH]; [apply eats_refl|]. cbn [cmask_length].
  destruct (is_cmask c cmask_name) eqn:E; [|apply eats_refl].
  cbn [skipn]. apply eats_cons; [apply (cmask_ascii c cmask_name); [reflexivity | exact E] | exact IH].
Qed.

Lemma peek_cons s c : peek s 0 = c -> c <> 0 -> exists s', s = c :: s'.
Proof. destruct s as [|x s]; cbn; intros <- H; [congruence | exists s; reflexivity]. Qed.

Lemma eats_head_cut s r : eats s r -> (length r < length s)%nat -> cut s r.
Proof.
  intros (a & -> & A) L. destruct a as [|c a]; [cbn in L; lia|]. inversion A; subst.
  apply eats_cut; [assumption|]. exists a. auto.
Qed.
Lemma eats_length s r : eats s r -> (length r <= length s)%nat.
Proof. intros (a & -> & _). rewrite app_length. lia. Qed.

Lemma number_eats last s t r : accept_number conv last s = Ok (Some (t, r)) -> cut s r.
Proof.
  intros H. unfold accept_number in H.
  set (c := peek s 0) in H. set (sg := (c =? 43) || (c =? 45)) in H.
  assert (Q : eats s (if sg then tl s else s)).
  { destruct sg eqn:S; [|apply eats_refl]. unfold sg, c in S. lb. apply peek_eats; unfold ascii; lia. }
  destruct (sg && may_infix_operators_follow last); [discriminate|]. cbv zeta in H.
  remember (if sg then tl s else s : list Z) as q eqn:Hq in H.
  assert (Q' : eats s q) by (rewrite Hq; exact Q). clear Q Hq. rename Q' into Q.
  assert (K : eats q r -> (length r < length q)%nat -> cut s r).
  { intros A B. apply eats_head_cut; [eapply eats_trans; eauto|]. apply eats_length in Q. lia. }
  assert (NR : forall n, cmask_length cmask_name q = n -> n <> O -> skipn n q = r -> cut s r).
  { intros n L N E.
    assert (n <= length q)%nat.
    { rewrite <- L. clear. induction q as [|x q IH]; cbn; [lia|]. destruct (is_cmask x cmask_name); lia. }
    apply K; rewrite <- E; [rewrite <- L; apply name_run_eats | rewrite skipn_length; lia]. }
  destruct ((peek q 0 =? 110) || (peek q 0 =? 78)) eqn:E1.
  { destruct (Nat.eqb_spec (cmask_length cmask_name q) 3) as [L|]; [|discriminate]. cbn [negb] in H.
    destruct (negb (peek q 1 =? 97) || _); [discriminate|]. injection H as <- E. apply (NR 3%nat); auto. }
  destruct ((peek q 0 =? 105) || (peek q 0 =? 73)) eqn:E2.
  { destruct (Nat.eqb_spec (cmask_length cmask_name q) 8) as [L|]; [|discriminate]. cbn [negb] in H.
    destruct (negb (starts_with _ (tl q))); [discriminate|]. injection H as <- E. apply (NR 8%nat); auto. }
  destruct (Z.eqb_spec (peek q 0) 48) as [E3|].
  { destruct (peek_cons q 48 E3) as [q' Eq]; [lia|]. rewrite Eq in H, K. cbn [tl] in H.
    destruct ((Z.lor (peek q' 0) 32 =? 98) || (Z.lor (peek q' 0) 32 =? 120)) eqn:E4.
    - apply tail_eats in H; [|reflexivity | right; reflexivity].
      assert (A : eats q' (tl q')).
      { apply radix_mark in E4. apply peek_eats; unfold ascii; lia. }
      apply K.
      + apply eats_cons; [unfold ascii; lia|]. eapply eats_trans; eauto.
      + apply eats_length in H, A. cbn. lia.
    - apply tail_eats in H; [|reflexivity | left; reflexivity].
      apply K; [apply eats_cons; [unfold ascii; lia | exact H]|]. apply eats_length in H. cbn. lia. }
  destruct ((49 <=? peek q 0) && (peek q 0 <=? 57)) eqn:E4; [|discriminate].
  lb. destruct q as [|d q'] eqn:Eq; [cbn in E4; lia|]. cbn [peek nth] in *.
  assert (D : forall z, accept_number_tail conv z (d :: q') cmask_digit 101 =
              accept_number_tail conv (z ++ [d]) q' cmask_digit 101).
  { intros z. unfold accept_number_tail. cbn [collect_digits].
    destruct (Z.eqb_spec d 96); [lia|]. rewrite is_digit.
    rewrite (proj2 (digit_b_iff d)) by (unfold digit; lia).
    destruct (collect_digits cmask_digit q') as [d1 s1].
    destruct (point_part cmask_digit s1) as [[hp d2] s2]. destruct (exponent_part 101 s2) as [d3 s3].
    destruct (collect_digits _ s3) as [d4 s4]. rewrite <- app_assoc. reflexivity. }
  rewrite D in H.
  apply tail_eats in H; [|reflexivity | left; reflexivity].
  apply K; [apply eats_cons; [unfold ascii; lia | exact H]|]. apply eats_length in H. cbn. lia.
Qed.

Lemma punctuator_eats s t r : accept_punctuator s = Ok (Some (t, r)) -> cut s r.
Proof.
  intros H. apply punctuator_longest in H as (p & w & -> & I & -> & _).
  pose proof (punct_shape p w I) as K. unfold punct_ok in K. repeat apply andb_prop in K as [K ?].
  assert (A : Forall ascii w).
  { apply Forall_forall. intros x Hx. rewrite forallb_forall in H0. apply H0 in Hx.
    apply andb_prop in Hx as [Hx _]. apply andb_prop in Hx as [X Y]. unfold ascii. lia. }
  destruct w as [|c w]; [discriminate|]. inversion A; subst. apply eats_cut; [assumption|]. exists w. auto.
Qed.

Lemma string_body_cut head : ascii head -> forall n s val v r, (length s <= n)%nat ->
  string_body head val s = Ok (v, r) -> cut s r.
Proof.
  intros Hh. induction n as [|n IH]; intros s val v r L H.
  - destruct s; [discriminate | cbn in L; lia].
  - destruct s as [|c s]; [discriminate|]. cbn [string_body] in H. cbn in L.
    destruct (c =? 0); [discriminate|]. destruct (Z.eqb_spec c head) as [->|].
    { injection H as <- <-. exists [], head. split; [reflexivity | exact Hh]. }
    destruct (negb (head =? 34) || negb (c =? 92)).
    { apply cut_cons. eapply IH; [|exact H]. lia. }
    destruct s as [|e s]; [discriminate|]. cbn in L.
    destruct (simple_escape e).
    { do 2 apply cut_cons. eapply IH; [|exact H]. lia. }
    destruct (e =? 120).
    { destruct s as [|a [|b s]]; try discriminate. destruct (hex_number 0 [a; b]); [|discriminate].
      do 4 apply cut_cons. eapply IH; [|exact H]. cbn in L. lia. }
    destruct (e =? 117).
    { destruct s as [|a [|b [|x [|y s]]]]; try discriminate. destruct (unicode_escape [a; b; x; y]); [|discriminate].
      do 6 apply cut_cons. eapply IH; [|exact H]. cbn in L. lia. }
    destruct (e =? 85); [|discriminate].
    destruct s as [|a [|b [|x [|y [|z [|w s]]]]]]; try discriminate.
    destruct (unicode_escape [a; b; x; y; z; w]); [|discriminate].
    do 8 apply cut_cons. eapply IH; [|exact H]. cbn in L. lia.
Qed.
Lemma string_body_defined head : forall n s val, (length s <= n)%nat -> string_body head val s <> UB.
Proof.
  induction n as [|n IH]; intros s val L.
  - destruct s; [discriminate | cbn in L; lia].
  - destruct s as [|c s]; [discriminate|]. cbn [string_body]. cbn in L.
    destruct (c =? 0); [discriminate|]. destruct (c =? head); [discriminate|].
    destruct (negb (head =? 34) || negb (c =? 92)); [apply IH; lia|].
    destruct s as [|e s]; [discriminate|]. cbn in L.
    destruct (simple_escape e); [apply IH; lia|].
    destruct (e =? 120).
    { destruct s as [|a [|b s]]; try discriminate. destruct (hex_number 0 [a; b]); [|discriminate].
      apply IH. cbn in L. lia. }
    destruct (e =? 117).
    { destruct s as [|a [|b [|x [|y s]]]]; try discriminate. destruct (unicode_escape [a; b; x; y]); [|discriminate].
      apply IH. cbn in L. lia. }
    destruct (e =? 85); [|discriminate].
    destruct s as [|a [|b [|x [|y [|z [|w s]]]]]]; try discriminate.
    destruct (unicode_escape [a; b; x; y; z; w]); [|discriminate].
    apply IH. cbn in L. lia.
Qed.

Lemma string_cut head s t r : ascii head -> head <> 0 -> accept_string head s = Ok (Some (t, r)) -> cut s r.
Proof.
  intros A N H. unfold accept_string in H. destruct (Z.eqb_spec (peek s 0) head) as [E|]; [|discriminate].
  destruct (peek_cons s head E N) as [s' ->]. cbn [tl] in H.
  destruct (string_body head [] s') as [[v q]| |] eqn:B; [|discriminate..]. injection H as <- <-.
  apply cut_cons. eapply string_body_cut; [exact A | | exact B]. apply Nat.le_refl.
Qed.

Lemma name_cut s t r : accept_name s = Ok (Some (t, r)) -> cut s r.
Proof.
  intros H. unfold accept_name in H. destruct (is_cmask (peek s 0) cmask_namei) eqn:E; [|discriminate].
  cbn [negb] in H. cbv zeta in H.
  assert (R : skipn (cmask_length cmask_name s) s = r) by (destruct (find _ _); injection H; congruence).
  subst r. apply eats_head_cut; [apply name_run_eats|]. rewrite skipn_length.
  rewrite is_name_start in E. apply name_start_b_iff in E.
  destruct s as [|c s]; [cbn in E; unb; lia|]. cbn [cmask_length]. cbn in E.
  rewrite is_name_char, (proj2 (name_char_b_iff c)) by (left; exact E). cbn. lia.
Qed.

Lemma any_cut last s t r : accept_any conv last s = Ok (Some (t, r)) -> cut s r.
Proof.
  unfold accept_any, or_else. intros H.
  destruct (accept_number conv last s) as [[[? ?]|]| |] eqn:E1; try discriminate.
  { injection H as -> ->. eapply number_eats, E1. }
  destruct (accept_punctuator s) as [[[? ?]|]| |] eqn:E2; try discriminate.
  { injection H as -> ->. eapply punctuator_eats, E2. }
  destruct (accept_string 34 s) as [[[? ?]|]| |] eqn:E3; try discriminate.
  { injection H as -> ->. eapply string_cut, E3; unfold ascii; lia. }
  destruct (accept_string 39 s) as [[[? ?]|]| |] eqn:E4; try discriminate.
  { injection H as -> ->. eapply string_cut, E4; unfold ascii; lia. }
  eapply name_cut, H.
Qed.

Lemma any_defined last s : accept_any conv last s <> UB.
Proof.
  assert (A1 : accept_number conv last s <> UB).
  { unfold accept_number. cbv zeta. repeat match goal with |- context [if ?b then _ else _] => destruct b; try discriminate end;
      apply tail_never. }
  assert (A2 : accept_punctuator s <> UB) by (unfold accept_punctuator; destruct (find _ _); discriminate).
  assert (A3 : forall h, accept_string h s <> UB).
  { intros h. unfold accept_string. destruct (_ =? _); [|discriminate].
    pose proof (string_body_defined h _ (tl s) [] (Nat.le_refl _)) as D.
    destruct (string_body h [] (tl s)); [discriminate.. | congruence]. }
  assert (A4 : accept_name s <> UB).
  { unfold accept_name. destruct (negb _); [discriminate|]. cbv zeta. destruct (find _ _); discriminate. }
  pose proof (A3 34) as A5. pose proof (A3 39) as A6.
  unfold accept_any, or_else.
  destruct (accept_number conv last s) as [[|]| |]; try discriminate; try congruence.
  destruct (accept_punctuator s) as [[|]| |]; try discriminate; try congruence.
  destruct (accept_string 34 s) as [[|]| |]; try discriminate; try congruence.
  destruct (accept_string 39 s) as [[|]| |]; try discriminate; try congruence.
Qed.
End Conv.

(* ---------- consuming ---------- *)
Lemma rfc_ascii cp : scalar cp -> cp < 128 -> rfc3629 cp = [cp].
Proof. intros S H. unfold rfc3629. destruct (Z.ltb_spec cp 128); [reflexivity | lia]. Qed.
Lemma rfc_high cp : scalar cp -> 128 <= cp -> Forall (fun b => 128 <= b) (rfc3629 cp).
Proof.
  intros S H. unfold rfc3629, cont.
  assert (M : forall x, 0 <= x mod 64) by (intros; apply Z.mod_pos_bound; lia).
  destruct (Z.ltb_spec cp 128); [lia|].
  assert (0 <= cp / 64) by (apply Z.div_pos; lia).
  assert (0 <= cp / 4096) by (apply Z.div_pos; lia).
  assert (0 <= cp / 262144) by (apply Z.div_pos; lia).
  repeat match goal with |- context [if ?b then _ else _] => destruct b end;
    repeat (constructor; [try (match goal with |- context [?x mod 64] => pose proof (M x) end); lia|]); constructor.
Qed.

Lemma destruct_last (x : bytes) : x = [] \/ exists y d, x = y ++ [d].
Proof. destruct x as [|c x]; [left; reflexivity | right]. destruct (exists_last (l := c :: x)) as (y & d & E); [discriminate|]. eauto. Qed.

Lemma consume_loop_wf : forall cps fuel a c b,
  Forall scalar cps -> concat (map rfc3629 cps) = a ++ c :: b -> ascii c ->
  (S (length a) <= fuel)%nat ->
  consume_loop fuel (S (length a)) (a ++ c :: b) = Ok b /\ utf8_wf b.
Proof.
  induction cps as [|cp cps IH]; intros fuel a c b SC E A L.
  - destruct a; discriminate.
  - inversion SC as [|? ? S1 S2]; subst. cbn [map concat] in E.
    destruct fuel as [|fuel]; [lia|]. cbn [consume_loop].
    rewrite <- E, (decode_rfc cp _ S1).
    assert (Lr : (length (rfc3629 cp ++ concat (map rfc3629 cps)) - length (concat (map rfc3629 cps)) = length (rfc3629 cp))%nat)
      by (rewrite app_length; lia).
    rewrite Lr.
    (* the first character lies within a ++ [c] *)
    assert (X : exists x, a ++ [c] = rfc3629 cp ++ x /\ concat (map rfc3629 cps) = x ++ b).
    { destruct (Z.ltb_spec cp 128) as [LT|GE].
      - rewrite (rfc_ascii cp S1 LT) in *. destruct a as [|y a]; cbn [app] in E; injection E as -> E.
        + exists []. split; [reflexivity | exact E].
        + exists (a ++ [c]). split; [reflexivity | rewrite <- app_assoc; exact E].
      - pose proof (rfc_high cp S1 GE) as H. revert E H. generalize (concat (map rfc3629 cps)) as z.
        generalize (rfc3629 cp) as w. clear -A. intros w. revert a.
        induction w as [|y w IHw]; intros a z E H.
        + exists (a ++ [c]). split; [reflexivity | rewrite <- app_assoc; exact E].
        + inversion H; subst. destruct a as [|q a]; cbn [app] in E; injection E as -> E.
          * unfold ascii in A. lia.
          * destruct (IHw a z E) as (x & X1 & X2); [assumption|]. exists x. cbn [app]. rewrite X1. auto. }
    destruct X as (x & X1 & X2).
    assert (LX : (S (length a) = length (rfc3629 cp) + length x)%nat).
    { assert (Y : length (a ++ [c]) = length (rfc3629 cp ++ x)) by (rewrite X1; reflexivity).
      rewrite !app_length in Y. cbn in Y. lia. }
    destruct (Nat.leb_spec (length (rfc3629 cp)) (S (length a))) as [_|?]; [|lia].
    pose proof (rfc3629_nonempty cp) as NE. assert (0 < length (rfc3629 cp))%nat by (destruct (rfc3629 cp); [congruence | cbn; lia]).
    destruct (destruct_last x) as [-> | (x' & d & ->)].
    + cbn in LX. replace (S (length a) - length (rfc3629 cp))%nat with 0%nat by lia.
      assert (Q : forall s, consume_loop fuel 0 s = Ok s) by (destruct fuel; reflexivity).
      rewrite Q, X2. split; [reflexivity|]. exists cps. split; [assumption | exact (eq_sym X2)].
    + assert (d = c) by (apply (f_equal (@rev Z)) in X1; rewrite app_assoc, !rev_app_distr in X1; cbn in X1; congruence).
      subst d. rewrite app_length in LX. cbn in LX.
      replace (S (length a) - length (rfc3629 cp))%nat with (S (length x')) by lia.
      rewrite X2, <- app_assoc. cbn [app]. apply (IH fuel x' c b); auto; [|lia].
      rewrite X2, <- app_assoc. reflexivity.
Qed.

Lemma consume_wf s r : utf8_wf s -> cut s r -> consume (length s - length r) s = Ok r /\ utf8_wf r.
Proof.
  intros (cps & SC & E) (a & c & -> & A).
  replace (length (a ++ c :: r) - length r)%nat with (S (length a)) by (rewrite app_length; cbn; lia).
  apply (consume_loop_wf cps); auto.
Qed.

Lemma consume_wf_n n s r : utf8_wf s -> cut s r -> length s = (n + length r)%nat -> consume n s = Ok r /\ utf8_wf r.
Proof. intros W C L. replace n with (length s - length r)%nat by lia. apply consume_wf; assumption. Qed.

Lemma consume_loop_length : forall fuel n s r, all_bytes s -> consume_loop fuel n s = Ok r ->
  length s = (n + length r)%nat /\ all_bytes r.
Proof.
  induction fuel as [|fuel IH]; intros n s r B H; destruct n as [|n]; cbn [consume_loop] in H.
  - injection H as <-. auto.
  - discriminate.
  - injection H as <-. auto.
  - destruct (utf8_decode s) as [[cp s']|] eqn:D; [|discriminate].
    pose proof (decode_shorter s cp s' B D) as L.
    destruct (Nat.leb_spec (length s - length s') (S n)); [|discriminate].
    assert (B' : all_bytes s').
    { destruct (decode_sound s cp s' B D) as (_ & pre & E & _). subst s. apply Forall_app in B. tauto. }
    destruct (IH _ _ _ B' H) as [X Y]. split; [lia | exact Y].
Qed.
Lemma consume_length n s r : all_bytes s -> consume n s = Ok r -> length s = (n + length r)%nat /\ all_bytes r.
Proof. apply consume_loop_length. Qed.

Lemma find_char_split c : forall s k, find_char c s = Some k ->
  exists a b, s = a ++ c :: b /\ length a = k /\ ~ In c a.
Proof.
  induction s as [|x s IH]; intros k H; [discriminate|]. cbn in H. destruct (Z.eqb_spec x c) as [->|N].
  - injection H as <-. exists [], s. repeat split. intros [].
  - destruct (find_char c s) as [k'|]; [|discriminate]. injection H as <-.
    destruct (IH k' eq_refl) as (a & b & -> & L & NI). exists (x :: a), b. cbn. repeat split; [lia|].
    intros [X|X]; [congruence | auto].
Qed.
Lemma peek_app a r n : peek (a ++ r) (length a + n) = peek r n.
Proof. unfold peek. rewrite app_nth2 by lia. f_equal. lia. Qed.

Section Run.
Variable conv : bool -> bytes -> option token.

Lemma comment_cut s k : find_char 42 s = Some k -> peek s (k + 1) = 47 ->
  exists a r, s = a ++ 42 :: 47 :: r /\ length a = k /\ ~ In 42 a /\ cut s r /\ length s = (k + 2 + length r)%nat.
Proof.
  intros H P. destruct (find_char_split _ _ _ H) as (a & b & -> & L & NI).
  rewrite <- L, peek_app in P. cbn in P. destruct b as [|x b]; cbn in P; [lia|]. subst x.
  exists a, b. split; [reflexivity|]. split; [exact L|]. split; [exact NI|]. split.
  - exists (a ++ [42]), 47. split; [rewrite <- app_assoc; reflexivity | unfold ascii; lia].
  - rewrite app_length. cbn. lia.
Qed.

Lemma lex_line_defined : forall fuel x s, (length s <= fuel)%nat -> utf8_wf s ->
  lex_line conv fuel x s <> Lex_undefined /\ lex_line conv fuel x s <> Lex_no_fuel.
Proof.
  induction fuel as [|fuel IH]; intros x s L W.
  - destruct s; [split; discriminate | cbn in L; lia].
  - destruct s as [|c s']; [split; discriminate|]. set (s := c :: s') in *.
    assert (Step : forall n y r, cut s r -> length s = (n + length r)%nat ->
       lift (consume n s) (lex_line conv fuel y) <> Lex_undefined /\ lift (consume n s) (lex_line conv fuel y) <> Lex_no_fuel).
    { intros n y r C Ln. destruct (consume_wf_n n s r W C Ln) as [E W']. rewrite E. apply IH; [|exact W'].
      apply cut_length in C. lia. }
    unfold s at 1 2. cbn [lex_line]. fold s.
    destruct (bcomm x).
    { destruct (find_char 42 s) as [k|] eqn:F; [|split; discriminate].
      destruct (Z.eqb_spec (peek s (k + 1)) 47) as [P|]; [|split; discriminate].
      destruct (comment_cut s k F P) as (a & r & _ & _ & _ & C & Ln). apply (Step _ _ r); [exact C | lia]. }
    destruct (is_cmask c cmask_space) eqn:SP.
    { apply (Step _ _ s'); [|unfold s; cbn; lia]. exists [], c. split; [reflexivity|].
      apply (cmask_ascii c cmask_space); [reflexivity | exact SP]. }
    destruct ((c =? 47) && (peek s 1 =? 47)); [split; discriminate|].
    destruct ((c =? 47) && (peek s 1 =? 42)) eqn:BC.
    { lb. destruct BC as [B1 B2]. unfold s in B2. destruct s' as [|d s'']; [cbn in B2; lia|]. cbn in B2. subst d.
      apply (Step _ _ s''); [|unfold s; cbn; lia]. exists [c], 42. split; [reflexivity | unfold ascii; lia]. }
    destruct (accept_any conv (hd_error (toks x)) s) as [[[t r]|]| |] eqn:A; cbn [lift]; try (split; discriminate).
    + apply any_cut in A. apply (Step _ _ r); [exact A|]. apply cut_length in A. lia.
    + exfalso. apply (any_defined _ _ _ A).
Qed.

Lemma lex_line_fuel : forall fuel x s, (length s <= fuel)%nat -> all_bytes s ->
  lex_line conv fuel x s <> Lex_no_fuel.
Proof.
  induction fuel as [|fuel IH]; intros x s L W.
  - destruct s; [discriminate | cbn in L; lia].
  - destruct s as [|c s']; [discriminate|]. set (s := c :: s') in *.
    assert (Step : forall n y, (0 < n)%nat -> lift (consume n s) (lex_line conv fuel y) <> Lex_no_fuel).
    { intros n y Hn. destruct (consume n s) as [r| |] eqn:E; [|discriminate..].
      destruct (consume_length n s r W E) as [Ln B]. apply IH; [lia | exact B]. }
    unfold s at 1. cbn [lex_line]. fold s.
    destruct (bcomm x).
    { destruct (find_char 42 s) as [k|]; [|discriminate]. destruct (peek s (k + 1) =? 47); [|discriminate].
      apply Step. lia. }
    destruct (is_cmask c cmask_space); [apply Step; lia|].
    destruct ((c =? 47) && (peek s 1 =? 47)); [discriminate|].
    destruct ((c =? 47) && (peek s 1 =? 42)); [apply Step; lia|].
    destruct (accept_any conv (hd_error (toks x)) s) as [[[t r]|]| |] eqn:A; cbn [lift]; try discriminate.
    apply any_cut, cut_length in A. apply Step. lia.
Qed.

(* ---------- lines of a text ---------- *)
Lemma wf_split a c b : utf8_wf (a ++ c :: b) -> ascii c -> utf8_wf a /\ utf8_wf b.
Proof.
  intros (cps & SC & E) A. revert a E. induction SC as [|cp cps S1 S2 IH]; intros a E; [destruct a; discriminate|].
  cbn [map concat] in E. destruct (Z.ltb_spec cp 128) as [LT|GE].
  - rewrite (rfc_ascii cp S1 LT) in E. destruct a as [|y a]; cbn [app] in E; injection E as -> E.
    + split; [exists []; split; [constructor | reflexivity]|]. exists cps. split; [assumption | exact E].
    + destruct (IH a E) as [(p & P1 & P2) W]. split; [|exact W].
      exists (cp :: p). split; [constructor; assumption|]. cbn [map concat]. rewrite (rfc_ascii cp S1 LT), P2. reflexivity.
  - pose proof (rfc_high cp S1 GE) as H.
    assert (X : exists a', a = rfc3629 cp ++ a' /\ a' ++ c :: b = concat (map rfc3629 cps)).
    { revert E H. generalize (concat (map rfc3629 cps)) as z. generalize (rfc3629 cp) as w. clear -A. intros w.
      revert a. induction w as [|y w IHw]; intros a z E H; [exists a; auto|].
      inversion H; subst. destruct a as [|q a]; cbn [app] in E; injection E as -> E; [unfold ascii in A; lia|].
      destruct (IHw a z E) as (a' & -> & Q); [assumption|]. exists a'. auto. }
    destruct X as (a' & -> & Q). destruct (IH a' Q) as [(p & P1 & P2) W]. split; [|exact W].
    exists (cp :: p). split; [constructor; assumption|]. cbn [map concat]. rewrite P2. reflexivity.
Qed.

Lemma lines_wf : forall s l, utf8_wf (l ++ s) -> Forall utf8_wf (lines l s).
Proof.
  induction s as [|c s IH]; intros l W; cbn [lines].
  - rewrite app_nil_r in W. destruct l; [constructor | constructor; [exact W | constructor]].
  - destruct (Z.eqb_spec c lf) as [->|].
    + destruct (wf_split l lf s W) as [A B]; [unfold ascii, lf; lia|]. constructor; [exact A|]. apply IH. exact B.
    + apply IH. rewrite <- app_assoc. exact W.
Qed.
Lemma lines_bytes : forall s l, all_bytes (l ++ s) -> Forall all_bytes (lines l s).
Proof.
  induction s as [|c s IH]; intros l W; cbn [lines].
  - rewrite app_nil_r in W. destruct l; [constructor | constructor; [exact W | constructor]].
  - destruct (Z.eqb_spec c lf) as [->|].
    + apply Forall_app in W as [A B]. inversion B; subst. constructor; [exact A|]. apply IH. assumption.
    + apply IH. rewrite <- app_assoc. exact W.
Qed.

(* the byte order mark is a whole character *)
Lemma bom_wf s : utf8_wf ([0xEF; 0xBB; 0xBF] ++ s) -> utf8_wf s.
Proof.
  intros (cps & SC & E). destruct cps as [|cp cps]; [discriminate|]. inversion SC as [|? ? S1 S2]; subst.
  cbn [map concat] in E. pose proof (decode_rfc cp (concat (map rfc3629 cps)) S1) as D. rewrite <- E in D.
  assert (Q : utf8_decode ([0xEF; 0xBB; 0xBF] ++ s) = Some (0xFEFF, s)).
  { change [0xEF; 0xBB; 0xBF] with (rfc3629 0xFEFF). apply decode_rfc. unfold scalar. lia. }
  rewrite Q in D. injection D as _ ->. exists cps. auto.
Qed.

Lemma start_line_suffix first s r (P : bytes -> Prop) :
  (forall t, P ([0xEF; 0xBB; 0xBF] ++ t) -> P t) -> P s -> start_line first s = Some r -> P r.
Proof.
  intros H Hs E. unfold start_line in E. cbv zeta in E.
  destruct (first && starts_with [239; 187; 191] s) eqn:B.
  - match type of E with (if ?b then _ else _) = _ => destruct b; [discriminate|] end. injection E as <-. apply andb_prop in B as [_ B].
    apply starts_with_iff in B as [t ->]. cbn [app skipn]. apply H, Hs.
  - match type of E with (if ?b then _ else _) = _ => destruct b; [discriminate|] end. injection E as <-. exact Hs.
Qed.

Lemma lex_lines_defined : forall ls first x, Forall utf8_wf ls ->
  lex_lines conv first x ls <> Lex_undefined /\ lex_lines conv first x ls <> Lex_no_fuel.
Proof.
  induction ls as [|l ls IH]; intros first x F; [split; discriminate|]. inversion F; subst. cbn [lex_lines].
  destruct (start_line first l) as [s|] eqn:SL; [|auto].
  destruct (check_line s); [|split; discriminate].
  assert (W : utf8_wf s) by (apply (start_line_suffix first l s utf8_wf); auto using bom_wf).
  pose proof (lex_line_defined (length s) x s (Nat.le_refl _) W) as [A B].
  destruct (lex_line conv (length s) x s); try congruence; [auto | split; discriminate].
Qed.
Lemma lex_lines_fuel : forall ls first x, Forall all_bytes ls -> lex_lines conv first x ls <> Lex_no_fuel.
Proof.
  induction ls as [|l ls IH]; intros first x F; [discriminate|]. inversion F; subst. cbn [lex_lines].
  destruct (start_line first l) as [s|] eqn:SL; [|auto].
  destruct (check_line s); [|discriminate].
  assert (W : all_bytes s).
  { apply (start_line_suffix first l s all_bytes); auto. intros t Q. apply Forall_app in Q. tauto. }
  pose proof (lex_line_fuel (length s) x s (Nat.le_refl _) W) as A.
  destruct (lex_line conv (length s) x s); try congruence; auto; discriminate.
Qed.

Lemma tokenize_defined text : utf8_wf text -> tokenize conv text <> Lex_undefined.
Proof.
  intros W. unfold tokenize. pose proof (lex_lines_defined (lines [] text) true (mk_lexer [] false) (lines_wf text [] W)) as [A B].
  destruct (lex_lines _ _ _ _); try congruence; try discriminate. destruct (bcomm a); discriminate.
Qed.
Lemma tokenize_terminates text : all_bytes text -> tokenize conv text <> Lex_no_fuel.
Proof.
  intros W. unfold tokenize. pose proof (lex_lines_fuel (lines [] text) true (mk_lexer [] false) (lines_bytes text [] W)) as A.
  destruct (lex_lines _ _ _ _); try congruence; try discriminate. destruct (bcomm a); discriminate.
Qed.

End Run.
