(* Strings and tokens in configuration files. *)
From Verif Require Import Base Text Monad Bits UtfModel UtfSpec UtfProofs NumSpec ConfModel ConfSpec.
From Verif Require Import ConfProofs1 ConfProofs2 ConfProofs3.

Local Open Scope Z_scope.

Fixpoint scalars (s : stream) : Prop :=
  match s with SCons c r => scalar c /\ scalars r | _ => True end.
Lemma scalars_push u t : scalars (push u t) <-> Forall scalar u /\ scalars t.
Proof.
  induction u as [|c u IH]; cbn [push scalars].
  - split; [intros H; split; [constructor|exact H]|tauto].
  - rewrite IH. split; [intros (? & ? & ?); split; [constructor; assumption|assumption]|].
    intros [HF HT]. inversion HF; subst. auto.
Qed.
Lemma scalars_list cs : scalars (of_list cs) <-> Forall scalar cs.
Proof. rewrite <- push_end, scalars_push. cbn. tauto. Qed.

Lemma multi_scalars b tb s : Forall is_byte tb -> 192 <= b < 252 -> Z.of_nat (length tb) = u8len b - 1 ->
  scalars s -> scalars (multi b tb s).
Proof.
  intros HB Hb HL HS. destruct (multi b tb s) as [| | |c r] eqn:E; try exact I.
  destruct (multi_inv b tb s c r Hb HB HL E) as (-> & H & _). split; assumption.
Qed.
Lemma decode_scalars : forall n file, (length file <= n)%nat -> all_bytes file -> scalars (decode file).
Proof.
  induction n as [|n IH]; intros file HN HB.
  { destruct file; [exact I|cbn in HN; lia]. }
  destruct file as [|b r]; [exact I|]. cbn [length] in HN. inversion HB as [|? ? Hb HBr]; subst.
  unfold is_byte in Hb. cbn [decode].
  destruct (b <=? 127) eqn:E1; [split; [unfold scalar; lia|apply IH; [lia|exact HBr]]|].
  destruct (b <=? 191) eqn:E2; [exact I|].
  destruct (7 <? u8len b) eqn:E7; [exact I|].
  assert (HM : forall tb r', r = tb ++ r' -> Z.of_nat (length tb) = u8len b - 1 -> u8len b <= 5 ->
            scalars (multi b tb (decode r'))).
  { intros tb r' -> HL H5. apply Forall_app in HBr. destruct HBr as [HBt HBr]. rewrite app_length in HN.
    apply multi_scalars; [exact HBt| |exact HL|apply IH; [lia|exact HBr]].
    destruct (Z_lt_ge_dec b 252); [lia|pose proof (lead6 b); lia]. }
  destruct r as [|b1 r1]; [exact I|].
  destruct (u8len b =? 2) eqn:L2; [apply (HM [b1] r1); cbn [length]; auto; lia|].
  destruct r1 as [|b2 r2]; [exact I|].
  destruct (u8len b =? 3) eqn:L3; [apply (HM [b1; b2] r2); cbn [length]; auto; lia|].
  destruct r2 as [|b3 r3]; [exact I|].
  destruct (u8len b =? 4) eqn:L4; [apply (HM [b1; b2; b3] r3); cbn [length]; auto; lia|].
  destruct r3 as [|b4 r4]; [exact I|].
  destruct (u8len b =? 5) eqn:L5; [apply (HM [b1; b2; b3; b4] r4); cbn [length]; auto; lia|].
  destruct r4; exact I.
Qed.

(* Single quotation marks *)
Lemma is_control_spec c : is_control c = true <-> control c.
Proof. unfold is_control, control. lia. Qed.
Lemma single_sound : forall s w t, single s = Ok (w, t) ->
  exists u, s = push (u ++ [39]) t /\ Forall (fun c => ~ control c /\ c <> 39) u /\
    w = map (fun c => c mod 256) u.
Proof.
  induction s as [| | |c s IH]; intros w t H; cbn [single] in H; try discriminate.
  destruct (is_control c) eqn:E; [discriminate|].
  destruct (c =? 39) eqn:E39.
  - injection H as <- <-. exists []. replace c with 39 by lia. repeat split. constructor.
  - apply obind_ok in H. destruct H as ([w' t'] & H1 & [= <- <-]).
    destruct (IH _ _ H1) as (u & -> & HF & ->). exists (c :: u). split; [reflexivity|]. split; [|reflexivity].
    constructor; [|exact HF]. split; [|lia]. intros HC. apply is_control_spec in HC. congruence.
Qed.
Lemma single_complete u t : Forall (fun c => ~ control c /\ c <> 39) u ->
  single (push (u ++ [39]) t) = Ok (map (fun c => c mod 256) u, t).
Proof.
  induction 1 as [|c u [Hc H39] _ IH]; [reflexivity|]. cbn [app push single map].
  destruct (is_control c) eqn:E; [apply is_control_spec in E; tauto|].
  replace (c =? 39) with false by lia. rewrite IH. reflexivity.
Qed.

(* Double quotation marks *)
Lemma put_char_rfc c : scalar c -> put_char c = rfc3629 c.
Proof.
  intros H. assert (P : 0 <= c) by (unfold scalar in H; lia). unfold put_char.
  destruct (c <=? 127) eqn:E.
  - unfold rfc3629. replace (c <? 128) with true by lia. reflexivity.
  - rewrite encode_rfc by exact P. rewrite (proj2 (scalar_large c P) H). reflexivity.
Qed.
Lemma hex_value_spec c v : hex_value c = Some v <-> hex_digit c v.
Proof.
  unfold hex_value, hex_digit.
  destruct ((48 <=? c) && (c <=? 57)) eqn:E1; [split; [intros [= <-]; lia|intros; f_equal; lia]|].
  destruct ((65 <=? c) && (c <=? 70)) eqn:E2; [split; [intros [= <-]; lia|intros; f_equal; lia]|].
  destruct ((97 <=? c) && (c <=? 102)) eqn:E3; [split; [intros [= <-]; lia|intros; f_equal; lia]|].
  split; [discriminate|lia].
Qed.
Lemma hex_digit_range c v : hex_digit c v -> 0 <= v < 16.
Proof. unfold hex_digit; lia. Qed.
Lemma hex_snoc_inv a c v : hex_digits (a ++ [c]) v ->
  exists v' d, hex_digits a v' /\ hex_digit c d /\ v = 16 * v' + d.
Proof.
  intros H. inversion H as [E|u v' x d HU HD E]; subst; [destruct a; discriminate|].
  apply app_inj_tail in E. destruct E as [-> ->]. eauto.
Qed.
Lemma hex_range h v : hex_digits h v -> 0 <= v < 16 ^ Z.of_nat (length h).
Proof.
  induction 1 as [|u v c d _ IH HD]; [cbn; lia|]. apply hex_digit_range in HD.
  rewrite app_length. cbn [length]. rewrite Nat2Z.inj_add. change (Z.of_nat 1) with 1.
  rewrite Z.pow_add_r, Z.pow_1_r by lia. lia.
Qed.
Lemma hex_fun h v : hex_digits h v -> forall v', hex_digits h v' -> v = v'.
Proof.
  induction 1 as [|u v c d HU IH HD]; intros v' H'.
  - inversion H' as [E|u0 ? ? ? ? ? E]; [reflexivity|destruct u0; discriminate].
  - apply hex_snoc_inv in H'. destruct H' as (v1 & d1 & H1 & H2 & ->).
    rewrite (IH _ H1). assert (d = d1) by (unfold hex_digit in *; lia). lia.
Qed.
Lemma hex_prefix b : forall a v, hex_digits (a ++ b) v -> exists v', hex_digits a v'.
Proof.
  induction b as [|c b IH] using rev_ind; intros a v H; [rewrite app_nil_r in H; eauto|].
  rewrite app_assoc in H. apply hex_snoc_inv in H. destruct H as (v' & d & H & _). eauto.
Qed.
Lemma shift_hex v h : 0 <= h < 16 -> Z.lor (Z.shiftl v 4) h = 16 * v + h.
Proof. intros. rewrite shl_lor by lia. change (2 ^ 4) with 16. lia. Qed.
Lemma simple_escape_spec c d : simple_escape c = Some d <-> In (c, d) escapes.
Proof.
  split.
  - unfold simple_escape.
    destruct ((c =? 92) || (c =? 34) || (c =? 47)) eqn:E1.
    { intros [= <-]. assert (c = 92 \/ c = 34 \/ c = 47) as [->|[->| ->]] by lia; cbn; auto. }
    destruct (c =? 98) eqn:E2; [replace c with 98 by lia; intros [= <-]; cbn; auto 9|].
    destruct (c =? 102) eqn:E3; [replace c with 102 by lia; intros [= <-]; cbn; auto 9|].
    destruct (c =? 110) eqn:E4; [replace c with 110 by lia; intros [= <-]; cbn; auto 9|].
    destruct (c =? 114) eqn:E5; [replace c with 114 by lia; intros [= <-]; cbn; auto 9|].
    destruct (c =? 116) eqn:E6; [replace c with 116 by lia; intros [= <-]; cbn; auto 9|discriminate].
  - intros H. cbn in H. repeat destruct H as [H|H]; try (injection H as <- <-; reflexivity). contradiction.
Qed.

Definition enc (p : list Z) : bytes := concat (map rfc3629 p).

Inductive prefix : quoting -> list Z -> Prop :=
  | pf_text : prefix Text []
  | pf_escape : prefix Escape [92]
  | pf_first k h v : hex_digits h v -> (length h + S k = 4)%nat -> prefix (Hex (S k) v First) ([92; 117] ++ h)
  | pf_long k h v : hex_digits h v -> (length h + S k = 6)%nat -> prefix (Hex (S k) v Long) ([92; 85] ++ h)
  | pf_second k h0 l h v : hex_digits h0 l -> length h0 = 4%nat -> 0xD800 <= l <= 0xDBFF ->
      hex_digits h v -> (length h + S k = 4)%nat ->
      prefix (Hex (S k) v (Second l)) ([92; 117] ++ h0 ++ [92; 117] ++ h)
  | pf_trail1 h0 l : hex_digits h0 l -> length h0 = 4%nat -> 0xD800 <= l <= 0xDBFF ->
      prefix (Trail1 l) ([92; 117] ++ h0)
  | pf_trail2 h0 l : hex_digits h0 l -> length h0 = 4%nat -> 0xD800 <= l <= 0xDBFF ->
      prefix (Trail2 l) ([92; 117] ++ h0 ++ [92]).

(* a unit is complete *)
Lemma put_ok c k w t : (do p <- k ; let '(w, t) := p in Ok (put_char c ++ w, t)) = Ok (w, t : stream) ->
  exists w', k = Ok (w', t) /\ w = put_char c ++ w'.
Proof. intros H. apply obind_ok in H. destruct H as ([w' t'] & H1 & [= <- <-]). eauto. Qed.

Ltac hexstep :=
  match goal with
  | H : hex_value ?c = Some ?h |- _ =>
      let R := fresh "R" in
      apply hex_value_spec in H; pose proof (hex_digit_range _ _ H) as R; rewrite (shift_hex _ _ R) in *
  end.

Lemma unit_done u w h v d t : (* the character after a unit [u] *)
  scalar d ->
  (exists v p, w = v ++ [34] /\ quoted v p /\ t = enc p) ->
  (forall v p, quoted v p -> quoted (u ++ v) (d :: p)) ->
  h = put_char d ++ t -> v = u ++ w ->
  exists v' p, v = v' ++ [34] /\ quoted v' p /\ h = enc p.
Proof.
  intros HS (v0 & p & -> & HQ & ->) HC -> ->. exists (u ++ v0), (d :: p).
  split; [rewrite app_assoc; reflexivity|]. split; [apply HC, HQ|].
  unfold enc. cbn [map concat]. rewrite put_char_rfc by exact HS. reflexivity.
Qed.

Lemma double_sound : forall s m w t pref, scalars s -> double m s = Ok (w, t) -> prefix m pref ->
  exists u, s = push u t /\ exists v p, pref ++ u = v ++ [34] /\ quoted v p /\ w = enc p.
Proof.
  induction s as [| | |c s IH]; intros m w t pref HSc H HP; try discriminate.
  destruct HSc as [Hc HSc]. specialize (fun m w t pref => IH m w t pref HSc).
  assert (Step : forall m' pref', double m' s = Ok (w, t) -> prefix m' pref' -> pref' = pref ++ [c] ->
            exists u, SCons c s = push u t /\ exists v p, pref ++ u = v ++ [34] /\ quoted v p /\ w = enc p).
  { intros m' pref' H' HP' ->. destruct (IH _ _ _ _ H' HP') as (u & -> & v & p & E & HQ & HW).
    exists (c :: u). split; [reflexivity|]. exists v, p. split; [|auto].
    rewrite <- E, <- app_assoc. reflexivity. }
  assert (Done : forall d, (do p <- double Text s ; let '(w, t) := p in Ok (put_char d ++ w, t)) = Ok (w, t) ->
            scalar d -> (forall v p, quoted v p -> quoted ((pref ++ [c]) ++ v) (d :: p)) ->
            exists u, SCons c s = push u t /\ exists v p, pref ++ u = v ++ [34] /\ quoted v p /\ w = enc p).
  { intros d H' HD HQ. apply put_ok in H'. destruct H' as (w' & H' & HW).
    destruct (IH _ _ _ _ H' pf_text) as (u & -> & X).
    exists (c :: u). split; [reflexivity|].
    apply (unit_done (pref ++ [c]) u w _ d w' HD X HQ HW). rewrite <- app_assoc. reflexivity. }
  cbn [double] in H.
  inversion HP as [E1 E2|E1 E2|k h v0 HH HL E1 E2|k h v0 HH HL E1 E2|k h0 l h v0 H0 HL0 HR0 HH HL E1 E2|
                   h0 l H0 HL0 HR0 E1 E2|h0 l H0 HL0 HR0 E1 E2]; subst; clear HP.
  - (* Text *)
    destruct (is_control c) eqn:EC; [discriminate|].
    assert (HC : ~ control c) by (intros X; apply is_control_spec in X; congruence).
    destruct (c =? 34) eqn:E34.
    { injection H as <- <-. exists [c]. split; [reflexivity|]. exists [], []. replace c with 34 by lia.
      repeat split. constructor. }
    destruct (c =? 92) eqn:E92.
    { apply (Step Escape [92]); [exact H|constructor|]. cbn. f_equal. lia. }
    apply (Done c H Hc). intros v p HQ. cbn [app]. constructor; auto; lia.
  - (* Escape *)
    destruct (simple_escape c) as [e|] eqn:EE.
    { apply simple_escape_spec in EE. apply (Done e H).
      - cbn in EE. unfold scalar. repeat destruct EE as [EE|EE]; try (injection EE as <- <-; lia). contradiction.
      - intros v p HQ. cbn [app]. apply quoted_escape; assumption. }
    destruct (c =? 117) eqn:E117.
    { replace c with 117 in * by lia.
      apply (Step (Hex 4 0 First) ([92; 117] ++ [])); [exact H|apply pf_first; [constructor|reflexivity]|reflexivity]. }
    destruct (c =? 85) eqn:E85; [|discriminate].
    replace c with 85 in * by lia.
    apply (Step (Hex 6 0 Long) ([92; 85] ++ [])); [exact H|apply pf_long; [constructor|reflexivity]|reflexivity].
  - (* Hex First *)
    destruct (hex_value c) as [d|] eqn:EH; [|discriminate]. hexstep.
    assert (HH' : hex_digits (h ++ [c]) (16 * v0 + d)) by (constructor; assumption).
    destruct k as [|k].
    + assert (HL4 : length (h ++ [c]) = 4%nat) by (rewrite app_length; cbn; lia).
      pose proof (hex_range _ _ HH') as HRg. rewrite HL4 in HRg. change (16 ^ Z.of_nat 4) with 65536 in HRg.
      cbn [unit_value] in H.
      destruct ((56320 <=? 16 * v0 + d) && (16 * v0 + d <=? 57343)) eqn:EA; [discriminate|].
      destruct ((55296 <=? 16 * v0 + d) && (16 * v0 + d <=? 56319)) eqn:EB.
      * apply (Step (Trail1 (16 * v0 + d)) ([92; 117] ++ h ++ [c])); [exact H| |].
        -- apply pf_trail1; [assumption|assumption|lia].
        -- cbn [app]. reflexivity.
      * apply (Done _ H); [unfold scalar; lia|]. intros v p HQ.
        replace ((([92; 117] ++ h) ++ [c]) ++ v) with (92 :: 117 :: (h ++ [c]) ++ v)
          by (cbn [app]; rewrite <- ?app_assoc; reflexivity).
        apply quoted_short; auto. lia.
    + apply (Step (Hex (S k) (16 * v0 + d) First) ([92; 117] ++ h ++ [c])); [exact H| |reflexivity].
      apply pf_first; [assumption|]. rewrite app_length. cbn. lia.
  - (* Hex Long *)
    destruct (hex_value c) as [d|] eqn:EH; [|discriminate]. hexstep.
    assert (HH' : hex_digits (h ++ [c]) (16 * v0 + d)) by (constructor; assumption).
    destruct k as [|k].
    + assert (HL4 : length (h ++ [c]) = 6%nat) by (rewrite app_length; cbn; lia).
      pose proof (hex_range _ _ HH') as HRg. rewrite HL4 in HRg.
      cbn [unit_value] in H.
      destruct (1114111 <=? 16 * v0 + d) eqn:EA; [discriminate|].
      destruct ((55296 <=? 16 * v0 + d) && (16 * v0 + d <=? 57343)) eqn:EB; [discriminate|].
      apply (Done _ H); [unfold scalar; lia|]. intros v p HQ.
      replace ((([92; 85] ++ h) ++ [c]) ++ v) with (92 :: 85 :: (h ++ [c]) ++ v)
        by (cbn [app]; rewrite <- ?app_assoc; reflexivity).
      apply quoted_long; auto; lia.
    + apply (Step (Hex (S k) (16 * v0 + d) Long) ([92; 85] ++ h ++ [c])); [exact H| |reflexivity].
      apply pf_long; [assumption|]. rewrite app_length. cbn. lia.
  - (* Hex Second *)
    destruct (hex_value c) as [d|] eqn:EH; [|discriminate]. hexstep.
    assert (HH' : hex_digits (h ++ [c]) (16 * v0 + d)) by (constructor; assumption).
    destruct k as [|k].
    + assert (HL4 : length (h ++ [c]) = 4%nat) by (rewrite app_length; cbn; lia).
      cbn [unit_value] in H.
      destruct ((16 * v0 + d <? 56320) || (57343 <? 16 * v0 + d)) eqn:EA; [discriminate|].
      rewrite Z.shiftl_mul_pow2 in H by lia. change (2 ^ 10) with 1024 in H.
      apply (Done _ H); [unfold scalar; lia|]. intros v p HQ.
      replace ((([92; 117] ++ h0 ++ [92; 117] ++ h) ++ [c]) ++ v)
        with (92 :: 117 :: h0 ++ 92 :: 117 :: (h ++ [c]) ++ v)
        by (cbn [app]; rewrite <- ?app_assoc; cbn [app]; rewrite <- ?app_assoc; reflexivity).
      apply quoted_pair; auto. lia.
    + apply (Step (Hex (S k) (16 * v0 + d) (Second l)) ([92; 117] ++ h0 ++ [92; 117] ++ h ++ [c])); [exact H| |].
      * apply pf_second; auto. rewrite app_length. cbn. lia.
      * cbn [app]. rewrite <- ?app_assoc. cbn [app]. rewrite <- ?app_assoc. reflexivity.
  - (* Trail1 *)
    destruct (c =? 92) eqn:E; [|discriminate]. replace c with 92 in * by lia.
    apply (Step (Trail2 l) ([92; 117] ++ h0 ++ [92])); [exact H|apply pf_trail2; assumption|].
    cbn [app]. reflexivity.
  - (* Trail2 *)
    destruct (c =? 117) eqn:E; [|discriminate]. replace c with 117 in * by lia.
    apply (Step (Hex 4 0 (Second l)) ([92; 117] ++ h0 ++ [92; 117] ++ [])); [exact H| |].
    + apply pf_second; auto. constructor.
    + cbn [app]. rewrite <- app_assoc. reflexivity.
Qed.

Definition finish_unit (u : unit_kind) (v : Z) (s : stream) : outcome (bytes * stream) :=
  match unit_value u v with
  | Reject => Throw
  | Lead l => double (Trail1 l) s
  | Char e => do p <- double Text s ; let '(w, t) := p in Ok (put_char e ++ w, t)
  end.
Lemma double_hex u s V : forall h2 h1 v1, hex_digits h1 v1 -> hex_digits (h1 ++ h2) V -> h2 <> [] ->
  double (Hex (length h2) v1 u) (push h2 s) = finish_unit u V s.
Proof.
  induction h2 as [|c h2 IH]; intros h1 v1 H1 H2 HN; [congruence|].
  replace (h1 ++ c :: h2) with ((h1 ++ [c]) ++ h2) in H2 by (rewrite <- app_assoc; reflexivity).
  destruct (hex_prefix _ _ _ H2) as (v2 & H2').
  pose proof H2' as H2''. apply hex_snoc_inv in H2''. destruct H2'' as (v1' & d & Ha & Hd & ->).
  rewrite <- (hex_fun _ _ H1 _ Ha) in *.
  cbn [length push double]. rewrite (proj2 (hex_value_spec c d) Hd).
  rewrite shift_hex by (apply hex_digit_range in Hd; exact Hd).
  destruct h2 as [|c' h2].
  - cbn [length]. rewrite app_nil_r in H2. rewrite (hex_fun _ _ H2' _ H2). reflexivity.
  - cbn [length]. apply (IH (h1 ++ [c])); [assumption|assumption|discriminate].
Qed.

Lemma double_complete u p : quoted u p -> Forall scalar u -> forall t,
  double Text (push (u ++ [34]) t) = Ok (enc p, t).
Proof.
  assert (Put : forall d p t (k : outcome (bytes * stream)), scalar d -> k = Ok (enc p, t) ->
            (do p <- k ; let '(w, t) := p in Ok (put_char d ++ w, t)) = Ok (enc (d :: p), t)).
  { intros d p0 t k HD ->. cbn [obind]. rewrite put_char_rfc by exact HD. reflexivity. }
  induction 1 as [|c u p HC H34 H92 HQ IH|c d u p HE HQ IH|h v u p HL HH HV HQ IH|
                  h v h' v' u p HL HH HV HL' HH' HV' HQ IH|h v u p HL HH HV1 HV2 HQ IH]; intros HF t.
  - reflexivity.
  - inversion HF; subst. cbn [app push double].
    destruct (is_control c) eqn:E; [apply is_control_spec in E; tauto|].
    replace (c =? 34) with false by lia. replace (c =? 92) with false by lia.
    apply Put; [assumption|]. apply IH. assumption.
  - inversion HF as [|? ? _ HF1]; subst. inversion HF1; subst. cbn [app push double].
    change (is_control 92) with false. change (92 =? 34) with false. change (92 =? 92) with true. cbn iota.
    rewrite (proj2 (simple_escape_spec c d) HE). apply Put; [|apply IH; assumption].
    cbn in HE. unfold scalar. repeat destruct HE as [HE|HE]; try (injection HE as <- <-; lia). contradiction.
  - inversion HF as [|? ? _ HF1]; subst. inversion HF1 as [|? ? _ HF2]; subst.
    apply Forall_app in HF2. destruct HF2 as [_ HF2].
    cbn [app push double].
    change (is_control 92) with false. change (92 =? 34) with false. change (92 =? 92) with true. cbn iota.
    change (simple_escape 117) with (@None Z). change (117 =? 117) with true. cbn iota.
    rewrite <- app_assoc, push_app. rewrite <- HL.
    rewrite (double_hex First _ v h [] 0 hex_nil HH) by (intros ->; discriminate).
    pose proof (hex_range _ _ HH) as HRg. rewrite HL in HRg. change (16 ^ Z.of_nat 4) with 65536 in HRg.
    unfold finish_unit. cbn [unit_value].
    replace ((56320 <=? v) && (v <=? 57343)) with false by lia.
    replace ((55296 <=? v) && (v <=? 56319)) with false by lia.
    apply Put; [unfold scalar; lia|apply IH; assumption].
  - inversion HF as [|? ? _ HF1]; subst. inversion HF1 as [|? ? _ HF2]; subst.
    apply Forall_app in HF2. destruct HF2 as [_ HF2]. inversion HF2 as [|? ? _ HF3]; subst.
    inversion HF3 as [|? ? _ HF4]; subst. apply Forall_app in HF4. destruct HF4 as [_ HF4].
    cbn [app push double].
    change (is_control 92) with false. change (92 =? 34) with false. change (92 =? 92) with true. cbn iota.
    change (simple_escape 117) with (@None Z). change (117 =? 117) with true. cbn iota.
    rewrite <- app_assoc, push_app. rewrite <- HL at 1.
    rewrite (double_hex First _ v h [] 0 hex_nil HH) by (intros ->; discriminate).
    unfold finish_unit. cbn [unit_value].
    replace ((56320 <=? v) && (v <=? 57343)) with false by lia.
    replace ((55296 <=? v) && (v <=? 56319)) with true by lia.
    cbn [app push double]. change (92 =? 92) with true. change (117 =? 117) with true. cbn iota.
    rewrite <- app_assoc, push_app. rewrite <- HL' at 1.
    rewrite (double_hex (Second v) _ v' h' [] 0 hex_nil HH') by (intros ->; discriminate).
    unfold finish_unit. cbn [unit_value].
    replace ((v' <? 56320) || (57343 <? v')) with false by lia.
    rewrite Z.shiftl_mul_pow2 by lia. change (2 ^ 10) with 1024.
    apply Put; [unfold scalar; lia|apply IH; assumption].
  - inversion HF as [|? ? _ HF1]; subst. inversion HF1 as [|? ? _ HF2]; subst.
    apply Forall_app in HF2. destruct HF2 as [_ HF2].
    cbn [app push double].
    change (is_control 92) with false. change (92 =? 34) with false. change (92 =? 92) with true. cbn iota.
    change (simple_escape 85) with (@None Z). change (85 =? 117) with false. change (85 =? 85) with true. cbn iota.
    rewrite <- app_assoc, push_app. rewrite <- HL.
    rewrite (double_hex Long _ v h [] 0 hex_nil HH) by (intros ->; discriminate).
    pose proof (hex_range _ _ HH) as HRg.
    unfold finish_unit. cbn [unit_value].
    replace (1114111 <=? v) with false by lia.
    replace ((55296 <=? v) && (v <=? 57343)) with false by lia.
    apply Put; [unfold scalar; lia|apply IH; assumption].
Qed.

(* Tokens *)
Definition code (t : tok) : token :=
  match t with TPunct c => [c] | TWord w => w | TNum w => w | TStr s => 34 :: s end.
Lemma is_punct_spec c : is_punct c = true <-> In c (str "[]{}:=,;").
Proof. unfold is_punct. cbn. lia. Qed.

Lemma token_sound s t s' : scalars s -> do_token s = Ok (t, s') -> t <> [] ->
  exists b u k, s = push b (push u s') /\ blank b /\ piece u k (hd_s s') /\ t = code k.
Proof.
  intros HS H HN. unfold do_token in H. apply obind_ok in H. destruct H as ([[c r]|] & H1 & H).
  2:{ injection H as <- _. congruence. }
  apply skip_some in H1. destruct H1 as (b & -> & HB & HW & H47). cbn [pre app] in HB.
  apply scalars_push in HS. destruct HS as [_ [Hc HS]].
  exists b. cut (exists u k, SCons c r = push u s' /\ piece u k (hd_s s') /\ t = code k).
  { intros (u & k & -> & HP & ->). exists u, k. auto. }
  destruct (is_punct c) eqn:E1.
  { injection H as <- <-. apply is_punct_spec in E1. exists [c], (TPunct c).
    split; [reflexivity|]. split; [constructor; exact E1|reflexivity]. }
  destruct (is_letter c) eqn:E2.
  { apply obind_ok in H. destruct H as ([w t'] & H2 & [= <- <-]).
    apply word_sound in H2. destruct H2 as (-> & HF & HD & _). apply is_letter_spec in E2.
    exists (c :: w), (TWord (c :: w)). split; [reflexivity|]. split; [|reflexivity]. constructor; assumption. }
  destruct ((c =? 43) || (c =? 45)) eqn:E3.
  { unfold signed in H. apply obind_ok in H. destruct H as (s1 & H2 & H). apply load_ok in H2.
    destruct H2 as [-> HL]. destruct r as [| | |d r]; try discriminate.
    destruct (is_digit d) eqn:ED; [|discriminate]. apply obind_ok in H. destruct H as ([w t'] & H2 & [= <- <-]).
    destruct (unsigned_sound d r w t' ltac:(unfold is_digit in ED; unfold decimal; lia) H2) as (u & E & HP & _).
    exists (c :: u), (TNum (c :: w)). cbn [push]. rewrite E. split; [reflexivity|]. split; [|reflexivity].
    constructor. apply (plain_signed [c]); [|exact HP]. unfold plus_minus.
    destruct (Z.eq_dec c 43) as [->|]; [auto|]. replace c with 45 by lia. auto. }
  destruct (is_digit c) eqn:E4.
  { destruct (unsigned_sound c r t s' ltac:(unfold is_digit in E4; unfold decimal; lia) H) as (u & E & HP & _).
    exists u, (TNum t). split; [exact E|]. split; [|reflexivity].
    constructor. apply (plain_signed []); [left; reflexivity|exact HP]. }
  destruct (c =? 39) eqn:E5.
  { apply obind_ok in H. destruct H as ([w t'] & H2 & [= <- <-]).
    apply single_sound in H2. destruct H2 as (u & -> & HF & ->).
    eexists (39 :: u ++ [39]), (TStr _). replace c with 39 by lia. split; [reflexivity|].
    split; [|reflexivity]. constructor; exact HF. }
  destruct (c =? 34) eqn:E6; [|discriminate].
  apply obind_ok in H. destruct H as ([w t'] & H2 & [= <- <-]).
  destruct (double_sound r Text w t' [] HS H2 pf_text) as (u & -> & v & p & E & HQ & ->).
  cbn [app] in E. subst u. eexists (34 :: v ++ [34]), (TStr _). replace c with 34 by lia.
  split; [reflexivity|]. split; [|reflexivity]. constructor. exact HQ.
Qed.
Lemma token_end s s' : do_token s = Ok ([], s') -> exists b, s = of_list b /\ trail b.
Proof.
  intros H. unfold do_token in H. apply obind_ok in H. destruct H as ([[c r]|] & H1 & H).
  - exfalso. destruct (is_punct c); [discriminate|].
    destruct (is_letter c).
    { apply obind_ok in H. destruct H as ([w t'] & _ & H). discriminate. }
    destruct ((c =? 43) || (c =? 45)).
    { unfold signed in H. apply obind_ok in H. destruct H as (s1 & _ & H). destruct s1; try discriminate.
      destruct (is_digit c0); [|discriminate]. apply obind_ok in H. destruct H as ([w t'] & _ & H). discriminate. }
    destruct (is_digit c).
    { unfold unsigned in H. apply obind_ok in H. destruct H as (s0 & _ & H).
      apply obind_ok in H. destruct H as (s1 & _ & H). cbv zeta in H.
      destruct (if number_base c s1 =? 2 then _ else _) as [pr s2] in H.
      apply obind_ok in H. destruct H as ([? ?] & _ & H). apply obind_ok in H. destruct H as ([? ?] & _ & H).
      apply obind_ok in H. destruct H as ([? ?] & _ & H). discriminate. }
    destruct (c =? 39).
    { apply obind_ok in H. destruct H as ([w t'] & _ & H). discriminate. }
    destruct (c =? 34); [|discriminate].
    apply obind_ok in H. destruct H as ([w t'] & _ & H). discriminate.
  - apply skip_none in H1. exact H1.
Qed.

Lemma skip_first c r : ~ white c -> c <> 47 -> skip Plain (SCons c r) = Ok (Some (c, r)).
Proof.
  intros HW H. cbn [skip]. destruct (is_space c) eqn:E; [apply is_space_white in E; tauto|].
  replace (c =? 47) with false by lia. reflexivity.
Qed.
Lemma token_complete b u k cs : blank b -> piece u k (hd_error cs) -> Forall scalar u ->
  do_token (push b (push u (of_list cs))) = Ok (code k, of_list cs).
Proof.
  intros HB HP HU. unfold do_token. rewrite skip_blank by exact HB. rewrite <- hd_list in HP.
  pose proof (loaded_list cs) as HL. set (t := of_list cs) in *. clearbody t.
  remember (hd_s t) as nx eqn:EO.
  destruct HP as [c nxt HI|c w nxt Hc HF HD|v w nxt HN|v nxt HF|v p nxt HQ]; cbn [code]; subst nxt.
  - apply is_punct_spec in HI. assert (HX : In c (str "[]{}:=,;")) by (apply is_punct_spec; exact HI).
    cbn [push]. rewrite skip_first; [cbn [obind]; rewrite HI; reflexivity| |]; cbn in HX; unfold white; cbn; lia.
  - cbn [push]. pose proof Hc as Hc'. apply is_letter_spec in Hc'. unfold letter in Hc.
    rewrite skip_first by (unfold white; cbn; lia). cbn [obind].
    replace (is_punct c) with false by (unfold is_punct; cbn; lia). rewrite Hc'.
    rewrite (word_complete w t HF HL HD). reflexivity.
  - apply number_inv in HN. destruct HN as (sg & v' & w' & -> & -> & HP & HN).
    destruct (plain_nonempty _ _ _ HN) as (d & r & ->).
    destruct (unsigned_complete d r w' t HN HL) as [HUn HDd]. unfold decimal in HDd.
    destruct HP as [->|HP].
    + cbn [app push]. rewrite skip_first by (unfold white; cbn; lia). cbn [obind].
      replace (is_punct d) with false by (unfold is_punct; cbn; lia).
      replace (is_letter d) with false by (unfold is_letter; lia).
      replace ((d =? 43) || (d =? 45)) with false by lia.
      replace (is_digit d) with true by (unfold is_digit; lia). exact HUn.
    + assert (HS : signed (if list_eq_dec Z.eq_dec sg [43] then 43 else 45) (SCons d (push r t)) = Ok (sg ++ w', t)).
      { unfold signed. cbn [load obind]. replace (is_digit d) with true by (unfold is_digit; lia).
        rewrite HUn. destruct HP as [-> | ->]; reflexivity. }
      destruct HP as [-> | ->]; cbn [app push]; (rewrite skip_first; [exact HS| |]; unfold white; cbn; lia).
  - cbn [push]. rewrite skip_first by (unfold white; cbn; lia). cbn [obind].
    change (is_punct 39) with false. change (is_letter 39) with false. change ((39 =? 43) || (39 =? 45)) with false.
    change (is_digit 39) with false. change (39 =? 39) with true. cbn iota.
    rewrite (single_complete v t HF). reflexivity.
  - cbn [push]. rewrite skip_first by (unfold white; cbn; lia). cbn [obind].
    change (is_punct 34) with false. change (is_letter 34) with false. change ((34 =? 43) || (34 =? 45)) with false.
    change (is_digit 34) with false. change (34 =? 39) with false. change (34 =? 34) with true. cbn iota.
    inversion HU as [|? ? _ HU1]; subst. apply Forall_app in HU1. destruct HU1 as [HU1 _].
    rewrite (double_complete v p HQ HU1 t). reflexivity.
Qed.

(* The whole text *)
Fixpoint tof (l : list token) : tstream :=
  match l with [] => TEnd | t :: r => TCons t (tof r) end.
Lemma code_nonempty u k nxt : piece u k nxt -> code k <> [].
Proof.
  intros H. destruct H as [c nxt HI|c w nxt Hc HF HD|v w nxt HN|v nxt HF|v p nxt HQ]; cbn [code]; try discriminate.
  apply number_inv in HN. destruct HN as (sg & v' & w' & -> & -> & HP & HN).
  destruct HN as (n & i & it & f & ft & e & et & -> & -> & HI & _).
  intros E. apply app_eq_nil in E. destruct E as [_ E]. apply app_eq_nil in E. destruct E as [-> _].
  inversion HI as [u ds nx HR HU HS HT HB E1 E2 E3 E4|]; subst. apply run_nonempty in HR. destruct HR as [_ HR].
  exact (HU (HR eq_refl)).
Qed.
Lemma piece_nonempty u k nxt : piece u k nxt -> u <> [].
Proof.
  intros H. destruct H as [c nxt HI|c w nxt Hc HF HD|v w nxt HN|v nxt HF|v p nxt HQ]; try discriminate.
  apply number_inv in HN. destruct HN as (sg & v' & w' & -> & -> & HP & HN).
  destruct (plain_nonempty _ _ _ HN) as (d & r & ->). destruct sg; discriminate.
Qed.

Lemma tokens_sound : forall n s l, scalars s -> tokens n s = tof l ->
  exists cs ts, s = of_list cs /\ lexed cs ts /\ l = map code ts.
Proof.
  induction n as [|n IH]; intros s l HS H; [destruct l; discriminate|].
  cbn [tokens] in H. destruct (do_token s) as [[t r]| |] eqn:E; [|destruct l; discriminate..].
  destruct t as [|c t].
  - destruct l; [|discriminate]. apply token_end in E. destruct E as (b & -> & HT).
    exists b, []. split; [reflexivity|]. split; [constructor; exact HT|reflexivity].
  - destruct l as [|t0 l]; [discriminate|]. cbn [tof] in H. injection H as <- H.
    destruct (token_sound _ _ _ HS E ltac:(discriminate)) as (b & u & k & -> & HB & HP & EK).
    apply scalars_push in HS. destruct HS as [_ HS]. apply scalars_push in HS. destruct HS as [_ HS].
    destruct (IH r l HS H) as (cs & ts & -> & HX & ->). rewrite hd_list in HP.
    exists (b ++ u ++ cs), (k :: ts). rewrite !push_list. split; [reflexivity|].
    split; [constructor; assumption|]. cbn [map]. rewrite EK. reflexivity.
Qed.
Lemma tokens_complete cs ts : lexed cs ts -> Forall scalar cs -> forall n, (length cs < n)%nat ->
  tokens n (of_list cs) = tof (map code ts).
Proof.
  induction 1 as [b HT|b u k cs ts HB HP HX IH]; intros HS n HN.
  - destruct n as [|n]; [lia|]. cbn [tokens]. unfold do_token. rewrite skip_trail by exact HT. reflexivity.
  - destruct n as [|n]; [lia|]. cbn [tokens]. apply Forall_app in HS. destruct HS as [_ HS].
    apply Forall_app in HS. destruct HS as [HSu HS].
    rewrite <- !push_list, (token_complete b u k cs HB HP HSu).
    pose proof (code_nonempty _ _ _ HP). destruct (code k) as [|c t] eqn:EK; [congruence|].
    cbn [map tof]. rewrite EK. f_equal. apply IH; [exact HS|].
    apply piece_nonempty in HP. rewrite !app_length in HN. destruct u; [congruence|cbn [length] in HN; lia].
Qed.

(* There is always enough fuel. *)
Fixpoint no_fuel (s : tstream) : Prop :=
  match s with TFuel => False | TCons _ r => no_fuel r | _ => True end.
Lemma length_push u s : stream_length (push u s) = (length u + stream_length s)%nat.
Proof. induction u as [|c u IH]; cbn [push stream_length length]; [reflexivity|rewrite IH; reflexivity]. Qed.
Lemma tokens_fuel : forall n s, scalars s -> (stream_length s < n)%nat -> no_fuel (tokens n s).
Proof.
  induction n as [|n IH]; intros s HS HN; [lia|]. cbn [tokens].
  destruct (do_token s) as [[t r]| |] eqn:E; try exact I. destruct t as [|c t]; [exact I|].
  destruct (token_sound _ _ _ HS E ltac:(discriminate)) as (b & u & k & -> & _ & HP & _).
  apply scalars_push in HS. destruct HS as [_ HS]. apply scalars_push in HS. destruct HS as [_ HS].
  cbn [no_fuel]. apply IH; [exact HS|]. rewrite !length_push in HN. apply piece_nonempty in HP.
  destruct u; [congruence|cbn [length] in HN; lia].
Qed.
