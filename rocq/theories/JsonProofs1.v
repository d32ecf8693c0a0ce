(* Strings: escaping and reading back. *)
From Verif Require Import Base UtfModel UtfSpec UtfProofs JsonModel JsonSpec.
From Coq Require Import Lia.

Lemma load_ascii : forall s b r, rest s = b :: r -> 0 <= b < 128 -> load_next s = Val (mk_src b (eof s) (off s + 1) r).
Proof.
  intros s b r E H. unfold load_next. rewrite E. unfold within.
  replace (128 <=? b) with false by lia. replace (b >? 127) with false by lia. reflexivity.
Qed.
Lemma load_end : forall s, rest s = [] -> load_next s = Val (mk_src (-1) true (off s) []).
Proof. intros s E. unfold load_next. rewrite E. reflexivity. Qed.

Lemma span_app : forall f a b, forallb f a = true -> match b with c :: _ => f c = false | [] => True end -> span f (a ++ b) = (a, b).
Proof.
  induction a as [|c a IH]; intros b Ha Hb.
  - destruct b as [|c b]; [reflexivity|]. cbn [app span]. rewrite Hb. reflexivity.
  - cbn [forallb] in Ha. apply andb_prop in Ha. destruct Ha as [H1 H2]. cbn [app span]. rewrite H1, (IH b H2 Hb). reflexivity.
Qed.
Lemma span_split : forall f s a b, span f s = (a, b) -> s = a ++ b /\ forallb f a = true /\ match b with c :: _ => f c = false | [] => True end.
Proof.
  induction s as [|c s IH]; intros a b H.
  - injection H as <- <-. auto.
  - cbn [span] in H. destruct (f c) eqn:E.
    + destruct (span f s) as [x y] eqn:Es. injection H as <- <-. destruct (IH x y eq_refl) as [-> [H2 H3]].
      split; [reflexivity|]. split; [cbn [forallb]; rewrite E, H2; reflexivity|assumption].
    + injection H as <- <-. split; [reflexivity|]. split; [reflexivity|assumption].
Qed.

(* ---- characters ---- *)
Lemma points_fuel : forall f g s, all_bytes s -> (length s <= f)%nat -> (length s <= g)%nat -> points f s = points g s.
Proof.
  induction f as [|f IH]; intros g s Hb Hf Hg.
  - destruct s; [|cbn [length] in Hf; lia]. destruct g; reflexivity.
  - destruct s as [|b t]; [destruct g; reflexivity|]. destruct g as [|g]; [cbn [length] in Hg; lia|].
    cbn [points]. inversion Hb; subst. destruct (utf8_decode (b :: t)) as [[cp t']|] eqn:E.
    + pose proof (decode_shorter _ _ _ Hb E) as Hs. destruct (decode_sound _ _ _ Hb E) as [_ [pre [Ep _]]].
      f_equal. cbn [length] in *. apply IH; [|lia|lia]. unfold all_bytes in *. rewrite Ep in Hb. apply Forall_app in Hb. apply Hb.
    + f_equal. cbn [length] in *. apply IH; [assumption|lia|lia].
Qed.
Definition pts (s : bytes) : list Z := points (length s) s.
Lemma pts_nil : pts [] = [].
Proof. reflexivity. Qed.
Lemma pts_some : forall s cp t, all_bytes s -> utf8_decode s = Some (cp, t) -> pts s = cp :: pts t.
Proof.
  intros s cp t Hb H. unfold pts. destruct s as [|b s]; [discriminate|]. cbn [length points]. rewrite H. f_equal.
  pose proof (decode_shorter _ _ _ Hb H) as Hs. destruct (decode_sound _ _ _ Hb H) as [_ [pre [Ep _]]]. cbn [length] in Hs.
  apply points_fuel; [|lia|lia]. unfold all_bytes in *. rewrite Ep in Hb. apply Forall_app in Hb. apply Hb.
Qed.
Lemma pts_none : forall b s, all_bytes s -> utf8_decode (b :: s) = None -> pts (b :: s) = 0xFFFD :: pts s.
Proof. intros b s Hb H. unfold pts. cbn [length points]. rewrite H. reflexivity. Qed.
Lemma pts_ascii : forall b s, 0 <= b < 128 -> all_bytes s -> pts (b :: s) = b :: pts s.
Proof.
  intros b s Hb Hs. apply pts_some; [constructor; [unfold is_byte; lia|assumption]|]. apply decode1. lia.
Qed.
Lemma plain_ascii : forall c, plain_out c = true -> 0 <= c < 128.
Proof. intros c H. unfold plain_out, within in H. lia. Qed.
Lemma plain_sub : forall c, plain_out c = true -> plain_in c = true.
Proof.
  intros c H. unfold plain_out, plain_in, any_of in *. cbn [existsb] in *. apply andb_prop in H. destruct H as [H1 H2]. rewrite H2.
  destruct (c =? 92); [discriminate|]. destruct (c =? 34); [discriminate|]. reflexivity.
Qed.
Lemma pts_run : forall a s, forallb plain_out a = true -> all_bytes s -> pts (a ++ s) = a ++ pts s.
Proof.
  induction a as [|c a IH]; intros s Ha Hs; [reflexivity|]. cbn [forallb] in Ha. apply andb_prop in Ha. destruct Ha as [H1 H2].
  cbn [app]. apply plain_ascii in H1. rewrite pts_ascii; [|assumption|].
  - rewrite IH by assumption. reflexivity.
  - apply Forall_app. split; [|assumption]. apply Forall_forall. intros x Hx. rewrite forallb_forall in H2.
    apply H2 in Hx. apply plain_ascii in Hx. unfold is_byte. lia.
Qed.
Lemma repair_pts : forall s, repair s = concat (map rfc3629 (pts s)).
Proof. reflexivity. Qed.
Lemma rfc_ascii : forall c, 0 <= c < 128 -> rfc3629 c = [c].
Proof. intros c H. unfold rfc3629. replace (c <? 128) with true by lia. reflexivity. Qed.
Lemma rfc_run : forall a, forallb plain_out a = true -> concat (map rfc3629 a) = a.
Proof.
  induction a as [|c a IH]; intros H; [reflexivity|]. cbn [forallb] in H. apply andb_prop in H. destruct H as [H1 H2].
  cbn [map concat]. rewrite rfc_ascii by (apply plain_ascii; assumption). rewrite IH by assumption. reflexivity.
Qed.
Lemma repair_run : forall a s, forallb plain_out a = true -> all_bytes s -> repair (a ++ s) = a ++ repair s.
Proof. intros a s Ha Hs. rewrite !repair_pts, pts_run by assumption. rewrite map_app, concat_app, rfc_run by assumption. reflexivity. Qed.
Lemma repair_one : forall b s, 0 <= b < 128 -> all_bytes s -> repair (b :: s) = b :: repair s.
Proof. intros b s Hb Hs. rewrite !repair_pts, pts_ascii by assumption. cbn [map concat]. rewrite rfc_ascii by assumption. reflexivity. Qed.
Lemma repair_wf : forall s, utf8_wf s -> repair s = s.
Proof.
  intros s [cps [Hc ->]]. rewrite repair_pts. f_equal. f_equal. induction Hc as [|cp cps H1 H2 IH]; [reflexivity|].
  cbn [map concat]. assert (Hb : forall l, Forall scalar l -> all_bytes (concat (map rfc3629 l))).
  { induction l as [|x l IHl]; intros Hl; [constructor|]. inversion Hl; subst. cbn [map concat]. apply Forall_app. split; [apply rfc3629_byte; assumption|apply IHl; assumption]. }
  rewrite (pts_some _ cp (concat (map rfc3629 cps))).
  - rewrite IH. reflexivity.
  - apply Forall_app. split; [apply rfc3629_byte; assumption|apply Hb; assumption].
  - apply decode_rfc. assumption.
Qed.

(* ---- hexadecimal units ---- *)
Definition hex_ok (u : Z) : bool :=
  match hex_value 0 (hex_unit 4 u) with Val x => x =? u | _ => false end.
Fixpoint up_to (n : nat) (p : Z -> bool) (z : Z) : bool :=
  match n with O => true | S n => p z && up_to n p (z + 1) end.
Lemma up_to_ok : forall n p z, up_to n p z = true -> forall x, z <= x < z + Z.of_nat n -> p x = true.
Proof.
  induction n as [|n IH]; intros p z H x Hx; [lia|]. cbn [up_to] in H. apply andb_prop in H. destruct H as [H1 H2].
  destruct (Z.eq_dec x z) as [->|Hn]; [assumption|]. apply (IH p (z + 1) H2). lia.
Qed.
Lemma hex_back : forall u, 0 <= u < 65536 -> hex_value 0 (hex_unit 4 u) = Val u.
Proof.
  intros u H. assert (Hs : hex_ok u = true).
  { apply (up_to_ok (Z.to_nat 65536) hex_ok 0); [vm_compute; reflexivity|]. rewrite Z2Nat.id by lia. lia. }
  unfold hex_ok in Hs. destruct (hex_value 0 (hex_unit 4 u)); try discriminate. apply Z.eqb_eq in Hs. subst. reflexivity.
Qed.
Lemma hex_len : forall u, length (hex_unit 4 u) = 4%nat.
Proof. reflexivity. Qed.

Lemma exactly : forall n a b, length a = n -> get_exactly n (a ++ b) = Val (a, b).
Proof.
  intros n a b <-. unfold get_exactly. rewrite firstn_app, Nat.sub_diag, firstn_all. cbn [firstn]. rewrite app_nil_r, Nat.eqb_refl.
  rewrite skipn_app, Nat.sub_diag, skipn_all. reflexivity.
Qed.

Lemma unescape_unit : forall cp t, scalar cp -> 
  exists e, unicode_escape (rfc2781 cp) = backslash :: e /\ unescape (e ++ t) = Val (cp, t).
Proof.
  intros cp t H. unfold scalar in H. unfold rfc2781. destruct (cp <? 65536) eqn:E.
  - exists (117 :: hex_unit 4 cp). split; [reflexivity|]. cbn [app]. cbn [unescape].
    change (any_of 117 [92; 34; 47]) with false. change (117 =? 98) with false. change (117 =? 102) with false.
    change (117 =? 110) with false. change (117 =? 114) with false. change (117 =? 116) with false. change (117 =? 117) with true.
    cbn iota. rewrite (exactly 4) by reflexivity. cbn [rbind]. rewrite hex_back by lia. cbn [rbind]. unfold within.
    replace ((56320 <=? cp) && (cp <=? 57343)) with false by lia. replace ((55296 <=? cp) && (cp <=? 56319)) with false by lia. reflexivity.
  - set (h := 55296 + (cp - 65536) / 1024). set (l := 56320 + (cp - 65536) mod 1024).
    assert (Hh : 55296 <= h <= 56319) by (unfold h; lia). assert (Hl : 56320 <= l <= 57343) by (unfold l; lia).
    exists (117 :: hex_unit 4 h ++ [backslash; 117] ++ hex_unit 4 l). split; [reflexivity|]. cbn [app]. cbn [unescape].
    change (any_of 117 [92; 34; 47]) with false. change (117 =? 98) with false. change (117 =? 102) with false.
    change (117 =? 110) with false. change (117 =? 114) with false. change (117 =? 116) with false. change (117 =? 117) with true.
    cbn iota. rewrite <- app_assoc. rewrite (exactly 4) by reflexivity. cbn [rbind]. rewrite hex_back by lia. cbn [rbind]. unfold within.
    replace ((56320 <=? h) && (h <=? 57343)) with false by lia. replace ((55296 <=? h) && (h <=? 56319)) with true by lia.
    rewrite (exactly 6) by reflexivity. cbn [rbind nth]. change (negb (backslash =? 92) || negb (117 =? 117)) with false. cbn iota.
    change (skipn 2 (backslash :: 117 :: hex_unit 4 l)) with (hex_unit 4 l). rewrite hex_back by lia. cbn [rbind].
    replace ((56320 <=? l) && (l <=? 57343)) with true by lia. cbn [negb]. rewrite Z.shiftl_mul_pow2 by lia. change (2 ^ 10) with 1024.
    f_equal. f_equal. unfold h, l. lia.
Qed.

(* what the body of a string literal stands for *)
Definition lit (e s : bytes) : Prop :=
  forall F tok q u, (length e < F)%nat -> eof q = false -> rest q = e ++ quote :: u ->
    exists o, take_string F tok q = Val (tok ++ s, mk_src (-1) false o u).

Lemma lit_end : forall a, forallb plain_out a = true -> lit a a.
Proof.
  intros a Ha F tok q u HF He Hr. destruct F as [|F]; [lia|]. cbn [take_string]. rewrite Hr.
  assert (Ha' : forallb plain_in a = true).
  { apply forallb_forall. intros x Hx. rewrite forallb_forall in Ha. apply Ha in Hx. apply plain_sub; assumption. }
  rewrite span_app by (assumption || reflexivity). 
  erewrite load_ascii by (reflexivity || (unfold quote; lia)). cbn [rbind eof ch rest].
  rewrite He. change ((quote <=? 31) || (quote =? 127)) with false. rewrite Z.eqb_refl. eexists. reflexivity.
Qed.
Lemma lit_cons : forall a x c e s, forallb plain_out a = true -> (forall t, unescape (x ++ t) = Val (c, t)) -> scalar c ->
  lit e s -> lit (a ++ backslash :: x ++ e) (a ++ rfc3629 c ++ s).
Proof.
  intros a x c e s Ha Hx Hc Hl F tok q u HF He Hr. destruct F as [|F]; [lia|]. cbn [take_string]. rewrite Hr.
  assert (Ha' : forallb plain_in a = true).
  { apply forallb_forall. intros y Hy. rewrite forallb_forall in Ha. apply Ha in Hy. apply plain_sub; assumption. }
  rewrite <- app_assoc. cbn [app]. rewrite span_app by (assumption || reflexivity).
  erewrite load_ascii by (reflexivity || (unfold backslash; lia)). cbn [rbind eof ch rest]. rewrite He.
  change ((backslash <=? 31) || (backslash =? 127)) with false. change (backslash =? quote) with false. rewrite Z.eqb_refl. cbn iota.
  rewrite <- app_assoc. rewrite Hx. cbn [rbind].
  assert (Hb : (if c <=? 127 then [c] else match utf8_encode c with Some m => m | None => [] end) = rfc3629 c).
  { destruct (c <=? 127) eqn:E; [rewrite rfc_ascii; [reflexivity|unfold scalar in Hc; lia]|].
    destruct (utf8_encode_spec c) as [[_ ->]|[Hn _]]; [unfold scalar in Hc; lia|reflexivity|contradiction]. }
  rewrite Hb. rewrite !app_length in HF. cbn [length] in HF. rewrite app_length in HF.
  match goal with |- context [take_string F ?tk ?qq] => destruct (Hl F tk qq u) as [o Ho]; [lia|reflexivity|reflexivity|] end.
  exists o. rewrite Ho. rewrite <- !app_assoc. reflexivity.
Qed.

Lemma escape_ok : forall f s, all_bytes s -> (length s < f)%nat -> exists e, escape f s = Val e /\ lit e (repair s).
Proof.
  induction f as [|f IH]; intros s Hb Hf; [lia|]. cbn [escape]. destruct (span plain_out s) as [run t] eqn:Es.
  apply span_split in Es. destruct Es as [-> [Hr Ht]]. apply Forall_app in Hb. destruct Hb as [Hb1 Hb2]. rewrite app_length in Hf.
  destruct t as [|next t'].
  - exists run. split; [reflexivity|]. rewrite app_nil_r.
    assert (Er : repair run = run).
    { rewrite <- (app_nil_r run) at 1. rewrite repair_run by (assumption || constructor). rewrite repair_pts, pts_nil. cbn [map concat]. apply app_nil_r. }
    rewrite Er. apply lit_end. assumption.
  - pose proof Hb2 as Hb2'. inversion Hb2 as [|? ? Hn Hb3]; subst. cbn [length] in Hf. unfold is_byte in Hn.
    assert (Hgo : forall x c t'', all_bytes t'' -> (length t'' <= length t')%nat -> (forall t, unescape (x ++ t) = Val (c, t)) -> scalar c ->
      repair (next :: t') = rfc3629 c ++ repair t'' ->
      exists e, (let* r := escape f t'' in Val (run ++ (backslash :: x) ++ r)) = Val e /\ lit e (repair (run ++ next :: t'))).
    { intros x c t'' H1 H2 H3 H4 H5. destruct (IH t'' H1) as [e [He Hl]]; [lia|]. rewrite He. cbn [rbind].
      exists (run ++ (backslash :: x) ++ e). split; [reflexivity|]. rewrite repair_run by assumption. rewrite H5. cbn [app].
      apply lit_cons; assumption. }
    assert (Hsimple : forall d c, 0 <= c < 128 -> next = c -> (forall t, unescape ([d] ++ t) = Val (c, t)) ->
      exists e, (let* r := escape f t' in Val (run ++ [backslash; d] ++ r)) = Val e /\ lit e (repair (run ++ next :: t'))).
    { intros d c H1 H2 H3. subst next. apply (Hgo [d] c t' Hb3 (le_n _) H3); [unfold scalar; lia|]. rewrite rfc_ascii, repair_one by assumption. reflexivity. }
    destruct (any_of next [92; 34; 47]) eqn:E1.
    { cbn [fst snd]. apply (Hsimple next next); [unfold any_of in E1; cbn [existsb] in E1; lia|reflexivity|]. intros t. cbn [app unescape]. rewrite E1. reflexivity. }
    destruct (next =? 8) eqn:E2; [apply Z.eqb_eq in E2; cbn [fst snd]; apply (Hsimple 98 8); [lia|assumption|reflexivity]|].
    destruct (next =? 12) eqn:E3; [apply Z.eqb_eq in E3; cbn [fst snd]; apply (Hsimple 102 12); [lia|assumption|reflexivity]|].
    destruct (next =? 10) eqn:E4; [apply Z.eqb_eq in E4; cbn [fst snd]; apply (Hsimple 110 10); [lia|assumption|reflexivity]|].
    destruct (next =? 13) eqn:E5; [apply Z.eqb_eq in E5; cbn [fst snd]; apply (Hsimple 114 13); [lia|assumption|reflexivity]|].
    destruct (next =? 9) eqn:E6; [apply Z.eqb_eq in E6; cbn [fst snd]; apply (Hsimple 116 9); [lia|assumption|reflexivity]|].
    destruct (within next 32 126) eqn:E7; [unfold plain_out in Ht; rewrite E1, E7 in Ht; discriminate|].
    destruct (utf8_decode (next :: t')) as [[cp t'']|] eqn:Ed.
    + cbn [fst snd]. destruct (decode_sound _ _ _ Hb2' Ed) as [Hsc [pre [Ep _]]].
      assert (Hr16 : utf16_encode cp = Some (rfc2781 cp)).
      { destruct (utf16_encode_spec cp) as [[_ H]|[H _]]; [unfold scalar in Hsc; lia|assumption|contradiction]. }
      rewrite Hr16. destruct (unescape_unit cp [] Hsc) as [x [Ex _]]. rewrite Ex.
      apply (Hgo x cp t'').
      * unfold all_bytes in *. rewrite Ep in Hb2'. apply Forall_app in Hb2'. apply Hb2'.
      * pose proof (decode_shorter _ _ _ Hb2' Ed) as Hd. cbn [length] in Hd. lia.
      * intros t. destruct (unescape_unit cp t Hsc) as [x' [Ex' Hx']]. rewrite Ex in Ex'. injection Ex' as ->. exact Hx'.
      * exact Hsc.
      * rewrite !repair_pts, (pts_some _ _ _ Hb2' Ed). reflexivity.
    + cbn [fst snd]. change ([backslash; 117; 70; 70; 70; 68]) with (backslash :: [117; 70; 70; 70; 68]).
      apply (Hgo [117; 70; 70; 70; 68] 0xFFFD t' Hb3 (le_n _)); [reflexivity|unfold scalar; lia|].
      rewrite !repair_pts, (pts_none _ _ Hb3 Ed). reflexivity.
Qed.
Lemma escape_string_ok : forall s, all_bytes s -> exists e, escape_string s = Val e /\ lit e (repair s).
Proof. intros s Hb. apply escape_ok; [assumption|lia]. Qed.
