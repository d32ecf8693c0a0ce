From Verif Require Import Base UtfModel UtfSpec UtfProofs FileModel FileProofs StdioModel StdioSpec.

Lemma encode_scalar cp : scalar cp -> utf8_encode cp = Some (rfc3629 cp).
Proof.
  intros H. destruct (utf8_encode_spec cp) as [[_ E]|[E _]]; [unfold scalar in H; lia|exact E|contradiction].
Qed.
Lemma rfc_nonempty cp : rfc3629 cp <> [].
Proof. unfold rfc3629. destruct (cp <? 128), (cp <? 2048), (cp <? 65536); discriminate. Qed.
Lemma text_app a b : text_of (a ++ b) = text_of a ++ text_of b.
Proof. unfold text_of. now rewrite map_app, concat_app. Qed.
Lemma text_cons x l : text_of (x :: l) = rfc3629 x ++ text_of l.
Proof. reflexivity. Qed.
Lemma text_nil cps : text_of cps = [] -> cps = [].
Proof. destruct cps as [|x l]; [reflexivity|]. rewrite text_cons. intros H. apply app_eq_nil in H as [H _]. now apply rfc_nonempty in H. Qed.

(* ---- lines read ---- *)
Lemma getln_prefix line : forall u8str inp, Forall scalar line -> ~ In LF line ->
  getln_loop u8str (map Some line ++ inp) = getln_loop (u8str ++ text_of line) inp.
Proof.
  induction line as [|x line IH]; intros u8str inp F N; [cbn; now rewrite app_nil_r|].
  inversion F as [|? ? Fx F']; subst. cbn [map app getln_loop]. destruct (Z.eqb_spec x 10) as [E|E]; [elim N; left; exact E|].
  rewrite (encode_scalar x Fx), (IH _ _ F') by (intros I; apply N; now right). now rewrite text_cons, app_assoc.
Qed.
Lemma getln_line line rest : Forall scalar line -> ~ In LF line ->
  io_getln (map Some line ++ Some LF :: rest) = (rest, Ok (Some (text_of line))).
Proof. intros F N. unfold io_getln. rewrite getln_prefix by assumption. reflexivity. Qed.
Lemma getln_last line : Forall scalar line -> ~ In LF line -> line <> [] ->
  io_getln (map Some line) = ([], Ok (Some (text_of line))).
Proof.
  intros F N L. unfold io_getln. rewrite <- (app_nil_r (map Some line)), getln_prefix by assumption. cbn [app getln_loop].
  destruct (text_of line) eqn:E; [apply text_nil in E; contradiction|reflexivity].
Qed.
Lemma line_exists inp : exists line rest, line_of inp line rest.
Proof.
  induction inp as [|x inp (line & rest & N & H)]; [exists [], []; split; [intros []|now right]|].
  destruct (Z.eq_dec x LF) as [->|E]; [exists [], inp; split; [intros []|now left]|].
  exists (x :: line), rest. split; [intros [I|I]; [now apply E|now apply N]|].
  destruct H as [->|[-> ->]]; [now left|now right].
Qed.
Lemma getln_ok inp line rest : Forall scalar inp -> inp <> [] -> line_of inp line rest ->
  io_getln (map Some inp) = (map Some rest, Ok (Some (text_of line))).
Proof.
  intros F NE [N [->|[-> ->]]].
  - apply Forall_app in F as [F _]. rewrite map_app. now apply getln_line.
  - now apply getln_last.
Qed.
Lemma getln_error line x rest : Forall scalar line -> ~ In LF line ->
  match x with None => True | Some w => 0 <= w < 2 ^ 32 /\ ~ scalar w end ->
  io_getln (map Some line ++ x :: rest) = (rest, Throw).
Proof.
  intros F N X. unfold io_getln. rewrite getln_prefix by assumption. cbn [getln_loop]. destruct x as [w|]; [|reflexivity].
  destruct X as [R X]. destruct (Z.eqb_spec w 10) as [->|_]; [elim X; unfold scalar; lia|].
  destruct (utf8_encode_spec w R) as [[Y _]|[_ ->]]; [contradiction|reflexivity].
Qed.

(* ---- text written ---- *)
Section Out.
Variable bad : nat -> bool.
Lemma write_ok : forall fuel out text n, all_bytes text -> (length text <= fuel)%nat ->
  exists cps pre rest r, write_common bad fuel out text n = (out ++ cps, r) /\ text = pre ++ rest /\ spells pre cps /\
    ((r = Ok (n + Z.of_nat (length cps)) /\ rest = []) \/ (r = Throw /\ (malformed rest \/ rest <> [] /\ bad (length (out ++ cps)) = true))).
Proof.
  assert (S0 : spells [] []) by (split; [constructor|exists []; split; [reflexivity|constructor]]).
  induction fuel as [|fuel IH]; intros out text n B L.
  - destruct text; [|cbn in L; lia]. exists [], [], [], (Ok n). rewrite app_nil_r. cbn. rewrite Z.add_0_r. split; [reflexivity|]. split; [reflexivity|]. split; [exact S0|]. left. split; reflexivity.
  - destruct text as [|x text]; [exists [], [], [], (Ok n); rewrite app_nil_r; cbn; rewrite Z.add_0_r; split; [reflexivity|]; split; [reflexivity|]; split; [exact S0|]; left; split; reflexivity|].
    cbn [write_common]. destruct (utf8_decode (x :: text)) as [[cp text']|] eqn:E.
    + destruct (decode_sound _ _ _ B E) as (Sc & pre & T & Lo). destruct (decode_shorter _ _ _ B E) as [Sh B'].
      unfold fputwc. destruct (bad (length out)) eqn:Bd.
      * exists [], [], (x :: text), Throw. rewrite app_nil_r. split; [reflexivity|]. split; [reflexivity|]. split; [exact S0|].
        right. split; [reflexivity|]. right. split; [discriminate|exact Bd].
      * destruct (IH (out ++ [cp]) text' (n + 1) B' ltac:(cbn [length] in *; lia)) as (cps & pre' & rest & r & H1 & H2 & (H3 & parts & H4 & H5) & H6).
        exists (cp :: cps), (pre ++ pre'), rest, r. rewrite H1, <- app_assoc. split; [reflexivity|].
        split; [rewrite T, H2; now rewrite app_assoc|].
        split. { split; [now constructor|]. exists (pre :: parts). split; [cbn; now rewrite H4|now constructor]. }
        rewrite <- app_assoc in H6. destruct H6 as [[-> ->]|H6]; [left|right; exact H6]. split; [|reflexivity]. f_equal. cbn [length]. lia.
    + exists [], [], (x :: text), Throw. rewrite app_nil_r. split; [reflexivity|]. split; [reflexivity|]. split; [exact S0|].
      right. split; [reflexivity|]. left. split; [discriminate|]. intros (cp & pre & rest & Sc & Lo & T).
      rewrite T, (loose_decode pre cp rest Sc Lo) in E. discriminate E.
Qed.
Lemma putc_string_ok out text : all_bytes text ->
  exists cps pre rest r, io_putc_string bad out text = (out ++ cps, r) /\ text = pre ++ rest /\ spells pre cps /\
    ((r = Ok (Z.of_nat (length cps)) /\ rest = []) \/ (r = Throw /\ (malformed rest \/ rest <> [] /\ bad (length (out ++ cps)) = true))).
Proof. intros B. exact (write_ok (length text) out text 0 B (le_n _)). Qed.
Lemma write_wf : (forall k, bad k = false) -> forall cps fuel out n, Forall scalar cps -> (length (text_of cps) <= fuel)%nat ->
  write_common bad fuel out (text_of cps) n = (out ++ cps, Ok (n + Z.of_nat (length cps))).
Proof.
  intros G. induction cps as [|x cps IH]; intros fuel out n F L.
  - cbn. rewrite app_nil_r, Z.add_0_r. destruct fuel; reflexivity.
  - inversion F as [|? ? Fx F']; subst. rewrite text_cons in *. assert (NE := rfc_nonempty x).
    destruct (rfc3629 x ++ text_of cps) as [|b t] eqn:E; [apply app_eq_nil in E as [E _]; contradiction|].
    destruct fuel as [|fuel]; [cbn in L; lia|]. cbn [write_common]. rewrite <- E, (decode_rfc x _ Fx). unfold fputwc. rewrite G.
    rewrite IH; [rewrite <- app_assoc; cbn [app length]; f_equal; f_equal; lia|exact F'|].
    rewrite <- E, app_length in L. destruct (rfc3629 x); [contradiction|]. cbn [length] in L. lia.
Qed.
Lemma putln_wf out cps : (forall k, bad k = false) -> Forall scalar cps ->
  io_putln bad out (text_of cps) = (out ++ cps ++ [LF], Ok (Z.of_nat (length cps) + 1)).
Proof.
  intros G F. unfold io_putln. rewrite (write_wf G) by (assumption || apply le_n). unfold fputwc. rewrite G. now rewrite <- app_assoc.
Qed.
Lemma putln_ok out text : all_bytes text ->
  exists cps pre rest r, io_putln bad out text = (out ++ cps, r) /\ text = pre ++ rest /\
    ((r = Ok (Z.of_nat (length cps)) /\ rest = [] /\ exists line, cps = line ++ [LF] /\ spells pre line) \/
     (r = Throw /\ spells pre cps /\ (malformed rest \/ bad (length (out ++ cps)) = true))).
Proof.
  intros B. unfold io_putln. destruct (write_ok (length text) out text 0 B (le_n _)) as (cps & pre & rest & r & H1 & H2 & H3 & H4). rewrite H1.
  destruct H4 as [[-> ->]|[-> H4]].
  - unfold fputwc. destruct (bad (length (out ++ cps))) eqn:E.
    + exists cps, pre, [], Throw. split; [reflexivity|]. split; [exact H2|]. right. auto.
    + exists (cps ++ [LF]), pre, [], (Ok (Z.of_nat (length cps) + 1)). split; [now rewrite app_assoc|]. split; [exact H2|]. left.
      split; [rewrite app_length; cbn [length]; f_equal; lia|]. split; [reflexivity|]. now exists cps.
  - exists cps, pre, rest, Throw. split; [reflexivity|]. split; [exact H2|]. right. split; [reflexivity|]. split; [exact H3|]. destruct H4 as [H4|[_ H4]]; auto.
Qed.
Lemma putc_integer_ok out v : 
  (scalar v /\ bad (length out) = false /\ io_putc_integer bad out v = (out ++ [v], Ok 1)) \/
  ((~ scalar v \/ bad (length out) = true) /\ io_putc_integer bad out v = (out, Throw)).
Proof.
  unfold io_putc_integer. destruct ((v <? 0) || (1114111 <? v)) eqn:R.
  - right. split; [left; unfold scalar; lia|reflexivity].
  - destruct (utf8_encode_spec v ltac:(lia)) as [[S E]|[S E]]; rewrite E; [|right; auto].
    unfold fputwc. destruct (bad (length out)) eqn:Bd; [right; auto|left; auto].
Qed.
End Out.

(* ---- lines written and read back ---- *)
Lemma puts_ok bad lines : (forall k, bad k = false) -> Forall (Forall scalar) lines -> forall out,
  puts bad out (map text_of lines) = (out ++ concat (map (fun l => l ++ [LF]) lines), Ok tt).
Proof.
  intros G. induction lines as [|l lines IH]; intros F out; [cbn; now rewrite app_nil_r|]. inversion F; subst.
  cbn [map puts concat]. rewrite putln_wf by assumption. rewrite IH by assumption. now rewrite <- app_assoc.
Qed.
Lemma gets_ok lines : Forall (fun l => Forall scalar l /\ ~ In LF l) lines ->
  gets (S (length lines)) (map Some (concat (map (fun l => l ++ [LF]) lines))) = Ok (map Some (map text_of lines) ++ [None]).
Proof.
  induction lines as [|l lines IH]; intros F; [reflexivity|]. inversion F as [|? ? [F1 F2] F']; subst.
  cbn [length]. remember (S (length lines)) as n. cbn [map concat]. rewrite <- app_assoc. cbn [app]. rewrite map_app. cbn [map gets].
  rewrite getln_line by assumption. rewrite (IH F'). reflexivity.
Qed.
Lemma lines_back bad lines : (forall k, bad k = false) -> Forall (fun l => Forall scalar l /\ ~ In LF l) lines ->
  exists out, puts bad [] (map text_of lines) = (out, Ok tt) /\
    gets (S (length lines)) (map Some out) = Ok (map Some (map text_of lines) ++ [None]).
Proof.
  intros G F. eexists. split; [apply puts_ok; [exact G|]|cbn [app]; now apply gets_ok].
  eapply Forall_impl; [|exact F]. now intros l [H _].
Qed.

(* ---- bytes read ---- *)
Lemma stdin_ok fails ntotal : forall fuel data inp eof, 0 <= ntotal - size data -> (length inp < fuel)%nat ->
  let m := ntotal - size data in
  stdin_loop fails fuel ntotal data inp eof =
  if m <=? size inp then (skipn (Z.to_nat m) inp, eof, Ok (match data ++ firstn (Z.to_nat m) inp with [] => if eof then None else Some [] | d => Some d end))
  else if fails then ([], eof, Throw) else ([], true, Ok (match data ++ inp with [] => None | d => Some d end)).
Proof.
  induction fuel as [|fuel IH]; intros data inp eof M L; [lia|]. cbv zeta. cbn [stdin_loop].
  set (m := ntotal - size data) in *. set (nb := Z.min m (size data / 2 + 127)).
  assert (D : 0 <= size data / 2) by (apply Z.div_pos; unfold size; lia).
  assert (SI : 0 <= size inp) by (unfold size; lia).
  destruct (Z.eqb_spec nb 0) as [E|E].
  - assert (m = 0) as -> by lia. cbn [Z.to_nat skipn firstn]. rewrite app_nil_r. destruct (Z.leb_spec 0 (size inp)); [|lia]. destruct data; reflexivity.
  - rewrite ztake_ok, zdrop_ok. assert (SC : size (firstn (Z.to_nat nb) inp) = Z.min nb (size inp)) by (unfold size; rewrite firstn_length; lia).
    rewrite SC. destruct (Z.eqb_spec (Z.min nb (size inp)) nb) as [Q|Q].
    + assert (SD : size (data ++ firstn (Z.to_nat nb) inp) = size data + nb) by (unfold size in *; rewrite app_length; lia).
      rewrite IH; rewrite ?SD; [|lia|rewrite skipn_length; unfold size in *; lia].
      replace (ntotal - (size data + nb)) with (m - nb) by (unfold m; lia).
      assert (SS : size (skipn (Z.to_nat nb) inp) = size inp - nb) by (unfold size in *; rewrite skipn_length; lia). rewrite SS.
      replace (m - nb <=? size inp - nb) with (m <=? size inp) by lia. destruct (Z.leb_spec m (size inp)) as [Y|Y].
      * rewrite skipn_skipn'. replace (Z.to_nat nb + Z.to_nat (m - nb))%nat with (Z.to_nat m) by lia. rewrite <- app_assoc.
        rewrite (firstn_split (Z.to_nat nb) (Z.to_nat m) inp) by lia. replace (Z.to_nat m - Z.to_nat nb)%nat with (Z.to_nat (m - nb)) by lia. reflexivity.
      * rewrite <- app_assoc, firstn_skipn. reflexivity.
    + destruct (Z.leb_spec m (size inp)); [lia|]. rewrite firstn_all2 by (unfold size in *; lia). reflexivity.
Qed.
Lemma read_ok fails limit inp eof :
  let n := at_most limit in
  (n <= Z.of_nat (length inp) /\ io_read fails limit inp eof =
     (skipn (Z.to_nat n) inp, eof, Ok (if (n =? 0) && eof then None else Some (firstn (Z.to_nat n) inp)))) \/
  (Z.of_nat (length inp) < n /\ fails = true /\ io_read fails limit inp eof = ([], eof, Throw)) \/
  (Z.of_nat (length inp) < n /\ fails = false /\ inp <> [] /\ io_read fails limit inp eof = ([], true, Ok (Some inp))) \/
  (Z.of_nat (length inp) < n /\ fails = false /\ inp = [] /\ io_read fails limit inp eof = ([], true, Ok None)).
Proof.
  cbv zeta. unfold io_read. assert (A : Z.max 0 (Z.min (value_or limit INT_MAX) INT_MAX) = at_most limit) by (destruct limit; reflexivity).
  rewrite A. assert (P : 0 <= at_most limit) by (unfold at_most; destruct limit; lia). set (n := at_most limit) in *. clearbody n. clear A.
  rewrite stdin_ok; [|unfold size; cbn; lia|lia]. unfold size. cbn [length app]. change (Z.of_nat 0) with 0. rewrite Z.sub_0_r.
  destruct (Z.leb_spec n (Z.of_nat (length inp))) as [L|L].
  - left. split; [exact L|]. f_equal. f_equal. destruct (Z.eqb_spec n 0) as [->|N]; cbn [andb].
    + cbn. destruct eof; reflexivity.
    + destruct (firstn (Z.to_nat n) inp) eqn:E; [|reflexivity]. apply (f_equal (@length Z)) in E. rewrite firstn_length in E. cbn in E. lia.
  - right. destruct fails; [left; auto|right]. destruct inp as [|x inp]; [right; auto|left]. split; [exact L|]. split; [reflexivity|]. split; [discriminate|reflexivity].
Qed.
