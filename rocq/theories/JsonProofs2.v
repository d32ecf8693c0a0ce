(* Tokens. *)
From Verif Require Import Base UtfModel UtfSpec JsonModel JsonSpec JsonProofs1.
From Coq Require Import Lia.

Definition ascii (c : Z) : Prop := 0 <= c < 128.
(* the text that has not been read *)
Definition pending (s : src) (t : bytes) : Prop :=
  eof s = false /\ ((ch s < 0 /\ rest s = t) \/ (ascii (ch s) /\ t = ch s :: rest s)).
(* its first character has been loaded *)
Definition at_text (q : src) (t : bytes) : Prop :=
  match t with
  | [] => ch q = -1 /\ rest q = []
  | c :: r => ch q = c /\ rest q = r /\ eof q = false /\ ascii c
  end.
Definition head_ascii (t : bytes) : Prop := match t with [] => True | c :: _ => ascii c end.

Lemma is_ws_iff : forall c, is_ws c = true <-> c = 32 \/ c = 9 \/ c = 13 \/ c = 10.
Proof. intros c. unfold is_ws, any_of. cbn [existsb]. lia. Qed.
Lemma load_at : forall q t, eof q = false -> rest q = t -> head_ascii t -> exists q', load_next q = Val q' /\ at_text q' t.
Proof.
  intros q t He Hr Ht. destruct t as [|c r].
  - exists (mk_src (-1) true (off q) []). split; [apply load_end; assumption|]. split; reflexivity.
  - exists (mk_src c (eof q) (off q + 1) r). split; [apply load_ascii; assumption|]. cbn. auto.
Qed.

Lemma blank_span : forall w, blank w -> forallb is_ws w = true.
Proof. intros w H. apply forallb_forall. intros c Hc. unfold blank in H. rewrite Forall_forall in H. apply is_ws_iff. auto. Qed.
Lemma ws_ascii : forall c, is_ws c = true -> ascii c.
Proof. intros c H. apply is_ws_iff in H. unfold ascii. lia. Qed.

Lemma start_token_ok : forall s w x u, pending s (w ++ x :: u) -> blank w -> ascii x -> is_ws x = false ->
  exists o, start_token s = Val (mk_src x false o u).
Proof.
  intros s w x u [He Hp] Hw Hx Hn.
  assert (Hfirst : exists c r o, w ++ x :: u = c :: r /\ ascii c
    /\ (if ch s <? 0 then let* s' := load_next s in
          if (0 <=? ch s') && (off s =? 0) && (ch s' =? 65279) then load_next s' else Val s' else Val s) = Val (mk_src c false o r)).
  { assert (Hc : exists c r, w ++ x :: u = c :: r /\ ascii c).
    { destruct w as [|c w]; [exists x, u; auto|]. exists c, (w ++ x :: u). split; [reflexivity|]. apply blank_span in Hw. cbn [forallb] in Hw.
      apply andb_prop in Hw. apply ws_ascii. apply Hw. }
    destruct Hc as [c [r [Ec Hc]]]. exists c, r. destruct Hp as [[Hch Hr]|[Hch Ht]].
    - replace (ch s <? 0) with true by lia. rewrite Ec in Hr. rewrite (load_ascii s c r Hr Hc). cbn [rbind ch]. rewrite He.
      unfold ascii in Hc. replace (c =? 65279) with false by lia. rewrite Bool.andb_false_r. eexists. split; [assumption|]. split; [exact Hc|reflexivity].
    - replace (ch s <? 0) with false by (unfold ascii in Hch; lia). rewrite Ec in Ht. injection Ht as -> ->. exists (off s).
      split; [assumption|]. split; [assumption|]. destruct s as [a b d e]. cbn in *. rewrite He. reflexivity. }
  destruct Hfirst as [c [r [o [Ec [Hc Hf]]]]]. unfold start_token. cbv zeta. rewrite Hf. cbn [rbind ch].
  replace (c <? 0) with false by (unfold ascii in Hc; lia). unfold fuel_of. cbn [rest skip_space ch].
  destruct w as [|c' w'].
  - injection Ec as <- <-. rewrite Hn. exists o. reflexivity.
  - injection Ec as <- <-. apply blank_span in Hw. cbn [forallb] in Hw. apply andb_prop in Hw. destruct Hw as [Hw1 Hw2].
    rewrite Hw1. rewrite span_app by assumption. cbn [snd].
    erewrite load_ascii by (reflexivity || assumption). cbn [rbind ch].
    replace (x <? 0) with false by (unfold ascii in Hx; lia).
    rewrite app_length. cbn [length]. rewrite Nat.add_succ_r. cbn [skip_space ch]. rewrite Hn. eexists. reflexivity.
Qed.
(* at the end of the text *)
Lemma start_token_end : forall s w, pending s w -> blank w -> exists o, start_token s = Val (mk_src (-1) true o []).
Proof.
  intros s w [He Hp] Hw. unfold start_token. destruct Hp as [[Hch Hr]|[Hch Ht]].
  - replace (ch s <? 0) with true by lia. destruct w as [|c w].
    + rewrite (load_end s Hr). cbn. eexists. reflexivity.
    + apply blank_span in Hw. cbn [forallb] in Hw. apply andb_prop in Hw. destruct Hw as [Hw1 Hw2].
      rewrite (load_ascii s c w Hr (ws_ascii c Hw1)). cbn [rbind ch rest]. pose proof (ws_ascii c Hw1) as Ha. unfold ascii in Ha.
      replace (c =? 65279) with false by lia. rewrite Bool.andb_false_r. cbn [rbind ch]. replace (c <? 0) with false by lia.
      unfold fuel_of. cbn [rest skip_space ch]. rewrite Hw1. rewrite <- (app_nil_r w), span_app by (assumption || exact I). cbn [snd].
      rewrite load_end by reflexivity. cbn. eexists. reflexivity.
  - replace (ch s <? 0) with false by (unfold ascii in Hch; lia). cbn [rbind]. replace (ch s <? 0) with false by (unfold ascii in Hch; lia).
    subst w. apply blank_span in Hw. cbn [forallb] in Hw. apply andb_prop in Hw. destruct Hw as [Hw1 Hw2].
    unfold fuel_of. cbn [skip_space]. rewrite Hw1. rewrite <- (app_nil_r (rest s)), span_app by (assumption || exact I). cbn [snd].
    rewrite load_end by reflexivity. cbn. eexists. reflexivity.
Qed.
Lemma token_end : forall s w, pending s w -> blank w -> exists q, do_token s = Val ([], q) /\ eof q = true.
Proof.
  intros s w H Hw. unfold do_token. destruct (start_token_end s w H Hw) as [o Ho]. rewrite Ho. cbn [rbind ch].
  change (-1 <? 0) with true. cbn iota. eexists. split; reflexivity.
Qed.

(* ---- punctuation ---- *)
Lemma token_punct : forall s w x u, pending s (w ++ x :: u) -> blank w -> any_of x [91; 93; 123; 125; 58; 44] = true ->
  exists q, do_token s = Val ([x], q) /\ eof q = false /\ pending q u.
Proof.
  intros s w x u H Hw Hx. assert (Hv : x = 91 \/ x = 93 \/ x = 123 \/ x = 125 \/ x = 58 \/ x = 44) by (unfold any_of in Hx; cbn [existsb] in Hx; lia).
  destruct (start_token_ok s w x u H Hw) as [o Ho]; [unfold ascii; lia| |].
  { destruct (is_ws x) eqn:E; [apply is_ws_iff in E; lia|reflexivity]. }
  unfold do_token. rewrite Ho. cbn [rbind ch]. replace (x <? 0) with false by lia. unfold lex. cbn [ch]. rewrite Hx.
  eexists. split; [reflexivity|]. split; [reflexivity|]. split; [reflexivity|]. left. split; reflexivity.
Qed.

(* ---- strings ---- *)
Lemma token_string : forall s w e str u, pending s (w ++ quote :: e ++ quote :: u) -> blank w -> lit e str ->
  exists q, do_token s = Val (quote :: str, q) /\ eof q = false /\ pending q u.
Proof.
  intros s w e str u H Hw Hl. destruct (start_token_ok s w quote _ H Hw) as [o Ho]; [unfold ascii, quote; lia|reflexivity|].
  unfold do_token. rewrite Ho. cbn [rbind ch]. change (quote <? 0) with false. unfold lex. cbn [ch].
  change (any_of quote [91; 93; 123; 125; 58; 44]) with false. change (is_name quote) with false.
  change (any_of quote [43; 45]) with false. change (is_digit quote) with false. rewrite Z.eqb_refl. cbn iota.
  match goal with |- context [take_string ?F ?tk ?qq] => destruct (Hl F tk qq u) as [o' Ho'] end.
  - unfold fuel_of. cbn [rest]. rewrite app_length. lia.
  - reflexivity.
  - reflexivity.
  - rewrite Ho'. eexists. split; [reflexivity|]. split; [reflexivity|]. split; [reflexivity|]. left. split; reflexivity.
Qed.

(* ---- names and numbers ---- *)
Lemma take_ok : forall f a F tok q t, (forall c, f c = true -> ascii c) -> f (-1) = false ->
  a <> [] -> Forall (fun c => ascii c) a -> forallb f (tl a) = true -> match t with c :: _ => f c = false | [] => True end -> head_ascii t ->
  at_text q (a ++ t) -> eof q = false -> (length (rest q) < F)%nat ->
  exists q', take F f tok q = Val (tok ++ a, q') /\ at_text q' t.
Proof.
  intros f a. induction a as [|c a IH]; intros F tok q t Hfa Hm Ha Has Hf Ht Hht Hq He HF; [congruence|].
  destruct F as [|F]; [lia|]. cbn [app at_text] in Hq. destruct Hq as [Hc [Hr [_ Hac]]]. cbn [tl] in Hf. inversion Has as [|? ? _ Has']; subst.
  cbn [take]. destruct (load_at q (a ++ t) He Hr) as [q' [Hq' Hat]].
  { destruct a; [exact Hht|]. inversion Has'; assumption. }
  rewrite Hq'. cbn [rbind]. destruct a as [|c' a].
  - cbn [app] in Hat. assert (Hfq : f (ch q') = false). { destruct t as [|x t]; cbn [at_text] in Hat; destruct Hat as [-> _]; assumption. }
    rewrite Hfq. exists q'. split; [reflexivity|assumption].
  - cbn [forallb] in Hf. apply andb_prop in Hf. destruct Hf as [Hf1 Hf2].
    pose proof Hat as Hat'. cbn [app at_text] in Hat'. destruct Hat' as [-> [Hr' [He' _]]]. rewrite Hf1.
    destruct (IH F (tok ++ [ch q]) q' t Hfa Hm) as [q2 [H1 H2]]; try assumption; [discriminate| |].
    + rewrite Hr'. rewrite Hr in HF. cbn [app length] in HF. lia.
    + exists q2. rewrite H1. rewrite <- app_assoc. split; [reflexivity|assumption].
Qed.
Lemma clear_pending : forall q t, at_text q t -> pending (clear_eof q) t.
Proof.
  intros q t H. split; [reflexivity|]. destruct t as [|c r]; cbn [at_text] in H; cbn [clear_eof ch rest].
  - destruct H as [-> ->]. left. split; [lia|reflexivity].
  - destruct H as [-> [-> [_ Ha]]]. right. split; [assumption|reflexivity].
Qed.
Definition delim (t : bytes) : Prop := match t with [] => True | c :: _ => is_ws c || any_of c [44; 93; 125] = true end.
Lemma delim_cases : forall c t, delim (c :: t) -> c = 32 \/ c = 9 \/ c = 13 \/ c = 10 \/ c = 44 \/ c = 93 \/ c = 125.
Proof. intros c t H. unfold delim, is_ws, any_of in H. cbn [existsb] in H. lia. Qed.
Lemma delim_ascii : forall t, delim t -> head_ascii t.
Proof. intros [|c t] H; [exact I|]. apply delim_cases in H. unfold head_ascii, ascii. lia. Qed.

Lemma token_name : forall s w a u, pending s (w ++ a ++ u) -> blank w -> a <> [] -> forallb is_name a = true -> delim u ->
  exists q, do_token s = Val (a, q) /\ eof q = false /\ pending q u.
Proof.
  intros s w a u H Hw Ha Hn Hd. destruct a as [|c a]; [congruence|].
  assert (Hnc : forall c, is_name c = true -> ascii c /\ is_ws c = false /\ any_of c [91; 93; 123; 125; 58; 44] = false).
  { intros x Hx. unfold is_name, is_ws, any_of, within, ascii in *. cbn [existsb] in *. lia. }
  pose proof Hn as Hn'. cbn [forallb] in Hn'. apply andb_prop in Hn'. destruct Hn' as [Hn1 Hn2].
  destruct (Hnc c Hn1) as [Hac [Hwc Hpc]].
  destruct (start_token_ok s w c (a ++ u) H Hw Hac Hwc) as [o Ho]. unfold do_token. rewrite Ho. cbn [rbind ch].
  replace (c <? 0) with false by (unfold ascii in Hac; lia). unfold lex. cbn [ch]. rewrite Hpc, Hn1.
  assert (Hd0 : forall x, is_name x || is_digit x = true -> ascii x) by (intros x Hx; unfold is_name, is_digit, any_of, within, ascii in *; cbn [existsb] in *; lia).
  destruct (take_ok (fun c => is_name c || is_digit c) (c :: a) (fuel_of (mk_src c false o (a ++ u))) [] (mk_src c false o (a ++ u)) u) as [q [H1 H2]].
  - exact Hd0.
  - reflexivity.
  - discriminate.
  - apply Forall_forall. intros x Hx. rewrite forallb_forall in Hn. apply Hn in Hx. apply Hnc. assumption.
  - cbn [tl]. apply forallb_forall. intros x Hx. rewrite forallb_forall in Hn2. rewrite (Hn2 x Hx). reflexivity.
  - destruct u as [|x u]; [exact I|]. apply delim_cases in Hd. unfold is_name, is_digit, any_of, within. cbn [existsb]. lia.
  - apply delim_ascii. assumption.
  - cbn. auto.
  - reflexivity.
  - unfold fuel_of. lia.
  - rewrite H1. cbn [rbind app]. exists (clear_eof q). split; [reflexivity|]. split; [reflexivity|]. apply clear_pending. assumption.
Qed.

Lemma digits_ok : forall d, digits d -> d <> [] /\ forallb is_digit d = true /\ Forall (fun c => ascii c) d.
Proof.
  intros d [H1 H2]. split; [assumption|]. split.
  - apply forallb_forall. intros c Hc. rewrite Forall_forall in H2. apply H2 in Hc. unfold is_digit, within. lia.
  - eapply Forall_impl; [|exact H2]. intros c Hc. cbv beta in Hc. unfold ascii. lia.
Qed.
Lemma take_digits : forall d tok q t, digits d -> match t with c :: _ => is_digit c = false | [] => True end -> head_ascii t ->
  at_text q (d ++ t) -> exists q', take (fuel_of q) is_digit tok q = Val (tok ++ d, q') /\ at_text q' t.
Proof.
  intros d tok q t Hd Ht Hht Hq. destruct (digits_ok d Hd) as [H1 [H2 H3]]. apply take_ok; try assumption.
  - intros c Hc. unfold is_digit, within, ascii in *. lia.
  - reflexivity.
  - destruct d as [|c d]; [congruence|]. cbn [forallb] in H2. apply andb_prop in H2. apply H2.
  - destruct d as [|c d]; [congruence|]. cbn [app at_text] in Hq. apply Hq.
  - unfold fuel_of. lia.
Qed.
Lemma digits_head : forall d t q, digits d -> at_text q (d ++ t) -> is_digit (ch q) = true /\ eof q = false.
Proof.
  intros d t q Hd Hq. destruct (digits_ok d Hd) as [H1 [H2 _]]. destruct d as [|c d]; [congruence|]. cbn [app at_text] in Hq.
  destruct Hq as [-> [_ [He _]]]. cbn [forallb] in H2. apply andb_prop in H2. split; [apply H2|assumption].
Qed.
Lemma digits_head_ascii : forall d t, digits d -> head_ascii (d ++ t).
Proof. intros d t Hd. destruct (digits_ok d Hd) as [H1 [_ H3]]. destruct d; [congruence|]. inversion H3; assumption. Qed.

Lemma rbind_val : forall (A B : Type) (m : res A) (k : A -> res B) a, m = Val a -> rbind m k = k a.
Proof. intros A B m k a ->. reflexivity. Qed.
Lemma number_tail : forall int frac exp tok q t, digits int ->
  (frac = [] \/ exists d, frac = 46 :: d /\ digits d) ->
  (exp = [] \/ exists e sg d, exp = e :: sg ++ d /\ (e = 101 \/ e = 69) /\ (sg = [] \/ sg = [43] \/ sg = [45]) /\ digits d) ->
  delim t -> at_text q (int ++ frac ++ exp ++ t) ->
  exists q', take_number tok q = Val (tok ++ int ++ frac ++ exp, q') /\ eof q' = false /\ pending q' t.
Proof.
  intros int frac exp tok q t Hi Hf He Ht Hq. unfold take_number. cbv zeta.
  assert (Hde : head_ascii (exp ++ t) /\ match exp ++ t with c :: _ => is_digit c = false /\ (c =? 46) = false | [] => True end).
  { destruct He as [->|[e [sg [d [-> [H1 [H2 H3]]]]]]].
    - cbn [app]. split; [apply delim_ascii; assumption|]. destruct t as [|c t]; [exact I|]. apply delim_cases in Ht. unfold is_digit, within. lia.
    - cbn [app]. split; [unfold head_ascii, ascii; lia|]. unfold is_digit, within. lia. }
  assert (Hdf : head_ascii (frac ++ exp ++ t) /\ match frac ++ exp ++ t with c :: _ => is_digit c = false | [] => True end).
  { destruct Hf as [->|[d [-> Hd]]]; [cbn [app]; split; [apply Hde|destruct (exp ++ t); [exact I|apply Hde]]|]. cbn [app]. split; [unfold head_ascii, ascii; lia|reflexivity]. }
  destruct (take_digits int tok q (frac ++ exp ++ t) Hi (proj2 Hdf) (proj1 Hdf) Hq) as [q1 [E1 A1]]. rewrite E1. cbn [rbind].
  assert (Hfrac : exists q2, @eq (res (bytes * src)) (if ch q1 =? 46 then
      let* s := load_next q1 in (if negb (is_digit (ch s)) then Err else take (fuel_of s) is_digit ((tok ++ int) ++ [ch q1]) s)
      else Val (tok ++ int, q1)) (Val (tok ++ int ++ frac, q2)) /\ at_text q2 (exp ++ t)).
  { destruct Hf as [->|[d [-> Hd]]].
    - cbn [app] in A1. rewrite app_nil_r. exists q1. split; [|assumption].
      destruct (exp ++ t) as [|c r] eqn:Ee; cbn [at_text] in A1; destruct A1 as [Hc _]; rewrite Hc; [reflexivity|]. destruct Hde as [_ [_ ->]]. reflexivity.
    - cbn [app at_text] in A1. destruct A1 as [Hc [Hr [Hef _]]]. rewrite Hc, Z.eqb_refl.
      destruct (load_at q1 (d ++ exp ++ t) Hef Hr) as [s [Hs As]]; [apply digits_head_ascii; assumption|]. rewrite Hs. cbn [rbind].
      destruct (digits_head d _ s Hd As) as [Hdg _]. rewrite Hdg. cbn [negb].
      destruct (take_digits d ((tok ++ int) ++ [46]) s (exp ++ t) Hd) as [q2 [E2 A2]]; [destruct (exp ++ t); [exact I|apply Hde]|apply Hde|assumption|].
      exists q2. rewrite E2. split; [|assumption]. rewrite <- !app_assoc. reflexivity. }
  destruct Hfrac as [q2 [E2 A2]].
  assert (Hexp : exists q3, @eq (res (bytes * src)) (if any_of (ch q2) [101; 69] then
      let* s := load_next q2 in
      let* (tok, s) := (if any_of (ch s) [43; 45] then let* s0 := load_next s in Val (((tok ++ int ++ frac) ++ [ch q2]) ++ [ch s], s0)
                        else Val ((tok ++ int ++ frac) ++ [ch q2], s)) in
      (if negb (is_digit (ch s)) then Err else take (fuel_of s) is_digit tok s)
      else Val (tok ++ int ++ frac, q2)) (Val (tok ++ int ++ frac ++ exp, q3)) /\ at_text q3 t).
  { destruct He as [->|[e [sg [d [-> [H1 [H2 H3]]]]]]].
    - cbn [app] in A2. rewrite app_nil_r. exists q2. split; [|assumption].
      destruct t as [|c r] eqn:Ee; cbn [at_text] in A2; destruct A2 as [Hc _]; rewrite Hc; [reflexivity|]. apply delim_cases in Ht.
      replace (any_of c [101; 69]) with false by (unfold any_of; cbn [existsb]; lia). reflexivity.
    - cbn [app at_text] in A2. destruct A2 as [Hc [Hr [Hef _]]]. rewrite Hc.
      replace (any_of e [101; 69]) with true by (unfold any_of; cbn [existsb]; lia). rewrite <- app_assoc in Hr.
      destruct (load_at q2 (sg ++ d ++ t) Hef Hr) as [s [Hs As]].
      { destruct H2 as [-> |[-> | ->]]; [apply (digits_head_ascii d t H3)| |]; unfold head_ascii, ascii; cbn [app]; lia. }
      rewrite Hs. cbn [rbind].
      assert (Hsg : exists s', @eq (res (bytes * src)) (if any_of (ch s) [43; 45] then let* s0 := load_next s in Val (((tok ++ int ++ frac) ++ [e]) ++ [ch s], s0)
        else Val ((tok ++ int ++ frac) ++ [e], s)) (Val (((tok ++ int ++ frac) ++ [e]) ++ sg, s')) /\ at_text s' (d ++ t)).
      { assert (Hgo : forall x, (x = 43 \/ x = 45) -> at_text s (x :: d ++ t) -> exists s', @eq (res (bytes * src)) (if any_of (ch s) [43; 45] then let* s0 := load_next s in Val (((tok ++ int ++ frac) ++ [e]) ++ [ch s], s0)
          else Val ((tok ++ int ++ frac) ++ [e], s)) (Val (((tok ++ int ++ frac) ++ [e]) ++ [x], s')) /\ at_text s' (d ++ t)).
        { intros x Hx Ax. cbn [at_text] in Ax. destruct Ax as [Hcx [Hrx [Hex _]]]. rewrite Hcx.
          replace (any_of x [43; 45]) with true by (unfold any_of; cbn [existsb]; lia).
          destruct (load_at s (d ++ t) Hex Hrx) as [s' [Hs' As']]; [apply digits_head_ascii; assumption|]. rewrite Hs'. cbn [rbind]. exists s'. auto. }
        destruct H2 as [-> |[-> | ->]].
        - cbn [app] in As. destruct (digits_head d t s H3 As) as [Hdg _]. exists s. rewrite app_nil_r. split; [|assumption].
          replace (any_of (ch s) [43; 45]) with false by (unfold any_of, is_digit, within in *; cbn [existsb]; lia). reflexivity.
        - apply Hgo; [lia|exact As].
        - apply Hgo; [lia|exact As]. }
      destruct Hsg as [s' [Es' As']]. destruct (digits_head d t s' H3 As') as [Hdg _]. 
      destruct (take_digits d (((tok ++ int ++ frac) ++ [e]) ++ sg) s' t H3) as [q3 [E3 A3]].
      + destruct t as [|c r]; [exact I|]. apply delim_cases in Ht. unfold is_digit, within. lia.
      + apply delim_ascii. assumption.
      + assumption.
      + exists q3. split; [|assumption]. etransitivity; [apply (rbind_val _ _ _ _ _ Es')|]. cbv beta iota. rewrite Hdg. cbn [negb].
        rewrite E3. rewrite <- !app_assoc. reflexivity. }
  destruct Hexp as [q3 [E3 A3]]. exists (clear_eof q3). split.
  { etransitivity; [apply (rbind_val _ _ _ _ _ E2)|]. cbv beta iota. etransitivity; [apply (rbind_val _ _ _ _ _ E3)|]. reflexivity. } split; [reflexivity|]. apply clear_pending. assumption.
Qed.

Lemma token_number : forall s w a u, pending s (w ++ a ++ u) -> blank w -> json_number a -> delim u ->
  exists q, do_token s = Val (a, q) /\ eof q = false /\ pending q u.
Proof.
  intros s w a u H Hw [sign [int [frac [exp [-> [Hs [Hi [Hf He]]]]]]]] Hd.
  rewrite <- !app_assoc in H. destruct (digits_ok int Hi) as [Hi1 [Hi2 Hi3]]. destruct int as [|c int]; [congruence|].
  cbn [forallb] in Hi2. apply andb_prop in Hi2. destruct Hi2 as [Hc _]. inversion Hi3 as [|? ? Hac _]; subst.
  assert (Hnc : is_ws c = false /\ any_of c [91; 93; 123; 125; 58; 44] = false /\ is_name c = false /\ any_of c [43; 45] = false).
  { unfold is_digit, is_name, is_ws, any_of, within in *. cbn [existsb]. lia. }
  destruct Hs as [->| ->].
  - cbn [app] in *. destruct (start_token_ok s w c _ H Hw Hac (proj1 Hnc)) as [o Ho]. unfold do_token. rewrite Ho. cbn [rbind ch].
    replace (c <? 0) with false by (unfold ascii in Hac; lia). unfold lex. cbn [ch]. destruct Hnc as [_ [-> [-> ->]]]. rewrite Hc.
    destruct (number_tail (c :: int) frac exp [] (mk_src c false o (int ++ frac ++ exp ++ u)) u Hi Hf He Hd) as [q' [E [E2 P]]]; [cbn; auto|].
    exists q'. rewrite E. auto.
  - cbn [app] in *. destruct (start_token_ok s w 45 _ H Hw) as [o Ho]; [unfold ascii; lia|reflexivity|]. unfold do_token. rewrite Ho. cbn [rbind ch].
    change (45 <? 0) with false. unfold lex. cbn [ch]. change (any_of 45 [91; 93; 123; 125; 58; 44]) with false. change (is_name 45) with false.
    change (any_of 45 [43; 45]) with true. cbn iota.
    destruct (load_at (mk_src 45 false o (c :: int ++ frac ++ exp ++ u)) (c :: int ++ frac ++ exp ++ u) eq_refl eq_refl Hac) as [q [Hq Aq]].
    rewrite Hq. cbn [rbind]. pose proof Aq as Aq'. cbn [at_text] in Aq'. destruct Aq' as [Ecq _]. rewrite Ecq, Hc. cbn [negb].
    destruct (number_tail (c :: int) frac exp [45] q u Hi Hf He Hd) as [q' [E [E2 P]]]; [exact Aq|]. exists q'. rewrite E. auto.
Qed.
