(* The parser comes to an end, and where it is undefined. *)
From Verif Require Import Base UtfModel UtfSpec JsonModel JsonSpec JsonProofs1.
From Coq Require Import Lia.

Definition below (m : Z) (r : bytes) : Prop := Forall (fun b => 0 <= b < m) r.
Definition step (a b : bytes) : Prop := exists p, a = p ++ b.
Definition ok_res {A} (a : bytes) (r : res A) (Q : A -> Prop) : Prop :=
  match r with Val x => Q x | Err => True | Undef => ~ below 252 a | No_fuel => False end.
Definition weight (s : src) : nat := (length (rest s) + if (0 <=? ch s)%Z then 1 else 0)%nat.

Lemma step_refl : forall a, step a a.
Proof. intros a. exists []. reflexivity. Qed.
Lemma step_trans : forall a b c, step a b -> step b c -> step a c.
Proof. intros a b c [p ->] [q ->]. exists (p ++ q). rewrite app_assoc. reflexivity. Qed.
Lemma step_cons : forall x a, step (x :: a) a.
Proof. intros x a. exists [x]. reflexivity. Qed.
Lemma step_skipn : forall n a, step a (skipn n a).
Proof. intros n a. exists (firstn n a). rewrite firstn_skipn. reflexivity. Qed.
Lemma step_length : forall a b, step a b -> (length b <= length a)%nat.
Proof. intros a b [p ->]. rewrite app_length. lia. Qed.
Lemma step_below : forall m a b, step a b -> below m a -> below m b.
Proof. intros m a b [p ->] H. apply Forall_app in H. apply H. Qed.
Lemma ok_bind : forall A B a (m : res A) (f : A -> res B) P Q,
  ok_res a m P -> (forall x, P x -> ok_res a (f x) Q) -> ok_res a (rbind m f) Q.
Proof. intros A B a [x| | |] f P Q Hm Hf; cbn in *; auto. Qed.
Lemma ok_step : forall A a b (r : res A) Q, step a b -> ok_res b r Q -> ok_res a r Q.
Proof. intros A a b [x| | |] Q Hs H; cbn in *; auto. intros Hb. apply H. apply (step_below _ a b Hs Hb). Qed.
Lemma ok_impl : forall A a (r : res A) (P Q : A -> Prop), (forall x, P x -> Q x) -> ok_res a r P -> ok_res a r Q.
Proof. intros A a [x| | |] P Q H Hr; cbn in *; auto. Qed.

Lemma trail_ok : forall a l c, 0 <= c -> ok_res a (load_trail c l) (fun c' => 0 <= c').
Proof.
  intros a l. induction l as [|b l IH]; intros c Hc; cbn [load_trail]; [exact Hc|].
  destruct (within b 128 191); [|exact I]. apply IH. apply Z.lor_nonneg. split; [apply Z.shiftl_nonneg; assumption|]. apply Z.land_nonneg. right. lia.
Qed.
(* the lengths that lead bytes announce *)
Lemma lead_sweep : forallb (fun b => let u := lzcnt32 (Z.lxor (Z.shiftl b 24) (2 ^ 32 - 1)) in (2 <=? u) && (if b <? 252 then u <=? 5 else true) && (u <=? 8))
  (map (fun k => 192 + Z.of_nat k) (seq 0 64)) = true.
Proof. vm_compute. reflexivity. Qed.
Lemma lead : forall b, 192 <= b < 256 -> let u := lzcnt32 (Z.lxor (Z.shiftl b 24) (2 ^ 32 - 1)) in
  2 <= u <= 8 /\ (b < 252 -> u <= 5).
Proof.
  intros b Hb u. pose proof (proj1 (forallb_forall _ _) lead_sweep b) as H. cbv beta zeta in H. fold u in H.
  assert (Hi : In b (map (fun k => 192 + Z.of_nat k) (seq 0 64))).
  { apply in_map_iff. exists (Z.to_nat (b - 192)). split; [lia|]. apply in_seq. lia. }
  specialize (H Hi). destruct (b <? 252) eqn:E; lia.
Qed.
Definition loaded (s : src) (s' : src) : Prop :=
  step (rest s) (rest s') /\ ((ch s' = -1 /\ eof s' = true /\ rest s' = [] /\ rest s = [])
    \/ (0 <= ch s' /\ eof s' = eof s /\ (length (rest s') < length (rest s))%nat)).
Lemma load_ok : forall s, below 256 (rest s) -> ok_res (rest s) (load_next s) (loaded s).
Proof.
  intros s Hb. unfold load_next. destruct (rest s) as [|b r] eqn:E.
  - cbn. split; [rewrite E; apply step_refl|]. left. auto.
  - inversion Hb as [|? ? Hb1 Hb2]; subst. destruct (within b 128 191) eqn:Hw; [exact I|]. destruct (b >? 127) eqn:Hg.
    + assert (Hlead : 192 <= b < 256) by (unfold within in Hw; lia). pose proof (lead b Hlead) as Hl. cbv zeta in Hl.
      set (u := lzcnt32 (Z.lxor (Z.shiftl b 24) (2 ^ 32 - 1))) in *. cbv zeta.
      assert (Hundef : u > 5 -> ~ below 252 (b :: r)). { intros Hu Hx. inversion Hx; subst. lia. }
      destruct (7 <? u) eqn:H7; [cbn; apply Hundef; lia|].
      destruct (4 <? length (firstn (Z.to_nat (u - 1)) r))%nat eqn:H4.
      { cbn. apply Hundef. apply Nat.ltb_lt in H4. rewrite firstn_length in H4. lia. }
      destruct (negb (length (firstn (Z.to_nat (u - 1)) r) =? Z.to_nat (u - 1))%nat); [exact I|].
      eapply ok_bind; [apply trail_ok; apply Z.land_nonneg; left; lia|]. intros c Hc.
      destruct ((c <? 128) || (c <? Z.shiftl 1 (u * 5 - 4)) || within c 55296 57343 || (c >? 1114111)); [exact I|].
      cbn. unfold loaded. rewrite E. cbn [rest ch eof]. split; [apply (step_trans _ r); [apply step_cons|apply step_skipn]|]. right. split; [assumption|]. split; [reflexivity|].
      rewrite skipn_length. cbn [length]. lia.
    + cbn. unfold loaded. rewrite E. cbn [rest ch eof length]. split; [apply step_cons|]. right. split; [lia|]. split; [reflexivity|]. lia.
Qed.
Lemma loaded_weight : forall s s', loaded s s' -> (weight s' <= length (rest s))%nat.
Proof. intros s s' [_ [[H1 [_ [H2 _]]]|[H1 [_ H2]]]]; unfold weight; [rewrite H1, H2; cbn; lia|]. destruct (0 <=? ch s'); lia. Qed.

Lemma span_step : forall f a, step a (snd (span f a)).
Proof.
  intros f a. induction a as [|c a IH]; cbn [span]; [apply step_refl|]. destruct (f c); [|apply step_refl].
  destruct (span f a) as [x y]. cbn [snd] in *. apply (step_trans _ a); [apply step_cons|exact IH].
Qed.
Lemma skip_ok : forall fuel s, below 256 (rest s) -> (length (rest s) < fuel)%nat -> 0 <= ch s ->
  ok_res (rest s) (skip_space fuel s) (fun s' => step (rest s) (rest s') /\ (ch s' < 0 -> eof s' = true)).
Proof.
  intros fuel. induction fuel as [|fuel IH]; intros s Hb Hf Hc; [lia|]. cbn [skip_space]. destruct (is_ws (ch s)).
  2:{ cbn. split; [apply step_refl|lia]. }
  pose proof (span_step is_ws (rest s)) as Hsp. set (r := snd (span is_ws (rest s))) in *.
  eapply ok_bind.
  - eapply ok_step; [exact Hsp|]. match goal with |- ok_res _ (load_next ?q) _ => apply (load_ok q) end. cbn [rest]. eapply step_below; eassumption.
  - intros s' [H1 H2]. cbn [rest ch eof] in H1, H2. destruct (ch s' <? 0) eqn:E.
    + cbn. split; [eapply step_trans; eassumption|]. intros _. destruct H2 as [[_ [H2 _]]|[H2 _]]; [assumption|lia].
    + destruct H2 as [[H2 _]|[H2 [_ H3]]]; [lia|]. assert (Hs : step (rest s) (rest s')) by (eapply step_trans; eassumption).
      eapply ok_step; [exact Hs|]. eapply ok_impl; [|apply IH].
      * intros x [Hx1 Hx2]. split; [eapply step_trans; eassumption|assumption].
      * eapply step_below; eassumption.
      * apply step_length in Hsp. lia.
      * assumption.
Qed.
Lemma start_ok : forall s, below 256 (rest s) -> ok_res (rest s) (start_token s) (fun s' => step (rest s) (rest s')
  /\ (ch s' < 0 -> eof s' = true) /\ (0 <= ch s' -> (length (rest s') < weight s)%nat)).
Proof.
  intros s Hb. unfold start_token.
  apply (ok_bind _ _ _ _ _ (fun s1 => step (rest s) (rest s1) /\ (ch s1 < 0 -> eof s1 = true) /\ (0 <= ch s1 -> (length (rest s1) < weight s)%nat))).
  - destruct (ch s <? 0) eqn:E.
    + cbv zeta. assert (Hw : weight s = length (rest s)) by (unfold weight; replace (0 <=? ch s) with false by lia; lia).
      eapply ok_bind; [apply load_ok; assumption|]. intros s1 [H1 H2]. destruct ((0 <=? ch s1) && (off s =? 0) && (ch s1 =? 65279)) eqn:E1.
      * destruct H2 as [[H2 _]|[H2 [_ H3]]]; [rewrite H2 in E1; discriminate|]. eapply ok_step; [exact H1|].
        eapply ok_impl; [|apply load_ok; eapply step_below; eassumption]. intros s2 [G1 G2]. split; [eapply step_trans; eassumption|].
        destruct G2 as [[G2 [G3 [G4 _]]]|[G2 [_ G3]]]; split; intros; try assumption; lia.
      * cbn. split; [assumption|]. destruct H2 as [[H2 [H3 [H4 _]]]|[H2 [_ H3]]]; split; intros; try assumption; lia.
    + cbn. split; [apply step_refl|]. split; [lia|]. intros _. unfold weight. replace (0 <=? ch s) with true by lia. lia.
  - intros s1 [H1 [H2 H3]]. destruct (ch s1 <? 0) eqn:E; [cbn; auto|]. eapply ok_step; [exact H1|].
    eapply ok_impl; [|apply skip_ok; [eapply step_below; eassumption|unfold fuel_of; lia|lia]]. intros s2 [G1 G2].
    split; [eapply step_trans; eassumption|]. split; [assumption|]. intros _. apply step_length in G1. assert (0 <= ch s1) by lia. specialize (H3 H). lia.
Qed.

(* what a part of a token has done *)
Definition taken (s : src) (r : bytes * src) : Prop := fst r <> [] /\ step (rest s) (rest (snd r)) /\ (weight (snd r) <= length (rest s))%nat.
Lemma app_one_nil : forall (a : bytes) x, a ++ [x] <> [].
Proof. intros [|y a] x H; discriminate. Qed.
Lemma take_done : forall f fuel tok s, f (-1) = false -> below 256 (rest s) -> (length (rest s) < fuel)%nat -> ok_res (rest s) (take fuel f tok s) (taken s).
Proof.
  intros f fuel. induction fuel as [|fuel IH]; intros tok s Hm Hb Hf; [lia|]. cbn [take].
  eapply ok_bind; [apply load_ok; assumption|]. intros s1 Hl. pose proof (loaded_weight s s1 Hl) as Hw. destruct Hl as [H1 H2]. destruct (f (ch s1)) eqn:E.
  - destruct H2 as [[H2 _]|[H2 [_ H3]]]; [rewrite H2 in E; congruence|]. eapply ok_step; [exact H1|].
    eapply ok_impl; [|apply IH; [assumption|eapply step_below; eassumption|lia]]. intros [t s2] [G1 [G2 G3]]. cbn [fst snd] in *.
    split; [assumption|]. split; [eapply step_trans; eassumption|]. cbn [snd]. lia.
  - cbn. split; [apply app_one_nil|]. split; assumption.
Qed.
Lemma taken_weight : forall s r, taken s r -> (length (rest (snd r)) <= length (rest s))%nat.
Proof. intros s r [_ [H _]]. apply step_length in H. exact H. Qed.
Lemma number_done : forall tok s, below 256 (rest s) -> ok_res (rest s) (take_number tok s) (taken s).
Proof.
  intros tok s Hb. unfold take_number. cbv zeta.
  assert (Hmore : forall t s1, taken s (t, s1) -> forall x s2, loaded s1 s2 ->
    ok_res (rest s) (if negb (is_digit (ch s2)) then Err else take (fuel_of s2) is_digit (t ++ x) s2) (taken s)).
  { intros t s1 [T1 [T2 T3]] x s2 [H1 H2]. cbn [fst snd] in *. destruct (is_digit (ch s2)) eqn:E; [|exact I]. cbn [negb].
    assert (Hs : step (rest s) (rest s2)) by (eapply step_trans; eassumption). eapply ok_step; [exact Hs|].
    eapply ok_impl; [|apply take_done; [reflexivity|eapply step_below; eassumption|unfold fuel_of; lia]].
    intros [t' s'] [G1 [G2 G3]]. cbn [fst snd] in *. split; [assumption|]. split; [eapply step_trans; eassumption|]. cbn [snd]. apply step_length in Hs. lia. }
  apply (ok_bind _ _ _ _ _ (taken s)); [apply take_done; [reflexivity|assumption|unfold fuel_of; lia]|]. intros [t s1] T1.
  apply (ok_bind _ _ _ _ _ (taken s)).
  { destruct (ch s1 =? 46); [|exact T1]. eapply ok_bind.
    - eapply ok_step; [apply T1|]. apply load_ok. eapply step_below; [apply T1|assumption].
    - intros s2 Hl. apply (Hmore t s1 T1). assumption. }
  intros [t2 s2] T2. apply (ok_bind _ _ _ _ _ (taken s)).
  { destruct (any_of (ch s2) [101; 69]); [|exact T2]. eapply ok_bind.
    - eapply ok_step; [apply T2|]. apply load_ok. eapply step_below; [apply T2|assumption].
    - intros s3 Hl. destruct (any_of (ch s3) [43; 45]).
      + destruct Hl as [L1 L2]. cbn [snd] in *. assert (Hs3 : step (rest s) (rest s3)) by (eapply step_trans; [apply T2|exact L1]).
        eapply ok_bind.
        * eapply ok_bind; [eapply ok_step; [exact Hs3|]; apply load_ok; eapply step_below; eassumption|]. intros s4 Hl4.
          instantiate (1 := fun r => loaded s3 (snd r)). exact Hl4.
        * intros [t4 s4] Hl4. cbn [snd] in Hl4. 
          destruct Hl4 as [M1 M2]. destruct (is_digit (ch s4)) eqn:E; [|exact I]. cbn [negb].
          assert (Hs : step (rest s) (rest s4)) by (eapply step_trans; eassumption). eapply ok_step; [exact Hs|].
          eapply ok_impl; [|apply take_done; [reflexivity|eapply step_below; eassumption|unfold fuel_of; lia]].
          intros [t' s'] [G1 [G2 G3]]. cbn [fst snd] in *. split; [assumption|]. split; [eapply step_trans; eassumption|]. cbn [snd]. apply step_length in Hs. lia.
      + cbn [rbind]. apply (Hmore t2 s2 T2). assumption. }
  intros [t3 s3] [G1 [G2 G3]]. cbn [ok_res fst snd] in *. split; [assumption|]. split; assumption.
Qed.
Lemma hex_done : forall a l c, ok_res a (hex_value c l) (fun _ => True).
Proof.
  intros a l. induction l as [|b l IH]; intros c; cbn [hex_value]; [exact I|].
  destruct (within b 48 57); [apply IH|]. destruct (within b 65 70); [apply IH|]. destruct (within b 97 102); [apply IH|exact I].
Qed.
Lemma exactly_done : forall n a l, step a l -> ok_res a (get_exactly n l) (fun r => step a (snd r)).
Proof. intros n a l H. unfold get_exactly. destruct (length (firstn n l) =? n)%nat; [|exact I]. cbn. eapply step_trans; [exact H|apply step_skipn]. Qed.
Lemma unescape_done : forall l, ok_res l (unescape l) (fun r => step l (snd r)).
Proof.
  intros [|next l]; [exact I|]. cbn [unescape].
  repeat match goal with |- ok_res _ (if ?b then Val _ else _) _ => destruct b; [apply step_cons|] end.
  destruct (next =? 117); [|exact I]. eapply ok_bind; [apply exactly_done; apply step_cons|]. intros [temp l1] H1. cbn [snd] in H1.
  eapply ok_bind; [apply hex_done|]. intros c _. destruct (within c 56320 57343); [exact I|]. destruct (within c 55296 56319); [|exact H1].
  eapply ok_bind; [apply exactly_done; exact H1|]. intros [temp2 l2] H2. cbn [snd] in H2.
  destruct (negb (nth 0 temp2 0 =? 92) || negb (nth 1 temp2 0 =? 117)); [exact I|]. eapply ok_bind; [apply hex_done|]. intros t _.
  destruct (negb (within t 56320 57343)); [exact I|exact H2].
Qed.
Lemma string_done : forall fuel tok s, tok <> [] -> below 256 (rest s) -> (length (rest s) < fuel)%nat -> ok_res (rest s) (take_string fuel tok s) (taken s).
Proof.
  intros fuel. induction fuel as [|fuel IH]; intros tok s Ht Hb Hf; [lia|]. cbn [take_string].
  pose proof (span_step plain_in (rest s)) as Hsp. destruct (span plain_in (rest s)) as [run r]. cbn [snd] in Hsp. cbv zeta.
  assert (Ht' : tok ++ run <> []) by (destruct tok; [congruence|discriminate]).
  eapply ok_bind.
  - eapply ok_step; [exact Hsp|]. match goal with |- ok_res _ (load_next ?q) _ => apply (load_ok q) end. cbn [rest]. eapply step_below; eassumption.
  - intros s1 [H1 H2]. cbn [rest ch eof] in H1, H2. assert (Hs : step (rest s) (rest s1)) by (eapply step_trans; eassumption).
    destruct (eof s1) eqn:Ee; [exact I|]. destruct H2 as [[_ [H2 _]]|[H2 [_ H3]]]; [congruence|].
    destruct ((ch s1 <=? 31) || (ch s1 =? 127)); [exact I|]. destruct (ch s1 =? quote).
    + cbn. split; [assumption|]. cbn [snd rest]. split; [assumption|]. unfold weight. cbn. apply step_length in Hs. lia.
    + assert (Hq : (length (rest s1) < length (rest s))%nat) by (apply step_length in Hsp; lia).
      apply (ok_bind _ _ _ _ _ (fun x => step (rest s1) (snd x))).
      * eapply ok_step; [exact Hs|]. destruct (ch s1 =? backslash); [apply unescape_done|apply step_refl].
      * intros [c r2] Hr2. cbn [snd] in Hr2. assert (Hs2 : step (rest s) r2) by (eapply step_trans; eassumption). eapply ok_step; [exact Hs2|].
        match goal with |- ok_res _ (take_string fuel ?tk ?q) _ => pose proof (IH tk q) as G end. cbn [rest] in G.
        apply step_length in Hr2.
        eapply ok_impl; [|apply G; [destruct (tok ++ run); [congruence|discriminate]|eapply step_below; eassumption|lia]].
        intros [t s3] [G1 [G2 G3]]. cbn [rest fst snd] in *. split; [assumption|]. split; [eapply step_trans; eassumption|]. cbn [snd]. lia.
Qed.
Lemma lex_done : forall s, below 256 (rest s) -> ok_res (rest s) (lex s) (taken s).
Proof.
  intros s Hb. unfold lex. destruct (any_of (ch s) [91; 93; 123; 125; 58; 44]).
  { cbn. split; [discriminate|]. split; [apply step_refl|]. unfold weight. cbn. lia. }
  destruct (is_name (ch s)).
  { eapply ok_bind; [apply take_done; [reflexivity|assumption|unfold fuel_of; lia]|]. intros [t s1] [H1 [H2 H3]]. cbn [ok_res fst snd] in *. split; [assumption|]. split; assumption. }
  destruct (any_of (ch s) [43; 45]).
  { cbv zeta. eapply ok_bind; [apply load_ok; assumption|]. intros s1 Hl. destruct Hl as [H1 H2]. destruct (is_digit (ch s1)); [|exact I]. cbn [negb].
    eapply ok_step; [exact H1|]. eapply ok_impl; [|apply number_done; eapply step_below; eassumption]. intros [t s2] [G1 [G2 G3]]. cbn [fst snd] in *.
    split; [assumption|]. split; [eapply step_trans; eassumption|]. cbn [snd]. apply step_length in H1. lia. }
  destruct (is_digit (ch s)); [apply number_done; assumption|]. destruct (ch s =? quote); [|exact I].
  apply string_done; [discriminate|assumption|unfold fuel_of; lia].
Qed.
Definition token_post (s : src) (r : bytes * src) : Prop :=
  step (rest s) (rest (snd r)) /\ ((fst r = [] /\ eof (snd r) = true) \/ (fst r <> [] /\ (weight (snd r) < weight s)%nat)).
Lemma token_done : forall s, below 256 (rest s) -> ok_res (rest s) (do_token s) (token_post s).
Proof.
  intros s Hb. unfold do_token. eapply ok_bind; [apply start_ok; assumption|]. intros s1 [H1 [H2 H3]]. destruct (ch s1 <? 0) eqn:E.
  - cbn. split; [assumption|]. left. split; [reflexivity|]. apply H2. lia.
  - eapply ok_step; [exact H1|]. eapply ok_impl; [|apply lex_done; eapply step_below; eassumption]. intros [t s2] [G1 [G2 G3]]. cbn [fst snd] in *.
    split; [eapply step_trans; eassumption|]. right. split; [assumption|]. cbn [snd]. assert (0 <= ch s1) by lia. specialize (H3 H). lia.
Qed.

Lemma token_next : forall s (Q : bytes * src -> Prop), below 256 (rest s) ->
  (forall t s1, step (rest s) (rest s1) -> below 256 (rest s1) -> (tok0 t <> 0 -> (weight s1 < weight s)%nat) -> (eof s1 = false -> (weight s1 < weight s)%nat) -> Q (t, s1)) ->
  ok_res (rest s) (do_token s) Q.
Proof.
  intros s Q Hb H. eapply ok_impl; [|apply token_done; assumption]. intros [t s1] [H1 H2]. cbn [fst snd] in *. apply H.
  - assumption.
  - eapply step_below; eassumption.
  - intros Ht. destruct H2 as [[-> _]|[_ H2]]; [elim Ht; reflexivity|assumption].
  - intros He. destruct H2 as [[_ H2]|[_ H2]]; [congruence|assumption].
Qed.
Lemma member_done : forall l tok s, below 256 (rest s) -> ok_res (rest s) (open_member l tok s)
  (fun r => step (rest s) (rest (snd r)) /\ below 256 (rest (snd r)) /\ (weight (snd r) < weight s)%nat).
Proof.
  intros l tok s Hb. unfold open_member. destruct (negb (tok0 tok =? quote)); [exact I|]. cbv zeta. destruct (has_key (tl tok) l); [exact I|].
  eapply ok_bind.
  { apply (token_next s (fun r => step (rest s) (rest (snd r)) /\ below 256 (rest (snd r)) /\ (tok0 (fst r) <> 0 -> (weight (snd r) < weight s)%nat)) Hb).
    intros t s1 H1 H2 H3 H4. cbn [fst snd]. auto. }
  intros [t s1] [H1 [H2 H3]]. cbn [fst snd] in *. destruct (tok0 t =? 58) eqn:E; [|exact I]. cbn [negb].
  eapply ok_step; [exact H1|]. eapply ok_bind.
  { apply (token_next s1 (fun r => step (rest s1) (rest (snd r)) /\ below 256 (rest (snd r)) /\ (eof (snd r) = false -> (weight (snd r) < weight s1)%nat)) H2).
    intros t2 s2 G1 G2 G3 G4. cbn [fst snd]. auto. }
  intros [t2 s2] [G1 [G2 G3]]. cbn [fst snd] in *. destruct (eof s2); [exact I|]. cbn. split; [eapply step_trans; eassumption|]. split; [assumption|].
  specialize (G3 eq_refl). assert (tok0 t <> 0) by lia. specialize (H3 H). lia.
Qed.

Section Machine.
Variable N : numerics.
Definition bound (s : src) (m : mode) : nat := (2 * weight s + match m with Pack _ => 1 | Done _ => 0 end)%nat.
Lemma machine_done : forall F s stk m, below 256 (rest s) -> (bound s m < F)%nat -> ok_res (rest s) (machine F N s stk m) (fun _ => True).
Proof.
  intros F. induction F as [|F IH]; intros s stk m Hb HF; [lia|].
  assert (Hnext : forall s1 stk1 m1, step (rest s) (rest s1) -> below 256 (rest s1) -> (bound s1 m1 < bound s m)%nat ->
    ok_res (rest s) (machine F N s1 stk1 m1) (fun _ => True)).
  { intros s1 stk1 m1 H1 H2 H3. eapply ok_step; [exact H1|]. apply IH; [assumption|lia]. }
  assert (Hlt : forall s1 m1, (weight s1 < weight s)%nat -> (bound s1 m1 < bound s m)%nat).
  { intros s1 m1 H. unfold bound. destruct m1, m; lia. }
  destruct m as [tok|v]; cbn [machine].
  - destruct (32 <? length stk)%nat; [exact I|].
    assert (Hdone : forall v, ok_res (rest s) (machine F N s stk (Done v)) (fun _ => True)).
    { intros v. apply Hnext; [apply step_refl|assumption|]. unfold bound. lia. }
    destruct (tok0 tok =? 91).
    { apply (ok_bind _ _ _ _ _ (fun r => step (rest s) (rest (snd r)) /\ below 256 (rest (snd r)) /\ (eof (snd r) = false -> (weight (snd r) < weight s)%nat))).
      { apply token_next; [assumption|]. intros t s1 H1 H2 H3 H4. cbn [snd]. auto. }
      intros [t s1] [H1 [H2 H3]]. cbn [snd] in *. destruct (eof s1); [exact I|]. specialize (H3 eq_refl).
      destruct (negb (tok0 t =? 93)); apply Hnext; auto. }
    destruct (tok0 tok =? 123).
    { apply (ok_bind _ _ _ _ _ (fun r => step (rest s) (rest (snd r)) /\ below 256 (rest (snd r)) /\ (eof (snd r) = false -> (weight (snd r) < weight s)%nat))).
      { apply token_next; [assumption|]. intros t s1 H1 H2 H3 H4. cbn [snd]. auto. }
      intros [t s1] [H1 [H2 H3]]. cbn [snd] in *. destruct (eof s1); [exact I|]. specialize (H3 eq_refl).
      destruct (negb (tok0 t =? 125)); [|apply Hnext; auto]. eapply ok_bind; [eapply ok_step; [exact H1|apply member_done; assumption]|].
      intros [[k t2] s2] [G1 [G2 G3]]. cbn [snd] in *. apply Hnext; [eapply step_trans; eassumption|assumption|]. apply Hlt. lia. }
    destruct (any_of (tok0 tok) [43; 45] || is_digit (tok0 tok)); [destruct (read N tok); [apply Hdone|exact I]|].
    destruct (tok0 tok =? quote); [apply Hdone|].
    destruct (beqb tok [110; 117; 108; 108]); [apply Hdone|].
    destruct (beqb tok [116; 114; 117; 101]); [apply Hdone|].
    destruct (beqb tok [102; 97; 108; 115; 101]); [apply Hdone|exact I].
  - destruct stk as [|[l|l k] stk].
    + eapply ok_bind; [apply token_done; assumption|]. intros [[|x t] s1] _; exact I.
    + cbv zeta. apply (ok_bind _ _ _ _ _ (fun r => step (rest s) (rest (snd r)) /\ below 256 (rest (snd r)) /\ (eof (snd r) = false -> (weight (snd r) < weight s)%nat))).
      { apply token_next; [assumption|]. intros t s1 H1 H2 H3 H4. cbn [snd]. auto. }
      intros [t s1] [H1 [H2 H3]]. cbn [snd] in *. destruct (eof s1); [exact I|]. specialize (H3 eq_refl).
      destruct (negb (tok0 t =? 93)); [|apply Hnext; auto]. destruct (negb (tok0 t =? 44)); [exact I|].
      apply (ok_bind _ _ _ _ _ (fun r => step (rest s1) (rest (snd r)) /\ below 256 (rest (snd r)) /\ (eof (snd r) = false -> (weight (snd r) < weight s1)%nat))).
      { eapply ok_step; [exact H1|]. apply token_next; [assumption|]. intros t2 s2 G1 G2 G3 G4. cbn [snd]. auto. }
      intros [t2 s2] [G1 [G2 G3]]. cbn [snd] in *. destruct (eof s2); [exact I|]. specialize (G3 eq_refl).
      destruct (negb (tok0 t2 =? 93)); (apply Hnext; [eapply step_trans; eassumption|assumption|apply Hlt; lia]).
    + cbv zeta. apply (ok_bind _ _ _ _ _ (fun r => step (rest s) (rest (snd r)) /\ below 256 (rest (snd r)) /\ (eof (snd r) = false -> (weight (snd r) < weight s)%nat))).
      { apply token_next; [assumption|]. intros t s1 H1 H2 H3 H4. cbn [snd]. auto. }
      intros [t s1] [H1 [H2 H3]]. cbn [snd] in *. destruct (eof s1); [exact I|]. specialize (H3 eq_refl).
      destruct (negb (tok0 t =? 125)); [|apply Hnext; auto]. destruct (negb (tok0 t =? 44)); [exact I|].
      apply (ok_bind _ _ _ _ _ (fun r => step (rest s1) (rest (snd r)) /\ below 256 (rest (snd r)) /\ (eof (snd r) = false -> (weight (snd r) < weight s1)%nat))).
      { eapply ok_step; [exact H1|]. apply token_next; [assumption|]. intros t2 s2 G1 G2 G3 G4. cbn [snd]. auto. }
      intros [t2 s2] [G1 [G2 G3]]. cbn [snd] in *. destruct (eof s2); [exact I|]. specialize (G3 eq_refl).
      assert (Hs2 : step (rest s) (rest s2)) by (eapply step_trans; eassumption).
      destruct (negb (tok0 t2 =? 125)); [|apply Hnext; [assumption|assumption|apply Hlt; lia]].
      eapply ok_bind; [eapply ok_step; [exact Hs2|apply member_done; assumption]|].
      intros [[k2 t3] s3] [J1 [J2 J3]]. cbn [snd] in *. apply Hnext; [eapply step_trans; eassumption|assumption|]. apply Hlt. lia.
Qed.
Lemma parse_done : forall text, below 256 text -> ok_res text (json_parse N text) (fun _ => True).
Proof.
  intros text Hb. unfold json_parse. pose proof (token_done (mk_src (-1) false 0 text) Hb) as H. cbn [rest] in H.
  eapply ok_bind; [exact H|]. intros [t s] [H1 H2]. cbn [fst snd rest] in *. destruct t as [|c t]; [exact I|].
  destruct H2 as [[H2 _]|[_ H2]]; [discriminate|]. eapply ok_step; [exact H1|]. apply machine_done; [eapply step_below; eassumption|].
  unfold bound, weight in *. cbn in H2. lia.
Qed.

(* more fuel changes nothing *)
Lemma step_mono : forall F G, (forall s stk m, machine F N s stk m <> No_fuel -> machine G N s stk m = machine F N s stk m) ->
  forall s stk m, machine (S F) N s stk m <> No_fuel -> machine (S G) N s stk m = machine (S F) N s stk m.
Proof.
  intros F G IH s stk m H. destruct m as [tok|v]; cbn [machine] in *.
  - repeat match goal with
    | |- context [if ?b then _ else _] => destruct b; try reflexivity; try (apply IH; assumption)
    | |- context [rbind (do_token ?x) _] => destruct (do_token x) as [[? ?]| | |]; cbn [rbind] in *; try reflexivity
    | |- context [rbind (open_member ?a ?b ?c) _] => destruct (open_member a b c) as [[[? ?] ?]| | |]; cbn [rbind] in *; try reflexivity; try (apply IH; assumption)
    | |- context [read N tok] => destruct (read N tok); try reflexivity; try (apply IH; assumption)
    end.
  - destruct stk as [|[l|l k] stk]; [reflexivity| |];
    repeat match goal with
    | |- context [if ?b then _ else _] => destruct b; try reflexivity; try (apply IH; assumption)
    | |- context [rbind (do_token ?x) _] => destruct (do_token x) as [[? ?]| | |]; cbn [rbind] in *; try reflexivity
    | |- context [rbind (open_member ?a ?b ?c) _] => destruct (open_member a b c) as [[[? ?] ?]| | |]; cbn [rbind] in *; try reflexivity; try (apply IH; assumption)
    end.
Qed.
Lemma machine_mono : forall F k s stk m, machine F N s stk m <> No_fuel -> machine (F + k) N s stk m = machine F N s stk m.
Proof.
  intros F k. induction F as [|F IH]; intros s stk m H; [elim H; reflexivity|]. cbn [Nat.add]. apply step_mono; assumption.
Qed.
End Machine.
