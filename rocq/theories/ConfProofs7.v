(* Which files are safe to load. *)
From Verif Require Import Base Text Monad UtfSpec NumGetModel NumSpec NumGetProofs NumTripProofs.
From Verif Require Import ConfModel ConfSpec ConfProofs1 ConfProofs2 ConfProofs3 ConfProofs4 ConfProofs5 ConfProofs6.

Local Open Scope Z_scope.

(* The stream is not at its end, and its last character is a line feed. *)
Fixpoint closed (s : stream) : Prop :=
  match s with SCons c r => 0 <= c < 256 /\ (c = 10 /\ r = SEnd \/ closed r) | _ => False end.
Definition ended (s : stream) : Prop := s = SEnd \/ closed s.
Lemma closed_list cs : Forall (fun c => 0 <= c < 256) cs -> closed (of_list (cs ++ [10])).
Proof. induction 1 as [|c cs Hc _ IH]; cbn [app of_list closed]; [|auto]. split; [lia|]. left. auto. Qed.
Lemma closed_next c r : closed (SCons c r) -> c <> 10 -> closed r.
Proof. intros [_ [[-> _]|H]]; [congruence|auto]. Qed.
Lemma ended_next c r : closed (SCons c r) -> ended r.
Proof. intros [_ [[_ ->]|H]]; [left; reflexivity|right; exact H]. Qed.
Lemma ended_push u t : ended (push u t) -> ended t.
Proof.
  induction u as [|c u IH]; [auto|]. cbn [push]. intros [H|H]; [discriminate|]. apply IH, (ended_next c), H.
Qed.
Lemma closed_push u t : closed t -> Forall (fun c => 0 <= c < 256) u -> closed (push u t).
Proof. intros H. induction 1; cbn [push closed]; auto. Qed.
Lemma ended_loaded s : ended s -> loaded s.
Proof. intros [->|H]; [exact I|]. destruct s; cbn in *; tauto. Qed.
Lemma closed_loaded s : closed s -> load s = Ok s.
Proof. destruct s; cbn; tauto. Qed.

Definition fine (o : outcome (bytes * stream)) : Prop :=
  match o with Ok (_, t) => closed t | UB => False | Throw => True end.
Lemma fine_bind (o : outcome (bytes * stream)) k : fine o -> (forall w t, o = Ok (w, t) -> closed t -> fine (k (w, t))) ->
  fine (do p <- o ; k p).
Proof. destruct o as [[w t]| |]; cbn [fine obind]; auto. Qed.

Lemma valid_not_feed base c : valid_digit base c = true -> c <> 10.
Proof. unfold valid_digit. destruct (base =? 2); [lia|]. destruct (base =? 16); lia. Qed.
Lemma digits_fine tb base : forall k s, (stream_length s <= k)%nat -> closed s -> fine (digits tb base s).
Proof.
  induction k as [|k IH]; intros s HK HC; (destruct s as [| | |c r]; try contradiction; cbn [stream_length] in HK); [lia|].
  cbn [digits]. replace (256 <=? c) with false by (destruct HC; lia). rewrite andb_false_r.
  destruct (valid_digit base c) eqn:E; [|exact HC]. apply valid_not_feed in E. apply closed_next in HC; [|exact E].
  apply fine_bind; [|intros w t _ H; exact H].
  destruct r as [| | |d r']; try contradiction. cbn [stream_length] in HK.
  destruct (d =? 96) eqn:E9; apply IH; cbn [stream_length]; try lia; [|exact HC].
  apply (closed_next d); [exact HC|lia].
Qed.
Lemma fraction_fine base s : closed s -> fine (fraction base s).
Proof.
  intros HC. unfold fraction. destruct s as [| | |c r]; try contradiction. cbn [head_is next].
  destruct (46 =? c) eqn:E; [|exact HC]. apply closed_next in HC; [|lia].
  apply fine_bind; [eapply digits_fine; [apply le_n|exact HC]|]. intros [|] t _ H; [exact I|exact H].
Qed.
Lemma exponent_fine base s : closed s -> fine (exponent base s).
Proof.
  intros HC. unfold exponent. destruct s as [| | |c r]; try contradiction.
  destruct (Z.lor c 32 =? exp_mark base) eqn:E; [|exact HC].
  assert (Hc : c <> 10).
  { intros ->. change (Z.lor 10 32) with 42 in E. unfold exp_mark in E. destruct (base =? 10); discriminate. }
  apply closed_next in HC; [|exact Hc]. rewrite closed_loaded by exact HC. cbn [obind].
  destruct r as [| | |d r']; try contradiction.
  destruct ((d =? 43) || (d =? 45)) eqn:ED.
  - apply fine_bind; [eapply digits_fine; [apply le_n|apply (closed_next d); [exact HC|lia]]|].
    intros [|] t _ H; [exact I|exact H].
  - apply fine_bind; [eapply digits_fine; [apply le_n|exact HC]|]. intros [|] t _ H; [exact I|exact H].
Qed.
Lemma unsigned_fine d s : closed s -> fine (unsigned d s).
Proof.
  intros HC. unfold unsigned. rewrite closed_loaded by exact HC. cbn [obind].
  assert (HT : closed (tick s)).
  { destruct s as [| | |c r]; try contradiction. cbn [tick]. destruct (c =? 96) eqn:E; [|exact HC].
    apply (closed_next c); [exact HC|lia]. }
  rewrite closed_loaded by exact HT. cbn [obind]. cbv zeta. set (s1 := tick s) in *. clearbody s1.
  assert (HN : number_base d s1 = 2 \/ number_base d s1 = 16 -> closed (next s1)).
  { unfold number_base. destruct s1 as [| | |c r]; try contradiction. cbn [head_is next]. intros H.
    apply (closed_next c); [exact HT|]. intros ->. change (Z.lor 10 32) with 42 in H. cbn in H.
    rewrite andb_false_r in H. lia. }
  set (base := number_base d s1) in *. clearbody base.
  assert (H2 : exists pre s2, (if base =? 2 then ([98], next s1) else if base =? 16 then ([120], next s1) else ([], s1))
                = (pre, s2) /\ closed s2).
  { destruct (base =? 2) eqn:E2; [eexists _, _; split; [reflexivity|apply HN; lia]|].
    destruct (base =? 16) eqn:E16; [eexists _, _; split; [reflexivity|apply HN; lia]|].
    eexists _, _; split; [reflexivity|exact HT]. }
  destruct H2 as (pre & s2 & -> & H2).
  apply fine_bind; [eapply digits_fine; [apply le_n|exact H2]|]. intros w t _ H3.
  apply fine_bind; [apply fraction_fine, H3|]. intros w' t' _ H4.
  apply fine_bind; [apply exponent_fine, H4|]. intros w'' t'' _ H5. exact H5.
Qed.

Lemma bind_ub {A B} (o : outcome A) (k : A -> outcome B) : (do p <- o ; k p) = UB -> o = UB \/ exists a, o = Ok a /\ k a = UB.
Proof. destruct o as [a| |]; cbn [obind]; intros H; [right; eauto|discriminate|auto]. Qed.
Lemma skip_not_ub : forall s m, ended s -> skip m s <> UB.
Proof.
  induction s as [| | |c r IH]; intros m HE.
  - destruct m; discriminate.
  - destruct HE; [discriminate|contradiction].
  - destruct HE; [discriminate|contradiction].
  - destruct HE as [HE|HE]; [discriminate|]. apply ended_next in HE. specialize (fun m => IH m HE).
    cbn [skip]. destruct m; repeat (destruct (_ : bool) in |- *; [|]); auto; try discriminate;
      repeat match goal with |- context [if ?b then _ else _] => destruct b end; auto; discriminate.
Qed.
Lemma word_not_ub : forall s, ended s -> word s <> UB.
Proof.
  induction s as [| | |c r IH]; intros HE; try (destruct HE; [discriminate|contradiction]).
  destruct HE as [HE|HE]; [discriminate|]. apply ended_next in HE. cbn [word]. destruct (is_word c); [|discriminate].
  intros H. apply bind_ub in H. destruct H as [H|([w t] & _ & H)]; [exact (IH HE H)|discriminate].
Qed.
Lemma single_not_ub : forall s, ended s -> single s <> UB.
Proof.
  induction s as [| | |c r IH]; intros HE; try (destruct HE; [discriminate|contradiction]).
  destruct HE as [HE|HE]; [discriminate|]. apply ended_next in HE. cbn [single]. destruct (is_control c); [discriminate|].
  destruct (c =? 39); [discriminate|].
  intros H. apply bind_ub in H. destruct H as [H|([w t] & _ & H)]; [exact (IH HE H)|discriminate].
Qed.
Lemma double_not_ub : forall s m, ended s -> double m s <> UB.
Proof.
  induction s as [| | |c r IH]; intros m HE; try (destruct HE; [discriminate|contradiction]).
  destruct HE as [HE|HE]; [discriminate|]. apply ended_next in HE. specialize (fun m => IH m HE).
  assert (Put : forall d m, (do p <- double m r ; let '(w, t) := p in Ok (put_char d ++ w, t)) <> UB).
  { intros d m' H. apply bind_ub in H. destruct H as [H|([w t] & _ & H)]; [exact (IH m' H)|discriminate]. }
  cbn [double]. destruct m; cbv zeta;
    repeat match goal with
           | |- context [if ?b then _ else _] => destruct b
           | |- context [match simple_escape c with _ => _ end] => destruct (simple_escape c)
           | |- context [match hex_value c with _ => _ end] => destruct (hex_value c)
           | |- context [match unit_value ?u ?v with _ => _ end] => destruct (unit_value u v)
           | |- context [match ?k with O => _ | S _ => _ end] => destruct k
           end; auto; discriminate.
Qed.

Lemma token_not_ub s : ended s -> do_token s <> UB.
Proof.
  intros HE H. unfold do_token in H. apply bind_ub in H.
  destruct H as [H|([[c r]|] & H1 & H)]; [exact (skip_not_ub _ _ HE H)| |discriminate].
  apply skip_some in H1. destruct H1 as (b & -> & _ & HW & H47). apply ended_push in HE.
  destruct HE as [HE|HC]; [discriminate|]. pose proof (ended_next _ _ HC) as HE.
  assert (HC' : closed r) by (apply (closed_next c); [exact HC|]; intros ->; apply HW; unfold white; cbn; tauto).
  destruct (is_punct c); [discriminate|].
  destruct (is_letter c).
  { apply bind_ub in H. destruct H as [H|([w t] & _ & H)]; [exact (word_not_ub _ HE H)|discriminate]. }
  destruct ((c =? 43) || (c =? 45)).
  { unfold signed in H. rewrite closed_loaded in H by exact HC'. cbn [obind] in H.
    destruct r as [| | |d r]; try contradiction. destruct (is_digit d) eqn:ED; [|discriminate].
    apply bind_ub in H. destruct H as [H|([w t] & _ & H)]; [|discriminate].
    pose proof (unsigned_fine d r) as HF. rewrite H in HF. apply HF, (closed_next d); [exact HC'|].
    unfold is_digit in ED. lia. }
  destruct (is_digit c).
  { pose proof (unsigned_fine c r HC') as HF. rewrite H in HF. exact HF. }
  destruct (c =? 39).
  { apply bind_ub in H. destruct H as [H|([w t] & _ & H)]; [exact (single_not_ub _ HE H)|discriminate]. }
  destruct (c =? 34); [|discriminate].
  apply bind_ub in H. destruct H as [H|([w t] & _ & H)]; [exact (double_not_ub _ _ HE H)|discriminate].
Qed.

(* Where undefined behaviour comes from *)
Fixpoint ub_in (s : tstream) : Prop :=
  match s with TUB | TFuel => True | TCons t r => scalar_value t = UB \/ ub_in r | _ => False end.
Lemma ub_separator s : ub_in (separator s) -> ub_in s.
Proof. destruct s; cbn [separator]; auto. destruct (first_is _ _); cbn [ub_in]; auto. Qed.
Lemma ub_assigner s : ub_in (assigner s) -> ub_in s.
Proof. destruct s; cbn [assigner]; auto. destruct (first_is _ _); cbn [ub_in]; auto. Qed.
Lemma pack_ub : forall n s, (tlen s <= n)%nat -> forall p stk, pack p stk s = UB -> ub_in s.
Proof.
  induction n as [|n IH]; intros s HN p stk H.
  - destruct s; try exact I; try discriminate; [|cbn in HN; lia].
    destruct p as [[]|]; destruct stk; discriminate.
  - destruct s as [| | | |t r]; try exact I; try discriminate.
    { destruct p as [[]|]; destruct stk; discriminate. }
    cbn [tlen] in HN.
    pose proof (separator_len r) as Lr. pose proof (assigner_len r) as La.
    assert (HS : forall f stk, pack (Slot f) stk (TCons t r) = UB -> ub_in (TCons t r)).
    { clear H p stk. intros f stk H. cbn [ub_in].
      destruct (first_is (Z.eqb 91) t) eqn:E1.
      { right. cbn [pack] in H. rewrite E1 in H. destruct (duplicate f); [discriminate|].
        destruct r as [| | | |t' r']; try exact I; try discriminate. pose proof (separator_len r'). cbn [tlen] in *.
        destruct (first_is (Z.eqb 93) t').
        - apply IH in H; [right; apply ub_separator, H|lia].
        - apply (IH (TCons t' r')) in H; [exact H|cbn [tlen]; lia]. }
      destruct (first_is (Z.eqb 123) t) eqn:E2.
      { right. cbn [pack] in H. rewrite E1, E2 in H. destruct (duplicate f); [discriminate|].
        destruct r as [| | | |t' r']; try exact I; try discriminate. pose proof (separator_len r'). cbn [tlen] in *.
        destruct (first_is (Z.eqb 125) t').
        - apply IH in H; [right; apply ub_separator, H|lia].
        - apply (IH (TCons t' r')) in H; [exact H|cbn [tlen]; lia]. }
      rewrite slot_scalar in H by assumption. destruct (duplicate f); [discriminate|].
      apply bind_ub in H. destruct H as [H|(v & _ & H)]; [left; exact H|].
      right. apply IH in H; [apply ub_separator, H|lia]. }
    destruct p as [[l|l]|f]; [| |exact (HS _ _ H)].
    + rewrite member_array in H. destruct (first_is (Z.eqb 93) t).
      * destruct stk; [discriminate|]. right. apply IH in H; [apply ub_separator, H|lia].
      * destruct (32 <? _); [discriminate|]. exact (HS _ _ H).
    + rewrite member_object in H. destruct (first_is (Z.eqb 125) t).
      * destruct stk; [discriminate|]. right. apply IH in H; [apply ub_separator, H|lia].
      * destruct (32 <? _); [discriminate|]. destruct (key_of t); [|discriminate].
        right. apply IH in H; [apply ub_assigner, H|lia].
Qed.
Lemma scalar_ub k : good k -> scalar_value (code k) = UB -> exists w, k = TNum w /\ number_value w = UB.
Proof.
  intros HG H. unfold scalar_value in H. destruct k as [x|w|w|s]; cbn [good code] in *.
  - exfalso. cbn in HG. repeat destruct HG as [HG|HG]; try (subst x; discriminate). contradiction.
  - exfalso. destruct HG as (c & r & -> & HL). cbn [first_is] in H. unfold letter in HL.
    replace ((c =? 43) || (c =? 45) || is_digit c) with false in H by (unfold is_digit; lia).
    replace (34 =? c) with false in H by lia.
    repeat (destruct (beqb _ _); [discriminate|]). discriminate.
  - destruct HG as (c & r & -> & HL). cbn [first_is] in H. unfold number_start, decimal in HL.
    replace ((c =? 43) || (c =? 45) || is_digit c) with true in H by (unfold is_digit; lia). eauto.
  - discriminate.
Qed.
Lemma tokens_ub : forall n s, scalars s -> ended s -> (stream_length s < n)%nat -> ub_in (tokens n s) ->
  exists a u w t, s = push a (push u t) /\ number_piece u w (hd_s t) /\ ended t /\ number_value w = UB.
Proof.
  induction n as [|n IH]; intros s HS HE HN H; [lia|]. cbn [tokens] in H.
  destruct (do_token s) as [[t r]| |] eqn:E; [|contradiction|exact (False_ind _ (token_not_ub _ HE E))].
  destruct t as [|c t]; [contradiction|].
  destruct (token_sound _ _ _ HS E ltac:(discriminate)) as (b & u & k & -> & HB & HP & EK).
  apply scalars_push in HS. destruct HS as [_ HS]. apply scalars_push in HS. destruct HS as [_ HS].
  apply ended_push, ended_push in HE. cbn [ub_in] in H. destruct H as [H|H].
  - rewrite EK in H. destruct (scalar_ub _ (piece_good _ _ _ HP) H) as (w & -> & HW).
    exists b, u, w, r. inversion HP; subst. auto.
  - destruct (IH r HS HE) as (a & u' & w & t' & -> & HP' & HE' & HW); [|exact H|].
    + rewrite !length_push in HN. apply piece_nonempty in HP. destruct u; [congruence|cbn [length] in HN; lia].
    + exists (b ++ u ++ a), u', w, t'. rewrite !push_app. auto.
Qed.

Lemma literal_not_ub l : wf_literal l -> number_value (text_of l) <> UB.
Proof.
  intros W. destruct (l_frac l) eqn:Hf.
  - destruct (number_real l W ltac:(congruence)) as (b & _ & ->). destruct (_ <? _); discriminate.
  - unfold number_value. rewrite (text_point l W), Hf.
    destruct (parse_I_ok l W Hf) as (x & -> & _). cbn [obind]. destruct (cast_I_over x); discriminate.
Qed.

Lemma ended_list t : ended t -> exists cs, t = of_list cs.
Proof.
  assert (H : forall s, closed s -> exists cs, s = of_list cs).
  { induction s as [| | |c r IH]; cbn [closed]; try contradiction.
    intros [_ [[_ ->]|H]]; [exists [c]; reflexivity|]. destruct (IH H) as (cs & ->). exists (c :: cs). reflexivity. }
  intros [->|HC]; [exists []; reflexivity|auto].
Qed.

Lemma load_safe file cs : all_bytes file -> text_of_file file (cs ++ [10]) -> Forall (fun c => c < 256) cs ->
  load_conf file = UB ->
  exists a u w b, cs ++ [10] = a ++ u ++ b /\ number_piece u w (hd_error b) /\
    ~ exists l, wf_literal l /\ w = text_of l.
Proof.
  intros HB HT HL H. unfold load_conf in H.
  pose proof (bom_scalars _ (decode_scalars _ file (le_n _) HB)) as HS.
  apply file_text in HT; [|exact HB]. rewrite HT in *.
  assert (HC : ended (of_list (cs ++ [10]))).
  { right. apply closed_list. apply scalars_list in HS. apply Forall_app in HS. destruct HS as [HS _].
    rewrite Forall_forall in *. intros c Hc. specialize (HS c Hc). specialize (HL c Hc). unfold scalar in HS. lia. }
  apply (pack_ub _ _ (le_n _)) in H.
  destruct (tokens_ub _ _ HS HC (Nat.lt_succ_diag_r _) H) as (a & u & w & t & E & HP & HE & HW).
  destruct (ended_list t HE) as (b & ->). rewrite hd_list in HP.
  exists a, u, w, b. split; [|split; [exact HP|]].
  - apply of_list_inj. rewrite E, !push_list. reflexivity.
  - intros (l & W & ->). exact (literal_not_ub l W HW).
Qed.
