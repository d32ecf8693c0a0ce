(* Numbers in configuration files. *)
From Verif Require Import Base Text Monad NumSpec NumGetProofs ConfModel ConfSpec ConfProofs1 ConfProofs2.

Local Open Scope Z_scope.

Lemma lor_letter c a : 97 <= a <= 122 -> Z.lor a 32 = a -> Z.lor (a - 32) 32 = a ->
  (Z.lor c 32 =? a) = true <-> c = a - 32 \/ c = a.
Proof.
  intros Ha H1 H2. split.
  - intros H. destruct (Z_lt_ge_dec c 0) as [N|N].
    + assert (Z.lor c 32 < 0) by (apply Z.lor_neg; auto). lia.
    + destruct (lor32_low c ltac:(lia)); lia.
  - intros [-> | ->]; lia.
Qed.
Lemma mark_spec n c : (Z.lor c 32 =? exp_mark (radix n)) = true <-> In c (marks n).
Proof.
  destruct n; cbn [radix exp_mark marks In].
  - change (exp_mark 2) with 112. rewrite lor_letter by (reflexivity || lia). lia.
  - change (exp_mark 10) with 101. rewrite lor_letter by (reflexivity || lia). lia.
  - change (exp_mark 16) with 112. rewrite lor_letter by (reflexivity || lia). lia.
Qed.

Lemma fraction_sound n s w t : loaded s -> fraction (radix n) s = Ok (w, t) ->
  exists u, s = push u t /\ frac_part n u w (hd_s t) /\ loaded t.
Proof.
  intros HL H. unfold fraction in H. destruct s as [| | |c r]; cbn in HL; try contradiction;
    cbn [head_is next] in H.
  - injection H as <- <-. exists []. split; [reflexivity|]. split; [constructor; discriminate|exact I].
  - destruct (46 =? c) eqn:E.
    + apply obind_ok in H. destruct H as ([ds t'] & H1 & H2).
      destruct (digits_sound n true _ _ _ _ (le_n _) H1) as (u & -> & HR & HS & HL' & HT).
      destruct ds as [|d ds]; [discriminate|]. injection H2 as <- <-.
      exists (46 :: u). replace c with 46 by lia. split; [reflexivity|]. split; [|exact HL'].
      constructor; auto. intros ->. apply run_nonempty in HR. destruct HR as [HR _]. discriminate (HR eq_refl).
    + injection H as <- <-. exists []. split; [reflexivity|]. split; [|exact I].
      constructor. cbn. intros [= ->]. discriminate.
Qed.
Lemma fraction_complete n u w t : frac_part n u w (hd_s t) -> loaded t ->
  fraction (radix n) (push u t) = Ok (w, t).
Proof.
  intros H HL. inversion H as [nxt HN E1 E2 E3|v ds nxt HR HU HS HT E1 E2 E3]; subst.
  - cbn [push]. unfold fraction. destruct t as [| | |c t]; try reflexivity. cbn [head_is].
    destruct (46 =? c) eqn:E; [|reflexivity]. exfalso. apply HN. cbn. f_equal. lia.
  - unfold fraction. cbn [push head_is next]. change (46 =? 46) with true. cbn iota.
    rewrite (digits_complete n true v ds HR t HS HL (fun _ => HT)). cbn [obind].
    destruct ds; [|reflexivity]. apply run_nonempty in HR. destruct HR as [_ HR]. destruct (HU (HR eq_refl)).
Qed.

Lemma exponent_sound n s w t : loaded s -> exponent (radix n) s = Ok (w, t) ->
  exists u, s = push u t /\ exp_part n u w (hd_s t) /\ loaded t.
Proof.
  intros HL H. unfold exponent in H. destruct s as [| | |c r]; cbn in HL; try contradiction.
  - injection H as <- <-. exists []. split; [reflexivity|]. split; [constructor; discriminate|exact I].
  - destruct (Z.lor c 32 =? exp_mark (radix n)) eqn:E.
    + apply mark_spec in E. apply obind_ok in H. destruct H as (s1 & H1 & H).
      apply load_ok in H1. destruct H1 as [-> HLr].
      assert (HX : exists sg r', r = push sg r' /\ plus_minus sg /\
                (do p <- digits false 10 r' ;
                 match p with ([], _) => Throw | (w, t) => Ok (c :: sg ++ w, t) end) = Ok (w, t)).
      { destruct r as [| | |d r']; cbn in HLr; try contradiction.
        - exists [], SEnd. split; [reflexivity|]. split; [left; reflexivity|exact H].
        - destruct ((d =? 43) || (d =? 45)) eqn:ES.
          + exists [d], r'. split; [reflexivity|]. split; [|exact H].
            unfold plus_minus. destruct (Z.eq_dec d 43) as [->|]; [auto|]. replace d with 45 by lia. auto.
          + exists [], (SCons d r'). split; [reflexivity|]. split; [left; reflexivity|exact H]. }
      destruct HX as (sg & r' & -> & HP & HX). apply obind_ok in HX. destruct HX as ([ds t'] & H1 & H2).
      destruct (digits_sound Decimal false _ _ _ _ (le_n _) H1) as (u & -> & HR & HS & HL' & _).
      destruct ds as [|d ds]; [discriminate|]. injection H2 as <- <-.
      exists (c :: sg ++ u). cbn [push]. rewrite push_app. split; [reflexivity|]. split; [|exact HL'].
      constructor; auto. intros ->. apply run_nonempty in HR. destruct HR as [HR _]. discriminate (HR eq_refl).
    + injection H as <- <-. exists []. split; [reflexivity|]. split; [|exact I].
      constructor. intros x [= <-] HI. apply mark_spec in HI. congruence.
Qed.
Lemma exponent_complete n u w t : exp_part n u w (hd_s t) -> loaded t ->
  exponent (radix n) (push u t) = Ok (w, t).
Proof.
  intros H HL. inversion H as [nxt HN E1 E2 E3|m sg v ds nxt HM HP HR HU HS E1 E2 E3]; subst.
  - cbn [push]. unfold exponent. destruct t as [| | |c t]; try reflexivity.
    destruct (Z.lor c 32 =? exp_mark (radix n)) eqn:E; [|reflexivity].
    apply mark_spec in E. destruct (HN c eq_refl E).
  - cbn [push]. unfold exponent. apply mark_spec in HM. rewrite HM, push_app.
    rewrite load_loaded by (apply loaded_push, loaded_push, HL). cbn [obind].
    assert (HD : digits false 10 (push v t) = Ok (ds, t)).
    { apply (digits_complete Decimal false v ds HR t HS HL). discriminate. }
    assert (HX : (match push sg (push v t) with
                  | SCons d r' => if (d =? 43) || (d =? 45) then ([d], r') else ([], push sg (push v t))
                  | _ => ([], push sg (push v t)) end) = (sg, push v t)).
    { destruct HP as [->|[->| ->]]; try reflexivity. cbn [push].
      destruct v as [|d v]; [congruence|]. cbn [push].
      assert (digit_of Decimal d) by (inversion HR; assumption).
      cbn in H0. unfold decimal in H0. replace ((d =? 43) || (d =? 45)) with false by lia. reflexivity. }
    rewrite HX, HD. cbn [obind]. destruct ds as [|d ds]; [|reflexivity].
    apply run_nonempty in HR. destruct HR as [_ HR]. destruct (HU (HR eq_refl)).
Qed.

Lemma number_base_cases d s :
  (exists n c r, s = SCons c r /\ d = 48 /\ In c (base_letters n) /\ number_base d s = radix n /\ n <> Decimal) \/
  (number_base d s = 10 /\ (d = 48 -> forall c, hd_s s = Some c -> ~ In c [66; 98; 88; 120])).
Proof.
  unfold number_base. destruct s as [| | |c r]; try (right; cbn [head_is]; rewrite !andb_false_r; split; [reflexivity|discriminate]).
  cbn [head_is hd_s].
  pose proof (lor_letter c 98 ltac:(lia) eq_refl eq_refl) as H1.
  pose proof (lor_letter c 120 ltac:(lia) eq_refl eq_refl) as H2.
  destruct (d =? 48) eqn:ED; cbn [andb].
  - destruct (Z.lor c 32 =? 98) eqn:E1.
    { left. exists Binary, c, r. repeat split; try lia; [|congruence]. cbn. lia. }
    destruct (Z.lor c 32 =? 120) eqn:E2.
    { left. exists Hexadecimal, c, r. repeat split; try lia; [|congruence]. cbn. lia. }
    right. split; [reflexivity|]. intros _ x [= <-] HI. cbn in HI. lia.
  - right. split; [reflexivity|]. lia.
Qed.

Lemma tick_cases s : loaded s -> loaded (tick s) ->
  exists tk, s = push tk (tick s) /\ (tk = [] /\ hd_s s <> Some 96 \/ tk = [96]).
Proof.
  intros HL _. destruct s as [| | |c r]; cbn in HL; try contradiction.
  - exists []. split; [reflexivity|]. left; split; [reflexivity|discriminate].
  - cbn [tick]. destruct (c =? 96) eqn:E.
    + exists [96]. replace c with 96 by lia. auto.
    + exists []. split; [reflexivity|]. left; split; [reflexivity|]. cbn. intros [=]; lia.
Qed.

(* The part of a number after the sign. *)
Definition plain_number (u w : list Z) (nxt : option Z) : Prop :=
  exists n i it f ft e et, u = i ++ f ++ e /\ w = it ++ ft ++ et /\
    int_part n i it (after (f ++ e) nxt) /\ frac_part n f ft (after e nxt) /\ exp_part n e et nxt.

Lemma rest_sound n s w1 w2 t s4 : loaded s ->
  fraction (radix n) s = Ok (w1, s4) -> exponent (radix n) s4 = Ok (w2, t) ->
  exists f e, s = push (f ++ e) t /\ frac_part n f w1 (after e (hd_s t)) /\ exp_part n e w2 (hd_s t) /\ loaded t.
Proof.
  intros HL H1 H2. destruct (fraction_sound n _ _ _ HL H1) as (f & -> & HF & HL4).
  destruct (exponent_sound n _ _ _ HL4 H2) as (e & -> & HE & HLt).
  exists f, e. rewrite push_app. split; [reflexivity|]. rewrite hd_push in HF. auto.
Qed.

Lemma unsigned_sound d s w t : decimal d -> unsigned d s = Ok (w, t) ->
  exists u, SCons d s = push u t /\ plain_number u w (hd_s t) /\ loaded t.
Proof.
  intros HD H. unfold unsigned in H.
  apply obind_ok in H. destruct H as (s0 & H0 & H). apply load_ok in H0. destruct H0 as [-> HL0].
  apply obind_ok in H. destruct H as (s1 & H1 & H). apply load_ok in H1. destruct H1 as [-> HL1].
  destruct (tick_cases s HL0 HL1) as (tk & Es & Htk).
  set (s1 := tick s) in *. clearbody s1. cbv zeta in H.
  destruct (number_base_cases d s1) as [(n & c & r & -> & -> & HI & HB & HN)|[HB HI]]; rewrite HB in H.
  - assert (HP : (if radix n =? 2 then ([98], next (SCons c r))
                  else if radix n =? 16 then ([120], next (SCons c r)) else ([], SCons c r)) =
                 ([match n with Binary => 98 | _ => 120 end], r)) by (destruct n; [reflexivity|congruence|reflexivity]).
    rewrite HP in H. clear HP.
    apply obind_ok in H. destruct H as ([ip s3] & H3 & H).
    apply obind_ok in H. destruct H as ([fr s4] & H4 & H).
    apply obind_ok in H. destruct H as ([ex s5] & H5 & [= <- <-]).
    destruct (digits_sound n true _ _ _ _ (le_n _) H3) as (u & -> & HR & HS & HL3 & HT).
    destruct (rest_sound n _ _ _ _ _ HL3 H4 H5) as (f & e & -> & HF & HE & HLt).
    exists ((48 :: tk ++ c :: u) ++ f ++ e). split.
    { rewrite Es. cbn [push app]. rewrite <- app_assoc. cbn [app]. rewrite !push_app. cbn [push].
      rewrite !push_app. reflexivity. }
    split; [|exact HLt]. rewrite hd_push in HS, HT.
    eexists n, _, _, f, fr, e, ex. split; [reflexivity|]. split; [|split; [|split; [exact HF|exact HE]]].
    2:{ apply (int_based n tk c u ip); auto. destruct Htk as [[-> _]| ->]; auto. }
    reflexivity.
  - change 10 with (radix Decimal) in H.
    change (if radix Decimal =? 2 then ([98], next s1)
            else if radix Decimal =? 16 then ([120], next s1) else ([], s1)) with (@nil Z, s1) in H.
    apply obind_ok in H. destruct H as ([ip s3] & H3 & H).
    apply obind_ok in H. destruct H as ([fr s4] & H4 & H).
    apply obind_ok in H. destruct H as ([ex s5] & H5 & [= <- <-]).
    destruct (digits_sound Decimal true _ _ _ _ (le_n _) H3) as (u & -> & HR & HS & HL3 & HT).
    destruct (rest_sound Decimal _ _ _ _ _ HL3 H4 H5) as (f & e & -> & HF & HE & HLt).
    exists ((d :: tk ++ u) ++ f ++ e). split.
    { rewrite Es. cbn [push app]. rewrite <- app_assoc. rewrite !push_app. reflexivity. }
    split; [|exact HLt]. rewrite hd_push in HS, HT.
    eexists Decimal, _, (d :: ip), f, fr, e, ex. split; [reflexivity|].
    split; [reflexivity|split; [|split; [exact HF|exact HE]]].
    apply int_decimal; [| |intros x Hx|exact (HT eq_refl)|].
    + destruct Htk as [[-> _]| ->]; cbn [app]; constructor; assumption.
    + discriminate.
    + destruct (HS x Hx) as [HS1 HS2]. split; [exact HS1|]. intros ->. right.
      destruct (HS2 eq_refl) as [->|(v & ->)].
      * destruct Htk as [[-> Hh]| ->]; [|exists [d]; reflexivity].
        exfalso. apply Hh. rewrite Es. cbn [push]. rewrite hd_push. exact Hx.
      * exists (d :: tk ++ v). cbn [app]. rewrite <- app_assoc. reflexivity.
    + intros HU x Hx. apply HI.
      * destruct HU as [HU|HU]; injection HU as -> _; reflexivity.
      * destruct u as [|y u]; [cbn [push]; rewrite hd_push; exact Hx|exfalso].
        assert (HY : digit_of Decimal y) by (inversion HR; assumption). apply digit_small in HY.
        destruct Htk as [[-> _]| ->]; cbn [app] in HU; destruct HU as [HU|HU]; try discriminate HU;
          injection HU as _ HU; subst; try lia; discriminate.
Qed.

Lemma unsigned_complete d u' w t : plain_number (d :: u') w (hd_s t) -> loaded t ->
  unsigned d (push u' t) = Ok (w, t) /\ decimal d.
Proof.
  intros (n & i & it & f & ft & e & et & E & -> & HI & HF & HE) HL.
  assert (HLfe : loaded (push (f ++ e) t)) by (apply loaded_push, HL).
  assert (Hfe : fraction (radix n) (push (f ++ e) t) = Ok (ft, push e t)).
  { rewrite push_app. apply fraction_complete; [rewrite hd_push; exact HF|apply loaded_push, HL]. }
  assert (Hex : exponent (radix n) (push e t) = Ok (et, t)) by (apply exponent_complete; assumption).
  rewrite <- hd_push in HI.
  inversion HI as [u ds nxt HR HU HS HT HB E1 E2 E3 E4|n' tk c u ds nxt HC HK HR HS HT E1 E2 E3 E4]; subst.
  - (* decimal *)
    destruct i as [|d0 i]; [congruence|]. injection E as <- ->.
    assert (Hd : digit_of Decimal d) by (inversion HR; assumption). split; [|exact Hd].
    rewrite push_app. set (s3 := push (f ++ e) t) in *. clearbody s3.
    assert (HX : exists tk v es, i = tk ++ v /\ (tk = [] /\ hd_s (push i s3) <> Some 96 \/ tk = [96]) /\
                   run Decimal v es /\ it = d :: es).
    { inversion HR as [|c v es Hc HR' E1 E2|c v es Hc HR' E1 E2]; subst.
      - exists [], i, es. split; [reflexivity|]. split; [left; split; [reflexivity|]|auto].
        rewrite hd_push. destruct i as [|y i]; cbn [after].
        + intros EX. destruct (HS 96 EX) as [_ HS']. destruct (HS' eq_refl) as [[=]|(v & EV)].
          destruct v as [|? [|? ?]]; injection EV as EV; subst; try discriminate.
          apply digit_small in Hd. lia.
        + assert (HY : digit_of Decimal y) by (inversion HR'; assumption). apply digit_small in HY.
          intros [=]. lia.
      - exists [96], v, es. auto. }
    destruct HX as (tk & v & es & -> & Htk & HRv & ->).
    assert (HLi : loaded (push (tk ++ v) s3)) by (apply loaded_push, HLfe).
    unfold unsigned. rewrite load_loaded by exact HLi. cbn [obind].
    assert (ETk : tick (push (tk ++ v) s3) = push v s3).
    { destruct Htk as [[-> Hh]| ->]; [|reflexivity]. cbn [app] in *.
      destruct (push v s3) as [| | |y r]; try reflexivity. cbn [tick].
      destruct (y =? 96) eqn:EY; [|reflexivity]. exfalso. apply Hh. cbn. f_equal. lia. }
    rewrite ETk. rewrite load_loaded by (apply loaded_push, HLfe). cbn [obind]. cbv zeta.
    assert (EB : number_base d (push v s3) = radix Decimal).
    { destruct (number_base_cases d (push v s3)) as [(n & c & r & ES & -> & HCI & _ & HN)|[-> _]]; [exfalso|reflexivity].
      destruct v as [|y v].
      - cbn [push] in ES. apply (HB ltac:(destruct Htk as [[-> _]| ->]; auto) c).
        + rewrite ES. reflexivity.
        + destruct n; cbn in HCI |- *; tauto.
      - cbn [push] in ES. injection ES as -> _.
        assert (HY : digit_of Decimal c) by (inversion HRv; assumption). cbn in HY. unfold decimal in HY.
        destruct n; cbn in HCI; lia. }
    rewrite EB.
    change (if radix Decimal =? 2 then ([98], next (push v s3))
            else if radix Decimal =? 16 then ([120], next (push v s3)) else ([], push v s3)) with (@nil Z, push v s3).
    cbv iota beta.
    assert (HSv : stops Decimal v (hd_s s3)).
    { apply stops_tail in HS. destruct Htk as [[-> _]| ->]; [exact HS|]. apply stops_tail in HS. exact HS. }
    rewrite (digits_complete Decimal true v es HRv s3 HSv HLfe (fun _ => HT)). cbn [obind].
    rewrite Hfe. cbn [obind]. rewrite Hex. reflexivity.
  - cbn [app] in E. injection E as -> ->. split; [|unfold decimal; lia].
    rewrite <- app_assoc. cbn [app]. rewrite push_app. cbn [push]. rewrite push_app.
    set (s3 := push (f ++ e) t) in *. clearbody s3.
    assert (Hc : c <> 96) by (destruct n; cbn in HC; lia).
    unfold unsigned. rewrite load_loaded by (apply loaded_push; exact I). cbn [obind].
    assert (ETk : tick (push tk (SCons c (push u s3))) = SCons c (push u s3)).
    { destruct HK as [-> | ->]; cbn [push tick]; [replace (c =? 96) with false by lia|]; reflexivity. }
    rewrite ETk. cbn [load obind]. cbv zeta.
    assert (EB : number_base 48 (SCons c (push u s3)) = radix n).
    { unfold number_base. cbn [head_is]. change (48 =? 48) with true. cbn [andb].
      pose proof (lor_letter c 98 ltac:(lia) eq_refl eq_refl) as L1.
      pose proof (lor_letter c 120 ltac:(lia) eq_refl eq_refl) as L2.
      destruct n; cbn in HC |- *.
      - replace (Z.lor c 32 =? 98) with true by (symmetry; apply L1; lia). reflexivity.
      - tauto.
      - destruct (Z.lor c 32 =? 98) eqn:X; [apply proj1 in L1; specialize (L1 eq_refl); lia|].
        replace (Z.lor c 32 =? 120) with true by (symmetry; apply L2; lia). reflexivity. }
    rewrite EB.
    assert (HP : (if radix n =? 2 then ([98], next (SCons c (push u s3)))
                  else if radix n =? 16 then ([120], next (SCons c (push u s3))) else ([], SCons c (push u s3))) =
                 ([match n with Binary => 98 | _ => 120 end], push u s3)) by (destruct n; [reflexivity|destruct HC|reflexivity]).
    rewrite HP.
    rewrite (digits_complete n true u ds HR s3 HS HLfe (fun _ => HT)). cbn [obind].
    rewrite Hfe. cbn [obind]. rewrite Hex. reflexivity.
Qed.

Lemma plain_signed sg u w nxt : plus_minus sg -> plain_number u w nxt -> number_piece (sg ++ u) (sg ++ w) nxt.
Proof.
  intros HP (n & i & it & f & ft & e & et & -> & -> & HI & HF & HE).
  exact (number_intro n sg i it f ft e et nxt HP HI HF HE).
Qed.
Lemma number_inv u w nxt : number_piece u w nxt ->
  exists sg u' w', u = sg ++ u' /\ w = sg ++ w' /\ plus_minus sg /\ plain_number u' w' nxt.
Proof.
  intros [n sg i it f ft e et nx HP HI HF HE]. exists sg, (i ++ f ++ e), (it ++ ft ++ et).
  repeat split; auto. exists n, i, it, f, ft, e, et. auto.
Qed.
Lemma plain_nonempty u w nxt : plain_number u w nxt -> exists d r, u = d :: r.
Proof.
  intros (n & i & it & f & ft & e & et & -> & _ & HI & _).
  destruct HI as [v ds nx HR HU|]; [|eexists _, _; reflexivity].
  destruct v; [congruence|eexists _, _; reflexivity].
Qed.
