(* Dumps. *)
From Verif Require Import Base Text Monad NumPutModel ValueModel ValueProofs TokModel TokProofs1.
From Verif Require Import FmtModel FmtSpec FmtProofs1 FmtProofs2 PrintModel PrintSpec PrintProofs1 PrintProofs2.

Local Open Scope Z_scope.

Section Dump.
  Variable real_text : real -> bytes.
  Variable opaque_text : Z -> bytes.
  Variable function_text : Z -> bytes.
  Variables indent hanging : Z.
  Notation dumps := (dumps real_text opaque_text function_text indent hanging).
  Notation dumps_elements := (dumps_elements real_text opaque_text function_text indent hanging).
  Notation dumps_fields := (dumps_fields real_text opaque_text function_text indent hanging).
  Notation new_line := (new_line indent hanging).

  Lemma dumps_elements_fun l : Forall (fun v => forall d a b, dumps d v a -> dumps d v b -> a = b) l ->
    forall d i a b, dumps_elements d i l a -> dumps_elements d i l b -> a = b.
  Proof.
    induction 1 as [|v l Hv _ IH]; intros d i x y A B; inversion A; inversion B; subst; [reflexivity|].
    f_equal. f_equal; [eauto using decimal_fun|]. f_equal. f_equal; eauto.
  Qed.
  Lemma dumps_fields_fun l : Forall (fun kv => forall d a b, dumps d (snd kv) a -> dumps d (snd kv) b -> a = b) l ->
    forall d a b, dumps_fields d l a -> dumps_fields d l b -> a = b.
  Proof.
    induction 1 as [|[k v] l Hv _ IH]; intros d x y A B; inversion A; inversion B; subst; [reflexivity|].
    cbn [snd] in Hv. do 3 f_equal. f_equal; eauto.
  Qed.
  Lemma dumps_fun v : forall d a b, dumps d v a -> dumps d v b -> a = b.
  Proof.
    induction v using value_ind'; intros d x y A B; inversion A; subst; inversion B; subst; try reflexivity; try congruence.
    - f_equal. f_equal. eauto using integer_text_fun.
    - f_equal. f_equal. eauto using decimal_fun.
    - f_equal. f_equal; [eauto using decimal_fun|]. f_equal. f_equal. eapply dumps_elements_fun; eauto.
    - f_equal. f_equal; [eauto using decimal_fun|]. f_equal. f_equal. eapply dumps_fields_fun; eauto.
  Qed.

  Lemma dump_exact v t : 0 <= indent -> 0 <= hanging -> value_ok v ->
    hanging + indent * Z.of_nat (depth v) < 2 ^ 64 ->
    dump real_text opaque_text function_text indent hanging v = Ok t <-> dumps 0 v t.
  Proof.
    intros Hi Hh H Hf. destruct (dump_dumps real_text opaque_text function_text indent hanging Hi Hh v H Hf) as (u & E & P).
    rewrite E. split.
    - now intros [= <-].
    - intros P'. f_equal. eapply dumps_fun; eauto.
  Qed.

  (* ---------- one value for a text ---------- *)
  Definition dlead (v : value) (c : Z) : Prop :=
    match v with
    | VNull => c = 110
    | VBool _ => c = 98
    | VInt _ => c = 105
    | VStr _ => c = 115
    | VArr _ => c = 97
    | VObj _ => c = 111
    | _ => False
    end.
  Lemma dumps_lead d v t : plain v -> dumps d v t -> exists c r, t = c :: r /\ dlead v c.
  Proof.
    intros Hp H. destruct H; cbn [plain] in Hp; try tauto;
      (eexists; eexists; split; [reflexivity|reflexivity]).
  Qed.

  Definition dreadable (v : value) : Prop := plain v -> value_ok v -> forall d w t u a b, plain w -> value_ok w ->
    dumps d v t -> dumps d w u -> t ++ a = u ++ b -> v = w /\ a = b.

  Lemma dumps_elements_read l : Forall dreadable l -> fold_right (fun v P => plain v /\ P) True l ->
    fold_right (fun v P => value_ok v /\ P) True l -> forall m, fold_right (fun v P => plain v /\ P) True m ->
    fold_right (fun v P => value_ok v /\ P) True m -> length l = length m ->
    forall d i t u a b, dumps_elements d i l t -> dumps_elements d i m u ->
    t ++ a = u ++ b -> l = m /\ a = b.
  Proof.
    induction 1 as [|v l Hv _ IH]; intros Pl Ol [|w m] Pm Om L d i t u a b El Em E; try discriminate;
      inversion El; inversion Em; subst.
    - now split.
    - cbn [fold_right] in *. destruct Pl as [Pv Pl], Ol as [Ov Ol], Pm as [Pw Pm], Om as [Ow Om].
      match goal with A : decimal i ?x, B : decimal i ?y |- _ => pose proof (decimal_fun i x y A B); subst end.
      rewrite <- !app_assoc in E. do 3 apply app_inv_head in E.
      eapply Hv in E as [-> E]; try eassumption.
      eapply IH in E as [-> ->]; try eassumption; [now split|]. cbn in L. lia.
  Qed.
  Lemma dumps_fields_read l : Forall (fun kv => dreadable (snd kv)) l ->
    fold_right (fun kv P => plain (snd kv) /\ P) True l ->
    fold_right (fun kv P => all_bytes (fst kv) /\ value_ok (snd kv) /\ P) True l ->
    forall m, fold_right (fun kv P => plain (snd kv) /\ P) True m ->
    fold_right (fun kv P => all_bytes (fst kv) /\ value_ok (snd kv) /\ P) True m -> length l = length m ->
    forall d t u a b, dumps_fields d l t -> dumps_fields d m u ->
    t ++ a = u ++ b -> l = m /\ a = b.
  Proof.
    induction 1 as [|[k v] l Hv _ IH]; intros Pl Ol [|[h w] m] Pm Om L d t u a b El Em E; try discriminate;
      inversion El; inversion Em; subst.
    - now split.
    - cbn [fold_right fst snd] in *. destruct Pl as [Pv Pl], Ol as (Okk & Ov & Ol), Pm as [Pw Pm], Om as (Oh & Ow & Om).
      rewrite <- !app_assoc in E. apply app_inv_head in E.
      apply literal_read in E as [-> E]; [|assumption|assumption]. apply app_inv_head in E.
      eapply Hv in E as [-> E]; try eassumption.
      eapply IH in E as [-> ->]; try eassumption; [now split|]. cbn in L. lia.
  Qed.

  Lemma size_read {A B} (l : list A) (m : list B) x y c a b : ~ digit c ->
    decimal (Z.of_nat (length l)) x -> decimal (Z.of_nat (length m)) y ->
    x ++ (c :: a) = y ++ (c :: b) -> length l = length m /\ a = b.
  Proof.
    intros Hc Dx Dy E. apply (decimal_read _ _ _ _ _ _ (Zle_0_nat _) (Zle_0_nat _) Dx Dy) in E as [E1 E2];
      [|exact Hc|exact Hc]. injection E2 as E2. split; [lia|exact E2].
  Qed.
  Lemma decimal_zero : decimal (Z.of_nat (length ([] : bytes))) (str "0").
  Proof. exists 0%nat. split; [reflexivity|]. split; [cbn; lia|congruence]. Qed.
  Lemma bracket : ~ digit 41.
  Proof. unfold digit. lia. Qed.

  Lemma dread_back v : dreadable v.
  Proof.
    induction v using value_ind'; intros Pv Ov d w t u ra rb Pw Ow Ht Hu E;
      destruct (dumps_lead _ _ _ Pv Ht) as (c & q & Et & Lv); destruct (dumps_lead _ _ _ Pw Hu) as (c' & q' & Eu & Lw);
      pose proof E as Ec; rewrite Et, Eu in Ec; injection Ec as <- _; clear Et Eu;
      destruct w as [|b'|n'| |s'| | |l'|l']; cbn [dlead] in Lv, Lw;
      try (exfalso; try tauto; lia).
    - inversion Ht; subst; inversion Hu; subst. cbn in E. split; [reflexivity|congruence].
    - destruct b, b'; inversion Ht; subst; inversion Hu; subst; try discriminate; split; try reflexivity; injection E; auto.
    - inversion Ht as [| | |? ? ? A| | | | | | | |]; inversion Hu as [| | |? ? ? B| | | | | | | |]; subst.
      rewrite <- !app_assoc in E. apply app_inv_head in E.
      destruct (integer_read _ _ _ _ (str ";" ++ ra) (str ";" ++ rb) A B) as [-> E'];
        [cbn; unfold digit; lia|cbn; unfold digit; lia|exact E|]. split; [reflexivity|]. injection E'. auto.
    - inversion Ht as [| | | | |? ? x A| | | | | |]; inversion Hu as [| | | | |? ? y B| | | | | |]; subst.
      rewrite <- !app_assoc in E. apply app_inv_head in E.
      apply (size_read s s' x y 41 _ _ bracket A B) in E as [_ E]. apply (app_inv_head [32]) in E.
      apply literal_read in E as [-> E]; [|apply Ov|apply Ow]. split; [reflexivity|]. injection E. auto.
    - cbn [plain value_ok] in *. destruct Ov as [_ Ov], Ow as [_ Ow].
      inversion Ht as [| | | | | | | |X|? ? x ts N A X| |]; inversion Hu as [| | | | | | | |Y|? ? y us M B Y| |]; subst.
      + split; [reflexivity|]. injection E. auto.
      + exfalso. change (str "array(0) [ ];") with (str "array(" ++ str "0" ++ str ") [ ];") in E.
        rewrite <- !app_assoc in E. apply app_inv_head in E.
        apply (size_read ([] : bytes) l' _ y 41 _ _ bracket decimal_zero B) in E as [L _]. destruct l'; [congruence|discriminate].
      + exfalso. change (str "array(0) [ ];") with (str "array(" ++ str "0" ++ str ") [ ];") in E.
        rewrite <- !app_assoc in E. apply app_inv_head in E.
        apply (size_read l ([] : bytes) x _ 41 _ _ bracket A decimal_zero) in E as [L _]. destruct l; [congruence|discriminate].
      + rewrite <- !app_assoc in E. apply app_inv_head in E.
        apply (size_read l l' x y 41 _ _ bracket A B) in E as [L E].
        apply (app_inv_head [32; 91]) in E.
        eapply (dumps_elements_read l H Pv Ov l' Pw Ow L) in E as [-> E]; [|eassumption|eassumption].
        apply app_inv_head in E. split; [reflexivity|]. injection E. auto.
    - cbn [plain value_ok] in *. destruct Ov as [_ Ov], Ow as [_ Ow].
      inversion Ht as [| | | | | | | | | |X|? ? x ts N A X]; inversion Hu as [| | | | | | | | | |Y|? ? y us M B Y]; subst.
      + split; [reflexivity|]. injection E. auto.
      + exfalso. change (str "object(0) { };") with (str "object(" ++ str "0" ++ str ") { };") in E.
        rewrite <- !app_assoc in E. apply app_inv_head in E.
        apply (size_read ([] : bytes) l' _ y 41 _ _ bracket decimal_zero B) in E as [L _]. destruct l'; [congruence|discriminate].
      + exfalso. change (str "object(0) { };") with (str "object(" ++ str "0" ++ str ") { };") in E.
        rewrite <- !app_assoc in E. apply app_inv_head in E.
        apply (size_read l ([] : bytes) x _ 41 _ _ bracket A decimal_zero) in E as [L _]. destruct l; [congruence|discriminate].
      + rewrite <- !app_assoc in E. apply app_inv_head in E.
        apply (size_read l l' x y 41 _ _ bracket A B) in E as [L E].
        apply (app_inv_head [32; 123]) in E.
        eapply (dumps_fields_read l H Pv Ov l' Pw Ow L) in E as [-> E]; [|eassumption|eassumption].
        apply app_inv_head in E. split; [reflexivity|]. injection E. auto.
  Qed.

  Lemma dump_injective v w t : 0 <= indent -> 0 <= hanging ->
    hanging + indent * Z.of_nat (depth v) < 2 ^ 64 -> hanging + indent * Z.of_nat (depth w) < 2 ^ 64 ->
    plain v -> plain w -> value_ok v -> value_ok w ->
    dump real_text opaque_text function_text indent hanging v = Ok t ->
    dump real_text opaque_text function_text indent hanging w = Ok t -> v = w.
  Proof.
    intros Hi Hh Hv Hw Pv Pw Ov Ow Ev Ew. apply dump_exact in Ev, Ew; auto.
    eapply (dread_back v Pv Ov 0%nat w t t [] []); eauto.
  Qed.

  (* ---------- lines ---------- *)
  Hypothesis Vr : forall r, visible (real_text r).
  Hypothesis Vo : forall i, visible (opaque_text i).
  Hypothesis Vf : forall i, visible (function_text i).

  Notation newlines t := (count_occ Z.eq_dec t 10).
  Lemma visible_lines t : visible t -> newlines t = 0%nat.
  Proof. intros H. apply count_occ_not_In. intros I. unfold visible in H. rewrite Forall_forall in H. apply H in I. lia. Qed.
  Lemma new_line_lines d : newlines (new_line d) = if indent =? 0 then 0%nat else 1%nat.
  Proof.
    unfold PrintSpec.new_line. destruct (indent =? 0); [reflexivity|]. cbn. f_equal.
    apply visible_lines, Forall_forall. intros x I. apply repeat_spec in I. lia.
  Qed.
  Ltac vis := unfold visible; cbn; repeat (constructor; [lia|]); constructor.
  Ltac plainly := rewrite ?count_occ_app, ?new_line_lines;
    repeat match goal with |- context [newlines (str ?s)] => rewrite (visible_lines (str s)) by vis end.

  Definition dlines (v : value) : Prop := value_ok v -> forall d t, dumps d v t ->
    newlines t = if indent =? 0 then 0%nat else breaks v.

  Lemma elements_lines l : Forall dlines l -> fold_right (fun v P => value_ok v /\ P) True l ->
    forall d i t, dumps_elements d i l t ->
    newlines t = if indent =? 0 then 0%nat else fold_right (fun v n => S (breaks v + n)) O l.
  Proof.
    induction 1 as [|v l Hv _ IH]; intros Ol d i t H; inversion H; subst; cbn [fold_right] in *; [now destruct (indent =? 0)|].
    destruct Ol as [Ov Ol]. plainly.
    match goal with D : decimal _ ?n |- _ => rewrite (visible_lines n) by (eapply decimal_visible; exact D) end.
    erewrite Hv by eassumption. erewrite IH by eassumption. destruct (indent =? 0); lia.
  Qed.
  Lemma fields_lines l : Forall (fun kv => dlines (snd kv)) l ->
    fold_right (fun kv P => all_bytes (fst kv) /\ value_ok (snd kv) /\ P) True l ->
    forall d t, dumps_fields d l t ->
    newlines t = if indent =? 0 then 0%nat else fold_right (fun kv n => S (breaks (snd kv) + n)) O l.
  Proof.
    induction 1 as [|[k v] l Hv _ IH]; intros Ol d t H; inversion H; subst; cbn [fold_right fst snd] in *; [now destruct (indent =? 0)|].
    destruct Ol as (Okk & Ov & Ol). plainly. rewrite (visible_lines (literal k)) by now apply literal_visible.
    erewrite Hv by eassumption. erewrite IH by eassumption. destruct (indent =? 0); lia.
  Qed.
  Lemma dump_lines v : dlines v.
  Proof.
    induction v using value_ind'; intros Ov d t H'; inversion H'; subst; cbn [value_ok] in Ov; plainly;
      try (now destruct (indent =? 0)).
    - erewrite visible_lines by (eapply integer_visible; eassumption). now destruct (indent =? 0).
    - rewrite visible_lines by apply Vr. now destruct (indent =? 0).
    - erewrite visible_lines by (eapply decimal_visible; eassumption). rewrite (visible_lines (literal s)) by apply literal_visible, Ov.
      now destruct (indent =? 0).
    - rewrite visible_lines by apply Vo. now destruct (indent =? 0).
    - rewrite visible_lines by apply Vf. now destruct (indent =? 0).
    - match goal with D : decimal _ ?n |- _ => rewrite (visible_lines n) by (eapply decimal_visible; exact D) end.
      erewrite elements_lines; [|exact H|apply Ov|eassumption]. destruct l; [congruence|]. cbn [breaks]. destruct (indent =? 0); lia.
    - match goal with D : decimal _ ?n |- _ => rewrite (visible_lines n) by (eapply decimal_visible; exact D) end.
      erewrite fields_lines; [|exact H|apply Ov|eassumption]. destruct l as [|p l]; [congruence|]. cbn [breaks]. destruct (indent =? 0); lia.
  Qed.
  Lemma dump_to_lines v t : 0 <= indent -> 0 <= hanging -> value_ok v ->
    hanging + indent * Z.of_nat (depth v) < 2 ^ 64 ->
    dump real_text opaque_text function_text indent hanging v = Ok t ->
    newlines t = if indent =? 0 then 0%nat else breaks v.
  Proof. intros Hi Hh Ov Hf E. apply dump_exact in E; auto. now apply (dump_lines v Ov 0%nat). Qed.
End Dump.
