From Verif Require Import Base Monad IniModel IniSpec IniProofs.
From Verif Require CsvProofs4.

Definition kv := (bytes * bytes)%type.
Definition ok_kv (p : kv) : Prop := key_ok (fst p) /\ clean (snd p).
Definition prop_lines (l : list kv) : list bytes := map (fun p => line_of (fst p) (snd p)) l.
Fixpoint sec_lines (any : bool) (Q : list (bytes * list kv)) : list bytes :=
  match Q with
  | [] => []
  | (k, l) :: Q => (if any then [[]] else []) ++ [[open_b] ++ k ++ [close_b]] ++ prop_lines l ++ sec_lines true Q
  end.
Definition strs (l : list kv) : list (bytes * item) := map (fun p => (fst p, IStr (snd p))) l.

(* the strings and the sections of an object *)
Fixpoint split_obj (o : object) : list kv * list (bytes * list kv) :=
  match o with
  | [] => ([], [])
  | (k, Scalar (IStr v)) :: o => let '(a, b) := split_obj o in ((k, v) :: a, b)
  | (k, Scalar _) :: o => split_obj o
  | (k, Section_ l) :: o =>
      let '(a, b) := split_obj o in
      (a, (k, concat (map (fun p => match snd p with IStr v => [(fst p, v)] | _ => [] end) l)) :: b)
  end.
Definition flat (l : list (bytes * item)) : list kv :=
  concat (map (fun p => match snd p with IStr v => [(fst p, v)] | _ => [] end) l).
Lemma flat_strs : forall l, (forall k i, In (k, i) l -> is_str i) -> l = strs (flat l).
Proof.
  induction l as [|[k i] l IH]; intros H; [reflexivity|]. destruct (H k i (or_introl eq_refl)) as [v ->].
  unfold flat. cbn [map concat snd fst app strs]. f_equal. apply IH. intros k' i' Hi. apply (H k'). right. assumption.
Qed.

Lemma fmt_property : forall k v r, format_property k (IStr v) = Ok r -> r = [line_of k v] /\ key_ok k /\ clean v.
Proof.
  intros k v r H. unfold format_property in H. destruct (check_scalar (IStr v)) as [b| |] eqn:E; [|discriminate|discriminate].
  apply check_ok in E. destruct E as [-> Hv]. cbn [obind] in H. destruct (format_key k) as [k'| |] eqn:Ek; [|discriminate|discriminate].
  apply format_key_ok in Ek. destruct Ek as [-> Hk]. injection H as <-. repeat split; try assumption; apply Hk || apply Hv.
Qed.
Lemma fmt_items : forall l a, format_items (strs l) = Ok a -> a = prop_lines l /\ Forall ok_kv l.
Proof.
  induction l as [|[k v] l IH]; intros a H; cbn [strs map fst snd format_items] in H.
  - injection H as <-. split; [reflexivity|constructor].
  - destruct (format_property k (IStr v)) as [x| |] eqn:E; [|discriminate|discriminate]. cbn [obind] in H.
    apply fmt_property in E. destruct E as [-> [Hk Hv]].
    change (map (fun p => (fst p, IStr (snd p))) l) with (strs l) in H.
    destruct (format_items (strs l)) as [y| |]; [|discriminate|discriminate]. destruct (IH y eq_refl) as [-> Hf].
    injection H as <-. split; [reflexivity|constructor; [split; assumption|assumption]].
Qed.
Definition typed (o : object) : Prop := forall k e, In (k, e) o ->
  match e with Scalar i => is_str i | Section_ l => forall k' i, In (k', i) l -> is_str i end.
Lemma fmt_root : forall o a, typed o -> format_root o = Ok a ->
  a = prop_lines (fst (split_obj o)) /\ Forall ok_kv (fst (split_obj o)).
Proof.
  induction o as [|[k e] o IH]; intros a Ht H.
  - injection H as <-. split; [reflexivity|constructor].
  - assert (Ht' : typed o) by (intros k' e' Hi; apply (Ht k'); right; assumption). cbn [format_root split_obj] in *.
    destruct e as [i|l].
    + destruct (Ht k (Scalar i) (or_introl eq_refl)) as [v ->].
      destruct (format_property k (IStr v)) as [x| |] eqn:E; [|discriminate|discriminate]. cbn [obind] in H.
      apply fmt_property in E. destruct E as [-> [Hk Hv]].
      destruct (format_root o) as [y| |]; [|discriminate|discriminate]. destruct (IH y Ht' eq_refl) as [-> Hf].
      injection H as <-. destruct (split_obj o) as [A B]. cbn [fst] in *. split; [reflexivity|].
      constructor; [split; assumption|assumption].
    + destruct (IH a Ht' H) as [-> Hf]. destruct (split_obj o) as [A B]. split; [reflexivity|assumption].
Qed.
Lemma fmt_sections : forall o any b, typed o -> format_sections any o = Ok b ->
  b = sec_lines any (snd (split_obj o)) /\ Forall (fun s => key_ok (fst s) /\ Forall ok_kv (snd s)) (snd (split_obj o)).
Proof.
  induction o as [|[k e] o IH]; intros any b Ht H.
  - injection H as <-. split; [reflexivity|constructor].
  - assert (Ht' : typed o) by (intros k' e' Hi; apply (Ht k'); right; assumption). cbn [format_sections split_obj] in *.
    destruct e as [i|l].
    + destruct (IH any b Ht' H) as [-> Hf]. destruct (Ht k (Scalar i) (or_introl eq_refl)) as [v ->].
      destruct (split_obj o) as [A B]. split; [reflexivity|assumption].
    + destruct (format_key k) as [k'| |] eqn:Ek; [|discriminate|discriminate]. apply format_key_ok in Ek. destruct Ek as [-> Hk].
      cbn [obind] in H. pose proof (Ht k (Section_ l) (or_introl eq_refl)) as Hl. cbn iota in Hl.
      pose proof (flat_strs l Hl) as Hfl. rewrite Hfl in H at 1.
      destruct (format_items (strs (flat l))) as [a| |] eqn:Ea; [|discriminate|discriminate]. apply fmt_items in Ea.
      destruct Ea as [-> Hfa]. cbn [obind] in H.
      destruct (format_sections true o) as [y| |] eqn:Ey; [|discriminate|discriminate].
      destruct (IH true y Ht' Ey) as [-> Hf]. injection H as <-. fold (flat l).
      destruct (split_obj o) as [A B]. cbn [fst snd] in *. split; [reflexivity|].
      constructor; [split; assumption|assumption].
Qed.

(* ---- reading back ---- *)
Definition crs (L : list bytes) : list bytes := map (fun l => l ++ [cr]) L.
Definition roots (l : list kv) : list (bytes * pval) := map (fun p => (fst p, PStr (snd p))) l.
Definition rsecs (Q : list (bytes * list kv)) : list (bytes * pval) := map (fun s => (fst s, PSec (snd s))) Q.

Lemma read_root : forall l b R rest, Forall ok_kv l -> NoDup (map fst R ++ map fst l) ->
  (b = true -> match l with p :: _ => forall k', fst p <> CsvProofs4.bom ++ k' | [] => True end) ->
  read_lines b None R (crs (prop_lines l) ++ rest)
  = read_lines (match l with [] => b | _ => false end) None (R ++ roots l) rest.
Proof.
  induction l as [|[k v] l IH]; intros b R rest Hf Hn Hb; [cbn; rewrite app_nil_r; reflexivity|].
  inversion Hf as [|? ? [Hk Hv] Hf2]; subst. cbn [fst snd] in *. cbn [prop_lines map crs app read_lines fst snd].
  assert (E : read_line b (line_of k v ++ [cr]) = Ok (Property k v)).
  { destruct b; [apply read_property_first; auto|apply read_property; assumption]. }
  rewrite E. cbn [obind]. rewrite assign_new.
  2:{ intros Hi. cbn [map] in Hn. apply NoDup_remove_2 in Hn. apply Hn. apply in_app_iff. left. exact Hi. }
  change (map (fun l0 => l0 ++ [cr]) (map (fun p => line_of (fst p) (snd p)) l)) with (crs (prop_lines l)).
  rewrite IH; [|assumption| |discriminate].
  - cbn [roots map fst snd]. rewrite <- app_assoc. destruct l; reflexivity.
  - rewrite map_app. cbn [map fst]. rewrite <- app_assoc. exact Hn.
Qed.
Lemma read_section : forall l k a R rest, Forall ok_kv l -> ~ In k (map fst R) -> NoDup (map fst a ++ map fst l) ->
  read_lines false (Some k) (R ++ [(k, PSec a)]) (crs (prop_lines l) ++ rest)
  = read_lines false (Some k) (R ++ [(k, PSec (a ++ l))]) rest.
Proof.
  induction l as [|[x v] l IH]; intros k a R rest Hf Hk Hn; [cbn; rewrite app_nil_r; reflexivity|].
  inversion Hf as [|? ? [Hx Hv] Hf2]; subst. cbn [fst snd] in *. cbn [prop_lines map crs app read_lines fst snd].
  rewrite read_property by assumption. cbn [obind]. rewrite lookup_mid by assumption. rewrite assign_mid by assumption.
  rewrite assign_new.
  2:{ intros Hi. cbn [map] in Hn. apply NoDup_remove_2 in Hn. apply Hn. apply in_app_iff. left. exact Hi. }
  change (map (fun l0 => l0 ++ [cr]) (map (fun p => line_of (fst p) (snd p)) l)) with (crs (prop_lines l)).
  rewrite IH; [rewrite <- app_assoc; reflexivity|assumption|assumption|].
  rewrite map_app. cbn [map fst]. rewrite <- app_assoc. exact Hn.
Qed.
Lemma read_sections : forall Q b any sink R, Forall (fun s => key_ok (fst s) /\ Forall ok_kv (snd s)) Q ->
  NoDup (map fst R ++ map fst Q) -> Forall (fun s => NoDup (map fst (snd s))) Q ->
  read_lines b sink R (crs (sec_lines any Q)) = Ok (R ++ rsecs Q).
Proof.
  induction Q as [|[k l] Q IH]; intros b any sink R Hf Hn Hd; [cbn; rewrite app_nil_r; reflexivity|].
  inversion Hf as [|? ? [Hk Hl] Hf2]; subst. inversion Hd as [|? ? Hd1 Hd2]; subst. cbn [fst snd] in *.
  assert (Hnk : ~ In k (map fst R)).
  { intros Hi. cbn [map] in Hn. apply NoDup_remove_2 in Hn. apply Hn. apply in_app_iff. left. exact Hi. }
  assert (Hgo : forall b, read_lines b sink R (crs ([[open_b] ++ k ++ [close_b]] ++ prop_lines l ++ sec_lines true Q)) = Ok (R ++ rsecs ((k, l) :: Q))).
  { intros b'. cbn [app]. change (crs ((open_b :: k ++ [close_b]) :: prop_lines l ++ sec_lines true Q))
      with ((([open_b] ++ k ++ [close_b]) ++ [cr]) :: crs (prop_lines l ++ sec_lines true Q)).
    cbn [read_lines]. rewrite read_header by assumption. cbn [obind]. rewrite lookup_none by assumption.
    rewrite assign_new by assumption. unfold crs at 1. rewrite map_app. fold (crs (prop_lines l)). fold (crs (sec_lines true Q)).
    rewrite read_section; [|assumption|assumption|exact Hd1]. cbn [app].
    rewrite IH; [|assumption| |assumption].
    - cbn [rsecs map fst snd]. rewrite <- app_assoc. reflexivity.
    - rewrite map_app. cbn [map fst]. rewrite <- app_assoc. exact Hn. }
  cbn [sec_lines]. destruct any.
  - cbn [app]. change (crs ([] :: (open_b :: k ++ [close_b]) :: prop_lines l ++ sec_lines true Q))
      with (([] ++ [cr]) :: crs ([[open_b] ++ k ++ [close_b]] ++ prop_lines l ++ sec_lines true Q)).
    cbn [read_lines]. rewrite read_blank. cbn [obind]. apply Hgo.
  - apply Hgo.
Qed.

(* ---- the pieces of an object ---- *)
Lemma split_str : forall o k v, typed o -> (In (k, v) (fst (split_obj o)) <-> has_str o k v).
Proof.
  induction o as [|[x e] o IH]; intros k v Ht; [split; intros []|].
  assert (Ht' : typed o) by (intros k' e' Hi; apply (Ht k'); right; assumption). unfold has_str in *. cbn [split_obj].
  specialize (IH k v Ht'). destruct e as [i|l].
  - destruct (Ht x (Scalar i) (or_introl eq_refl)) as [w ->]. destruct (split_obj o) as [A B]. cbn [fst In] in *.
    split; (intros [H|H]; [left; congruence|right; tauto]).
  - destruct (split_obj o) as [A B]. cbn [fst In] in *. split; [intros H; right; tauto|intros [H|H]; [discriminate|tauto]].
Qed.
Lemma split_sec : forall o k l, typed o -> (In (k, l) (snd (split_obj o)) <-> exists l', In (k, Section_ l') o /\ l = flat l').
Proof.
  induction o as [|[x e] o IH]; intros k l Ht.
  - split; [intros []|intros [? [[] _]]].
  - assert (Ht' : typed o) by (intros k' e' Hi; apply (Ht k'); right; assumption). cbn [split_obj].
    specialize (IH k l Ht'). destruct e as [i|l0].
    + destruct (Ht x (Scalar i) (or_introl eq_refl)) as [w ->]. destruct (split_obj o) as [A B]. cbn [snd] in *. rewrite IH.
      split; [intros [l' [H1 H2]]; exists l'; split; [right; assumption|assumption]|].
      intros [l' [[H1|H1] H2]]; [discriminate|exists l'; auto].
    + fold (flat l0). destruct (split_obj o) as [A B]. cbn [snd In] in *. rewrite IH. split.
      * intros [H|[l' [H1 H2]]]; [|exists l'; split; [right; assumption|assumption]]. injection H as <- <-.
        exists l0. split; [left; reflexivity|reflexivity].
      * intros [l' [[H1|H1] H2]]; [left; injection H1 as -> ->; rewrite H2; reflexivity|right; exists l'; auto].
Qed.
Lemma flat_in : forall l k v, In (k, v) (flat l) <-> In (k, IStr v) l.
Proof.
  induction l as [|[x i] l IH]; intros k v; [split; intros []|]. unfold flat in *. cbn [map concat fst snd].
  rewrite in_app_iff, IH. destruct i; simpl; intuition congruence.
Qed.
Lemma keys_split : forall o, NoDup (map fst o) -> NoDup (map fst (fst (split_obj o)) ++ map fst (snd (split_obj o)))
  /\ (forall k, In k (map fst (fst (split_obj o)) ++ map fst (snd (split_obj o))) -> In k (map fst o)).
Proof.
  induction o as [|[x e] o IH]; intros H; [split; [constructor|intros k []]|]. cbn [map fst] in H. apply NoDup_cons_iff in H.
  destruct H as [H1 H2]. destruct (IH H2) as [I1 I2]. cbn [split_obj].
  destruct e as [[v|t|]|l]; destruct (split_obj o) as [A B]; cbn [fst snd map] in *.
  - split; [cbn [app]; constructor; auto|]. intros k [Hk|Hk]; [left; assumption|right; auto].
  - split; [assumption|intros k Hk; right; auto].
  - split; [assumption|intros k Hk; right; auto].
  - split.
    + apply NoDup_Add with (a := x) (l := map fst A ++ map fst B); [apply Add_app|]. split; auto.
    + intros k Hk. apply in_app_iff in Hk. destruct Hk as [Hk|[Hk|Hk]]; [right; apply I2; apply in_app_iff; auto|left; assumption|right; apply I2; apply in_app_iff; auto].
Qed.
Lemma flat_nodup : forall l, NoDup (map fst l) -> NoDup (map fst (flat l)).
Proof.
  induction l as [|[x i] l IH]; intros H; [constructor|]. cbn [map fst] in H. apply NoDup_cons_iff in H. destruct H as [H1 H2].
  unfold flat in *. cbn [map concat snd fst]. destruct i; cbn [app map fst]; auto. constructor; [|auto].
  intros Hi. apply H1. apply in_map_iff in Hi. destruct Hi as [[a b] [E Hi]]. cbn [fst] in E. subst a.
  apply flat_in in Hi. apply (in_map fst) in Hi. exact Hi.
Qed.
Lemma typed_of : forall o, strings_only o -> typed o.
Proof. intros o [_ H] k e Hi. specialize (H k e Hi). destruct e; [assumption|apply H]. Qed.

Lemma lines_of : forall o text, strings_only o -> ini_format o = Ok text ->
  exists L, text = concat (map (fun l => l ++ [cr; lf]) L)
    /\ (exists any, L = prop_lines (fst (split_obj o)) ++ sec_lines any (snd (split_obj o)))
    /\ Forall ok_kv (fst (split_obj o))
    /\ Forall (fun s => key_ok (fst s) /\ Forall ok_kv (snd s)) (snd (split_obj o)).
Proof.
  intros o text Hs H. unfold ini_format in H. pose proof (typed_of o Hs) as Ht.
  destruct (format_root o) as [a| |] eqn:Ea; [|discriminate|discriminate]. cbn [obind] in H.
  destruct (fmt_root o a Ht Ea) as [-> Hf].
  destruct (format_sections _ o) as [b| |] eqn:Eb; [|discriminate|discriminate]. cbn [obind] in H.
  destruct (fmt_sections o _ b Ht Eb) as [Hb Hf2]. injection H as <-. eexists. split; [reflexivity|].
  split; [eexists; rewrite Hb; reflexivity|]. split; assumption.
Qed.

Lemma one_line_line : forall k v, one_line k -> one_line v -> one_line (line_of k v).
Proof. intros k v Hk Hv. unfold line_of, one_line in *. rewrite in_app_iff. simpl. unfold eq_sign. intuition congruence. Qed.
Lemma prop_one : forall l, (forall k v, In (k, v) l -> one_line k /\ one_line v) -> Forall one_line (prop_lines l).
Proof.
  intros l H. apply Forall_forall. intros x Hx. apply in_map_iff in Hx. destruct Hx as [[k v] [<- Hi]].
  apply one_line_line; apply (H _ _ Hi).
Qed.
Lemma sec_one : forall Q any, (forall k l, In (k, l) Q -> one_line k /\ forall k' v, In (k', v) l -> one_line k' /\ one_line v) ->
  Forall one_line (sec_lines any Q).
Proof.
  induction Q as [|[k l] Q IH]; intros any H; [constructor|]. cbn [sec_lines].
  destruct (H k l (or_introl eq_refl)) as [H1 H2]. apply Forall_app. split; [destruct any; repeat constructor; intros []|].
  cbn [app]. constructor.
  - unfold one_line in *. cbn [In]. rewrite in_app_iff. unfold open_b, close_b. simpl. intuition congruence.
  - apply Forall_app. split; [apply prop_one; assumption|]. apply IH. intros k' l' Hi. apply (H k'). right. assumption.
Qed.
Lemma all_one : forall o any, strings_only o -> lines_ok o ->
  Forall one_line (prop_lines (fst (split_obj o)) ++ sec_lines any (snd (split_obj o))).
Proof.
  intros o any Hs [H1 [H2 H3]]. pose proof (typed_of o Hs) as Ht. apply Forall_app. split.
  - apply prop_one. intros k v Hi. apply H1. apply split_str; assumption.
  - apply sec_one. intros k l Hi. apply split_sec in Hi; [|assumption]. destruct Hi as [l' [Hi ->]].
    split; [apply H2; exists l'; assumption|]. intros k' v Hv. apply flat_in in Hv. apply (H3 k). exists l'. auto.
Qed.

(* the key of the first string *)
Lemma first_key : forall o, typed o -> match fst (split_obj o) with
  | p :: _ => exists a i q, o = a ++ (fst p, Scalar i) :: q /\ Forall (fun x => exists l, snd x = Section_ l) a
  | [] => True end.
Proof.
  induction o as [|[x e] o IH]; intros Ht; [exact I|].
  assert (Ht' : typed o) by (intros k' e' Hi; apply (Ht k'); right; assumption). cbn [split_obj]. specialize (IH Ht').
  destruct e as [i|l].
  - destruct (Ht x (Scalar i) (or_introl eq_refl)) as [w ->]. destruct (split_obj o) as [A B]. cbn [fst].
    exists [], (IStr w), o. split; [reflexivity|constructor].
  - destruct (split_obj o) as [A B]. cbn [fst] in *. destruct A as [|p A]; [exact I|].
    destruct IH as [a [i [q [-> Hf]]]]. exists ((x, Section_ l) :: a), i, q. split; [reflexivity|].
    constructor; [exists l; reflexivity|assumption].
Qed.
Lemma first_key2 : forall a k i q, typed (a ++ (k, Scalar i) :: q) -> Forall (fun x => exists l, snd x = Section_ l) a ->
  exists v A, fst (split_obj (a ++ (k, Scalar i) :: q)) = (k, v) :: A.
Proof.
  induction a as [|[x e] a IH]; intros k i q Ht Hf.
  - destruct (Ht k (Scalar i) (or_introl eq_refl)) as [w ->]. cbn [app split_obj]. destruct (split_obj q) as [A B]. eexists _, _. reflexivity.
  - inversion Hf as [|? ? [l Hl] Hf2]; subst. cbn [snd] in Hl. subst e. cbn [app split_obj].
    destruct (IH k i q) as [v [A E]]; [intros k' e' Hi; apply (Ht k'); right; assumption|assumption|].
    destruct (split_obj (a ++ (k, Scalar i) :: q)) as [A' B']. cbn [fst] in *. exists v, A. assumption.
Qed.

Lemma same_split : forall o, typed o -> same (roots (fst (split_obj o)) ++ rsecs (snd (split_obj o))) o.
Proof.
  intros o Ht. split; [|split].
  - intros k v. rewrite <- (split_str o k v Ht). unfold got_str. rewrite in_app_iff. unfold roots, rsecs. rewrite !in_map_iff. split.
    + intros [[[a b] [E H]]|[[a b] [E H]]]; [injection E as <- <-; assumption|discriminate].
    + intros H. left. exists (k, v). auto.
  - intros k. unfold got_sec, has_sec. split.
    + intros [l H]. apply in_app_iff in H. destruct H as [H|H]; apply in_map_iff in H; destruct H as [[a b] [E H]]; [discriminate|].
      injection E as <- <-. apply split_sec in H; [|assumption]. destruct H as [l' [H _]]. exists l'. assumption.
    + intros [l H]. exists (flat l). apply in_app_iff. right. apply in_map_iff. exists (k, flat l). split; [reflexivity|].
      apply split_sec; [assumption|]. exists l. auto.
  - intros s k v. unfold got_in, has_in. split.
    + intros [l [H Hi]]. apply in_app_iff in H. destruct H as [H|H]; apply in_map_iff in H; destruct H as [[a b] [E H]]; [discriminate|].
      injection E as <- <-. apply split_sec in H; [|assumption]. destruct H as [l' [H ->]]. exists l'. split; [assumption|].
      apply flat_in. assumption.
    + intros [l [H Hi]]. exists (flat l). split; [|apply flat_in; assumption]. apply in_app_iff. right. apply in_map_iff.
      exists (s, flat l). split; [reflexivity|]. apply split_sec; [assumption|]. exists l. auto.
Qed.

Lemma nodup_left : forall (a b : list bytes), NoDup (a ++ b) -> NoDup a.
Proof.
  induction a as [|x a IH]; intros b H; [constructor|]. cbn [app] in H. apply NoDup_cons_iff in H. destruct H as [H1 H2].
  constructor; [intros Hi; apply H1; apply in_app_iff; left; assumption|eapply IH; exact H2].
Qed.
Lemma survive : forall o text, strings_only o -> ini_format o = Ok text -> lines_ok o -> mark_ok o ->
  exists m, ini_parse text = Ok m /\ same m o.
Proof.
  intros o text Hs H Hl Hm. pose proof (typed_of o Hs) as Ht. destruct (lines_of o text Hs H) as [L [-> [[any ->] [Hf1 Hf2]]]].
  exists (roots (fst (split_obj o)) ++ rsecs (snd (split_obj o))). split; [|apply same_split; assumption].
  unfold ini_parse. rewrite lines_crlf by (apply all_one; assumption). rewrite map_app.
  fold (crs (prop_lines (fst (split_obj o)))). fold (crs (sec_lines any (snd (split_obj o)))).
  destruct (keys_split o (proj1 Hs)) as [Hn _]. rewrite read_root.
  - cbn [app]. apply read_sections; [assumption| |].
    + unfold roots. rewrite map_map. cbn [fst]. exact Hn.
    + apply Forall_forall. intros [k l] Hi. apply split_sec in Hi; [|assumption]. destruct Hi as [l' [Hi ->]]. cbn [snd].
      apply flat_nodup. apply (proj2 Hs) in Hi. apply Hi.
  - assumption.
  - cbn [map app]. eapply nodup_left. exact Hn.
  - intros _. pose proof (first_key o Ht) as Hk. destruct (fst (split_obj o)) as [|p A]; [exact I|].
    destruct Hk as [a [i [q [E Hfa]]]]. intros k'. exact (Hm a (fst p) i q E Hfa k').
Qed.

(* ---- conversely ---- *)
Lemma survive_lines : forall o text m, strings_only o -> ini_parse text = Ok m -> same m o -> lines_ok o.
Proof.
  intros o text m Hs H [S1 [S2 S3]]. assert (Hf : lf_free m).
  { unfold ini_parse in H. apply read_lines_free in H; [assumption| |intros k e []]. apply lines_free. intros []. }
  split; [|split].
  - intros k v Hh. apply S1 in Hh. exact (Hf _ _ Hh).
  - intros k Hh. apply S2 in Hh. destruct Hh as [l Hh]. apply (Hf _ _ Hh).
  - intros s k v Hh. apply S3 in Hh. destruct Hh as [l [H1 H2]]. exact (proj2 (Hf _ _ H1) k v H2).
Qed.

(* keys of strings at the root come from properties at the root *)
Lemma strs_in_section : forall ls b k0 R m k v, read_lines b (Some k0) R ls = Ok m -> In (k, PStr v) m -> In (k, PStr v) R.
Proof.
  induction ls as [|line ls IH]; intros b k0 R m k v H Hi; [injection H as <-; assumption|]. cbn [read_lines] in H.
  destruct (read_line b line) as [w| |]; [|discriminate|discriminate]. cbn [obind] in H. destruct w as [|x|x y].
  - eapply IH; eassumption.
  - destruct (lookup x R) as [[s|l]|]; [discriminate| |].
    + eapply IH; [exact H|exact Hi].
    + pose proof (IH _ _ _ _ _ _ H Hi) as Hj. apply assign_in in Hj. destruct Hj as [[_ Hj]|Hj]; [discriminate|assumption].
  - destruct (lookup k0 R) as [[s|l]|]; [discriminate| |discriminate].
    pose proof (IH _ _ _ _ _ _ H Hi) as Hj. apply assign_in in Hj. destruct Hj as [[_ Hj]|Hj]; [discriminate|assumption].
Qed.
Lemma strs_sec_lines : forall Q any b R m k v, Forall (fun s => key_ok (fst s)) Q ->
  read_lines b None R (crs (sec_lines any Q)) = Ok m -> In (k, PStr v) m -> In (k, PStr v) R.
Proof.
  intros [|[x l] Q] any b R m k v Hf H Hi; [injection H as <-; assumption|]. inversion Hf as [|? ? Hx _]; subst. cbn [fst] in Hx.
  assert (Hgo : forall b T, read_lines b None R ((([open_b] ++ x ++ [close_b]) ++ [cr]) :: T) = Ok m -> In (k, PStr v) R).
  { intros b' T H'. cbn [read_lines] in H'. rewrite read_header in H' by assumption. cbn [obind] in H'.
    destruct (lookup x R) as [[s|l']|]; [discriminate| |].
    - eapply strs_in_section; eassumption.
    - pose proof (strs_in_section _ _ _ _ _ _ _ H' Hi) as Hj. apply assign_in in Hj. destruct Hj as [[_ Hj]|Hj]; [discriminate|assumption]. }
  cbn [sec_lines] in H. destruct any.
  - cbn [app crs map] in H. change ([cr]) with (@nil Z ++ [cr]) in H at 1. cbn [read_lines] in H. rewrite read_blank in H. cbn [obind] in H.
    eapply Hgo. exact H.
  - eapply Hgo. exact H.
Qed.
(* reading properties only adds their keys *)
Lemma read_root_keys : forall l R rest m, Forall ok_kv l ->
  read_lines false None R (crs (prop_lines l) ++ rest) = Ok m ->
  exists R', read_lines false None R' rest = Ok m /\ forall k v, In (k, PStr v) R' -> In (k, PStr v) R \/ In k (map fst l).
Proof.
  induction l as [|[x y] l IH]; intros R rest m Hf H.
  - exists R. split; [exact H|auto].
  - inversion Hf as [|? ? [Hx Hy] Hf2]; subst. cbn [fst snd] in *. cbn [prop_lines map crs app read_lines fst snd] in H.
    rewrite read_property in H by assumption. cbn [obind] in H.
    change (map (fun l0 => l0 ++ [cr]) (map (fun p => line_of (fst p) (snd p)) l)) with (crs (prop_lines l)) in H.
    destruct (IH _ _ _ Hf2 H) as [R' [H1 H2]]. exists R'. split; [assumption|]. intros k v Hi.
    destruct (H2 k v Hi) as [Hj|Hj]; [|right; right; assumption]. apply assign_in in Hj.
    destruct Hj as [[-> _]|Hj]; [right; left; reflexivity|left; assumption].
Qed.

Lemma strip_comment_app : forall a b, (forall c, In c a -> is_comment c = false) -> strip_comment (a ++ b) = a ++ strip_comment b.
Proof.
  induction a as [|c a IH]; intros b H; [reflexivity|]. cbn [app strip_comment]. rewrite (H c (or_introl eq_refl)).
  rewrite IH; [reflexivity|]. intros d Hd. apply H. right. assumption.
Qed.
(* what the parser makes of a key after a byte order mark is shorter *)
Lemma read_marked : forall k' v w, key_ok (CsvProofs4.bom ++ k') -> clean v ->
  read_line true (line_of (CsvProofs4.bom ++ k') v ++ [cr]) = Ok w ->
  match w with Property k'' _ => k'' <> CsvProofs4.bom ++ k' | Blank => True | Header _ => False end.
Proof.
  intros k' v w [_ Hck] Hcv H. unfold read_line in H.
  assert (Hs : strip_bom (line_of (CsvProofs4.bom ++ k') v ++ [cr]) = line_of k' v ++ [cr]).
  { unfold strip_bom, line_of. rewrite <- !app_assoc. apply CsvProofs4.strip_bom_app. }
  rewrite Hs, strip_cr_end in H. cbv zeta in H. clear Hs.
  assert (Hk : forall c, In c k' -> is_reject c = false) by (intros c Hc; apply (clean_in _ _ Hck); apply in_app_iff; right; assumption).
  rewrite strip_comment_id in H.
  2:{ intros c Hc. unfold line_of in Hc. apply in_app_iff in Hc. destruct Hc as [Hc|[<-|Hc]]; [apply reject_comment; auto|reflexivity|].
      apply reject_comment. apply (clean_in v); assumption. }
  assert (Hlt : forall t, ltrim (k' ++ eq_sign :: t) = ltrim k' ++ eq_sign :: t).
  { clear. induction k' as [|c k' IH]; intros t; [reflexivity|]. cbn [app ltrim]. destruct (is_space c); [apply IH|reflexivity]. }
  unfold line_of in H. cbn [app] in H. rewrite Hlt in H.
  assert (Hr : rtrim (ltrim k' ++ eq_sign :: v) = ltrim k' ++ eq_sign :: v).
  { apply rtrim_id. change (eq_sign :: v) with ([eq_sign] ++ v). destruct v as [|c v]; [rewrite app_nil_r, last_is_app; reflexivity|].
    rewrite app_assoc, last_is_app2 by discriminate. apply Hcv. }
  rewrite Hr in H. destruct (ltrim k' ++ eq_sign :: v) as [|d t] eqn:E; [injection H as <-; exact I|]. rewrite <- E in H.
  assert (Hk2 : forall c, In c (ltrim k') -> is_reject c = false) by (intros c Hc; apply Hk; apply ltrim_in; assumption).
  assert (Hb : first_is (Z.eqb open_b) (ltrim k' ++ eq_sign :: v) = false).
  { destruct (ltrim k') as [|c r]; [reflexivity|]. cbn [app first_is]. destruct (open_b =? c) eqn:Ec; [|reflexivity].
    apply Z.eqb_eq in Ec. subst c. specialize (Hk2 open_b (or_introl eq_refl)). discriminate. }
  rewrite Hb in H. rewrite split_eq_app in H by (intros Hi; apply Hk2 in Hi; discriminate).
  destruct (rtrim (ltrim k')) as [|e r] eqn:Er; [discriminate|]. injection H as <-.
  intros He. apply (f_equal (@length Z)) in He. rewrite <- Er in He. rewrite app_length in He.
  pose proof (rtrim_len (ltrim k')). pose proof (ltrim_len k'). change (length CsvProofs4.bom) with 3%nat in He. lia.
Qed.

Lemma survive_mark : forall o text m, strings_only o -> ini_format o = Ok text -> lines_ok o ->
  ini_parse text = Ok m -> same m o -> mark_ok o.
Proof.
  intros o text m Hs H Hl Hp Hsame a k i q Eo Hfa k' Ek. pose proof (typed_of o Hs) as Ht.
  destruct (lines_of o text Hs H) as [L [-> [[any ->] [Hf1 Hf2]]]].
  assert (Hfst : exists v A, fst (split_obj o) = (k, v) :: A) by (rewrite Eo; apply first_key2; [rewrite <- Eo; assumption|assumption]).
  destruct Hfst as [v [A EA]].
  assert (Hm : got_str m k v). { apply Hsame. apply split_str; [assumption|]. rewrite EA. left. reflexivity. }
  unfold ini_parse in Hp. rewrite lines_crlf in Hp by (apply all_one; assumption). rewrite map_app in Hp.
  fold (crs (prop_lines (fst (split_obj o)))) in Hp. fold (crs (sec_lines any (snd (split_obj o)))) in Hp.
  destruct (keys_split o (proj1 Hs)) as [Hn _]. rewrite EA in Hp, Hn, Hf1. inversion Hf1 as [|? ? [Hk Hv] Hf1']; subst. cbn [fst snd] in Hk, Hv.
  cbn [prop_lines crs map fst snd app] in Hp. cbn [read_lines] in Hp.
  match type of Hp with context [read_line true ?l] => destruct (read_line true l) as [w| |] eqn:Ew; [|discriminate|discriminate] end.
  cbn [obind] in Hp. pose proof (read_marked k' v w Hk Hv Ew) as Hw.
  match type of Hp with context [map _ (map _ A)] => change (map (fun l0 => l0 ++ [cr]) (map (fun p => line_of (fst p) (snd p)) A)) with (crs (prop_lines A)) in Hp end.
  assert (HnA : ~ In (CsvProofs4.bom ++ k') (map fst A)).
  { cbn [map fst app] in Hn. apply NoDup_cons_iff in Hn. intros Hi. apply (proj1 Hn). apply in_app_iff. left. exact Hi. }
  assert (Hgo : forall R, (forall u x, In (u, PStr x) R -> u <> CsvProofs4.bom ++ k') ->
    read_lines false None R (crs (prop_lines A) ++ crs (sec_lines any (snd (split_obj (a ++ ([239; 187; 191] ++ k', Scalar i) :: q))))) = Ok m -> False).
  { intros R HR Hrd. destruct (read_root_keys _ _ _ _ Hf1' Hrd) as [R' [H1 H2]].
    assert (Hx : In ([239; 187; 191] ++ k', PStr v) R').
    { eapply strs_sec_lines; [|exact H1|exact Hm]. eapply Forall_impl; [|exact Hf2]. intros s Hs2. apply Hs2. }
    destruct (H2 _ _ Hx) as [Hy|Hy]; [exact (HR _ _ Hy eq_refl)|exact (HnA Hy)]. }
  destruct w as [|h|h y].
  - eapply Hgo; [|exact Hp]. intros u x [].
  - destruct Hw.
  - eapply Hgo; [|exact Hp]. intros u x Hi. apply assign_in in Hi. destruct Hi as [[-> _]|[]]. exact Hw.
Qed.

Theorem round_trip : forall o text, strings_only o -> ini_format o = Ok text ->
  ((exists m, ini_parse text = Ok m /\ same m o) <-> lines_ok o /\ mark_ok o).
Proof.
  intros o text Hs H. split.
  - intros [m [Hp Hsm]]. assert (Hl : lines_ok o) by (eapply survive_lines; eassumption). split; [assumption|].
    eapply survive_mark; eassumption.
  - intros [Hl Hm]. eapply survive; eassumption.
Qed.

(* ---- which texts are defined ---- *)
Lemma read_line_defined : forall b l, read_line b l <> UB.
Proof.
  intros b l H. unfold read_line in H. cbv zeta in H.
  destruct (ltrim (strip_comment (strip_cr (if b then strip_bom l else l)))) as [|d t]; [discriminate|].
  set (x := rtrim (d :: t)) in H. clearbody x. destruct (first_is (Z.eqb open_b) x).
  - destruct (negb (last_is (Z.eqb close_b) x)); [discriminate|]. destruct (ltrim (removelast (tl x))); discriminate.
  - destruct (split_eq x) as [[u v]|]; [|discriminate]. destruct (rtrim u); discriminate.
Qed.
