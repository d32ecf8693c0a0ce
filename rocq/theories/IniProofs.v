From Verif Require Import Base Monad IniModel IniSpec.
From Verif Require CsvModel CsvProofs2 CsvProofs4.

Lemma existsb_false : forall (f : Z -> bool) s, existsb f s = false <-> forall c, In c s -> f c = false.
Proof.
  intros f s. split.
  - intros H c Hc. destruct (f c) eqn:E; [|reflexivity].
    assert (existsb f s = true) by (apply existsb_exists; eauto). congruence.
  - intros H. destruct (existsb f s) eqn:E; [|reflexivity]. apply existsb_exists in E. destruct E as [c [Hc Hf]].
    rewrite H in Hf by assumption. discriminate.
Qed.

(* ---- strings which the formatter accepts ---- *)
Definition clean (s : bytes) : Prop :=
  (forall c, In c s -> is_reject c = false) /\ first_is is_space s = false /\ last_is is_space s = false.
Definition key_ok (k : bytes) : Prop := k <> [] /\ clean k.

Lemma format_key_ok : forall k r, format_key k = Ok r -> r = k /\ key_ok k.
Proof.
  intros k r H. unfold format_key in H. destruct k as [|c k]; [discriminate|]. set (s := c :: k) in *.
  destruct (existsb is_reject s) eqn:E1; [discriminate|]. destruct (first_is is_space s) eqn:E2; [discriminate|].
  destruct (last_is is_space s) eqn:E3; [discriminate|]. injection H as <-. split; [reflexivity|].
  split; [discriminate|]. split; [apply existsb_false; assumption|]. split; assumption.
Qed.
Lemma check_ok : forall s b, check_scalar (IStr s) = Ok b -> b = true /\ clean s.
Proof.
  intros s b H. destruct s as [|c s].
  - injection H as <-. split; [reflexivity|]. split; [intros c []|]. split; reflexivity.
  - unfold check_scalar in H. set (t := c :: s) in *.
    destruct (existsb is_reject t) eqn:E1; [discriminate|]. destruct (first_is is_space t) eqn:E2; [discriminate|].
    destruct (last_is is_space t) eqn:E3; [discriminate|]. injection H as <-. split; [reflexivity|].
    split; [apply existsb_false; assumption|]. split; assumption.
Qed.

(* ---- trimming ---- *)
Lemma ltrim_id : forall s, first_is is_space s = false -> ltrim s = s.
Proof. intros [|c s] H; [reflexivity|]. simpl in *. rewrite H. reflexivity. Qed.
Lemma rtrim_id : forall s, last_is is_space s = false -> rtrim s = s.
Proof. intros s H. unfold rtrim. rewrite ltrim_id by exact H. apply rev_involutive. Qed.
Lemma ltrim_in : forall s c, In c (ltrim s) -> In c s.
Proof.
  induction s as [|x s IH]; intros c H; [assumption|]. simpl in H. destruct (is_space x); [right; auto|assumption].
Qed.
Lemma ltrim_len : forall s, (length (ltrim s) <= length s)%nat.
Proof. induction s as [|x s IH]; [simpl; lia|]. simpl. destruct (is_space x); simpl; lia. Qed.
Lemma rtrim_in : forall s c, In c (rtrim s) -> In c s.
Proof. intros s c H. unfold rtrim in H. apply in_rev in H. apply ltrim_in in H. apply in_rev. assumption. Qed.
Lemma rtrim_len : forall s, (length (rtrim s) <= length s)%nat.
Proof. intros s. unfold rtrim. rewrite rev_length. pose proof (ltrim_len (rev s)). rewrite rev_length in H. assumption. Qed.
Lemma strip_comment_id : forall s, (forall c, In c s -> is_comment c = false) -> strip_comment s = s.
Proof.
  induction s as [|c s IH]; intros H; [reflexivity|]. simpl. rewrite (H c (or_introl eq_refl)).
  rewrite IH; [reflexivity|]. intros d Hd. apply H. right. assumption.
Qed.
Lemma strip_comment_in : forall s c, In c (strip_comment s) -> In c s.
Proof.
  induction s as [|x s IH]; intros c H; [assumption|]. simpl in H. destruct (is_comment x); [destruct H|].
  destruct H as [->|H]; [left; reflexivity|right; auto].
Qed.
Lemma strip_cr_in : forall s c, In c (strip_cr s) -> In c s.
Proof.
  unfold strip_cr. induction s as [|x s IH]; intros c H; [assumption|]. cbn [CsvModel.strip_cr] in H. destruct s as [|y s].
  - destruct (x =? CsvModel.cr); [destruct H|assumption].
  - destruct H as [->|H]; [left; reflexivity|]. right. apply IH. assumption.
Qed.
Lemma strip_bom_in : forall s c, In c (strip_bom s) -> In c s.
Proof.
  intros s c H. unfold strip_bom in H. destruct (CsvProofs4.strip_bom_cases s) as [[u Hu]|Hu]; [|congruence].
  rewrite Hu in H |- *. rewrite CsvProofs4.strip_bom_app in H. apply in_app_iff. auto.
Qed.
Lemma reject_comment : forall c, is_reject c = false -> is_comment c = false.
Proof.
  intros c H. unfold is_reject, is_comment in *. simpl in *. rewrite !Bool.orb_false_iff in *. tauto.
Qed.
Lemma split_eq_app : forall a b, ~ In eq_sign a -> split_eq (a ++ eq_sign :: b) = Some (a, b).
Proof.
  induction a as [|c a IH]; intros b H; [reflexivity|]. cbn [app split_eq].
  destruct (c =? eq_sign) eqn:E; [apply Z.eqb_eq in E; exfalso; apply H; left; congruence|].
  rewrite IH by (intros Hi; apply H; right; assumption). reflexivity.
Qed.
Lemma split_eq_some : forall s a b, split_eq s = Some (a, b) -> s = a ++ eq_sign :: b.
Proof.
  induction s as [|c s IH]; intros a b H; [discriminate|]. cbn [split_eq] in H. destruct (c =? eq_sign) eqn:E.
  - injection H as <- <-. apply Z.eqb_eq in E. subst. reflexivity.
  - destruct (split_eq s) as [[a' b']|]; [|discriminate]. injection H as <- <-. rewrite (IH a' b' eq_refl). reflexivity.
Qed.
Lemma removelast_in : forall (s : bytes) c, In c (removelast s) -> In c s.
Proof.
  induction s as [|x s IH]; intros c H; [assumption|]. simpl in H. destruct s as [|y s]; [destruct H|].
  destruct H as [->|H]; [left; reflexivity|right; auto].
Qed.
Lemma strip_cr_end : forall s, strip_cr (s ++ [cr]) = s.
Proof. exact CsvProofs2.strip_cr_end. Qed.

Lemma last_is_app : forall f a c, last_is f (a ++ [c]) = f c.
Proof. intros f a c. unfold last_is. rewrite rev_app_distr. reflexivity. Qed.
Lemma first_is_app : forall f a b, a <> [] -> first_is f (a ++ b) = first_is f a.
Proof. intros f [|c a] b H; [congruence|reflexivity]. Qed.
Lemma last_is_app2 : forall f a b, b <> [] -> last_is f (a ++ b) = last_is f b.
Proof.
  intros f a b H. unfold last_is. rewrite rev_app_distr. apply first_is_app.
  intros He. apply H. apply (f_equal (@rev Z)) in He. rewrite rev_involutive in He. exact He.
Qed.

(* ---- lines ---- *)
Definition line_of (k v : bytes) : bytes := k ++ [eq_sign] ++ v.
Lemma clean_in : forall s c, clean s -> In c s -> is_reject c = false.
Proof. intros s c [H _]. apply H. Qed.
Lemma read_property' : forall k v, key_ok k -> clean v ->
  forall line, line = line_of k v ->
  match ltrim (strip_comment line) with
  | [] => Ok Blank
  | _ =>
      let line := rtrim (ltrim (strip_comment line)) in
      if first_is (Z.eqb open_b) line then
        if negb (last_is (Z.eqb close_b) line) then Throw
        else match ltrim (removelast (tl line)) with [] => Throw | _ => Ok (Header (removelast (tl line))) end
      else match split_eq line with
           | None => Ok (Property line [])
           | Some (a, b) => match rtrim a with [] => Throw | k => Ok (Property k (ltrim b)) end
           end
  end = Ok (Property k v).
Proof.
  intros k v [Hk Hck] Hcv line ->. unfold line_of.
  assert (Hne : ~ In eq_sign k). { intros Hi. apply (clean_in k) in Hi; [discriminate|assumption]. }
  rewrite strip_comment_id.
  2:{ intros c Hc. apply in_app_iff in Hc. destruct Hc as [Hc|Hc]; [apply reject_comment; apply (clean_in k); assumption|].
      destruct Hc as [<-|Hc]; [reflexivity|apply reject_comment; apply (clean_in v); assumption]. }
  rewrite ltrim_id by (rewrite first_is_app by assumption; apply Hck).
  assert (Hr : rtrim (k ++ [eq_sign] ++ v) = k ++ [eq_sign] ++ v).
  { apply rtrim_id. destruct v as [|c v]; [rewrite app_nil_r, last_is_app; reflexivity|].
    rewrite app_assoc, last_is_app2 by discriminate. apply Hcv. }
  rewrite Hr. destruct (k ++ [eq_sign] ++ v) as [|c0 l0] eqn:E; [destruct k; discriminate|]. rewrite <- E. cbv zeta.
  assert (Hb : first_is (Z.eqb open_b) (k ++ [eq_sign] ++ v) = false).
  { rewrite first_is_app by assumption. destruct k as [|c k]; [congruence|]. cbn [first_is].
    destruct (open_b =? c) eqn:Ec; [|reflexivity]. apply Z.eqb_eq in Ec. subst c.
    pose proof (clean_in _ open_b Hck (or_introl eq_refl)) as Hx. discriminate. }
  rewrite Hb. cbn [app]. rewrite split_eq_app by assumption.
  rewrite rtrim_id by apply Hck. rewrite ltrim_id by apply Hcv. destruct k; [congruence|reflexivity].
Qed.
Lemma read_property : forall k v, key_ok k -> clean v -> read_line false (line_of k v ++ [cr]) = Ok (Property k v).
Proof.
  intros k v Hk Hv. unfold read_line. rewrite strip_cr_end. cbv zeta.
  apply (read_property' k v Hk Hv _ eq_refl).
Qed.
Lemma bom_line : forall k v, (forall k', k <> CsvProofs4.bom ++ k') -> strip_bom ((line_of k v) ++ [cr]) = line_of k v ++ [cr].
Proof.
  intros k v H. unfold strip_bom. destruct (CsvProofs4.strip_bom_cases (line_of k v ++ [cr])) as [[u Hu]|Hu]; [|exact Hu].
  exfalso. unfold line_of in Hu. destruct k as [|a [|b [|c k]]]; cbn in Hu; injection Hu; intros; try discriminate.
  apply (H k). subst. reflexivity.
Qed.
Lemma read_property_first : forall k v, key_ok k -> clean v -> (forall k', k <> CsvProofs4.bom ++ k') ->
  read_line true (line_of k v ++ [cr]) = Ok (Property k v).
Proof.
  intros k v Hk Hv Hb. unfold read_line. rewrite bom_line by assumption. rewrite strip_cr_end. cbv zeta.
  apply (read_property' k v Hk Hv _ eq_refl).
Qed.
Lemma read_header : forall k b, key_ok k -> read_line b (([open_b] ++ k ++ [close_b]) ++ [cr]) = Ok (Header k).
Proof.
  intros k b [Hk Hck]. unfold read_line.
  assert (Hs : (if b then strip_bom (([open_b] ++ k ++ [close_b]) ++ [cr]) else ([open_b] ++ k ++ [close_b]) ++ [cr])
    = ([open_b] ++ k ++ [close_b]) ++ [cr]).
  { destruct b; [|reflexivity]. unfold strip_bom.
    destruct (CsvProofs4.strip_bom_cases (([open_b] ++ k ++ [close_b]) ++ [cr])) as [[u Hu]|Hu]; [discriminate|exact Hu]. }
  rewrite Hs, strip_cr_end. cbv zeta. clear Hs.
  rewrite strip_comment_id.
  2:{ intros c Hc. cbn [app In] in Hc. destruct Hc as [<-|Hc]; [reflexivity|]. apply in_app_iff in Hc.
      destruct Hc as [Hc|[<-|[]]]; [|reflexivity]. apply reject_comment. apply (clean_in k); assumption. }
  rewrite ltrim_id by reflexivity. cbn [app].
  assert (Hl : forall f, last_is f (open_b :: k ++ [close_b]) = f close_b).
  { intros f. change (open_b :: k ++ [close_b]) with ((open_b :: k) ++ [close_b]). apply last_is_app. }
  rewrite rtrim_id by (rewrite Hl; reflexivity). cbn [first_is]. rewrite Z.eqb_refl. rewrite Hl, Z.eqb_refl. cbn [negb tl].
  rewrite removelast_last. rewrite ltrim_id by apply Hck. destruct k; [congruence|reflexivity].
Qed.
Lemma read_blank : forall b, read_line b ([] ++ [cr]) = Ok Blank.
Proof. intros []; reflexivity. Qed.

(* what is read has only characters of the line *)
Lemma read_line_in : forall b line w, read_line b line = Ok w -> forall c,
  match w with
  | Blank => True
  | Header k => In c k -> In c line
  | Property k v => (In c k -> In c line) /\ (In c v -> In c line)
  end.
Proof.
  intros b line w H c. unfold read_line in H.
  set (l1 := if b then strip_bom line else line) in H. cbv zeta in H.
  set (l2 := ltrim (strip_comment (strip_cr l1))) in H.
  assert (H2 : In c (rtrim l2) -> In c line).
  { intros Hi. apply rtrim_in in Hi. unfold l2 in Hi. apply ltrim_in, strip_comment_in, strip_cr_in in Hi.
    unfold l1 in Hi. destruct b; [apply strip_bom_in; assumption|assumption]. }
  clearbody l2. clear l1. destruct l2 as [|d l3]; [injection H as <-; exact I|].
  set (l := rtrim (d :: l3)) in *. clearbody l. clear d l3. destruct (first_is (Z.eqb open_b) l).
  - destruct (negb (last_is (Z.eqb close_b) l)); [discriminate|].
    destruct (ltrim (removelast (tl l))); [discriminate|]. injection H as <-. intros Hi. apply H2.
    apply removelast_in in Hi. destruct l; [destruct Hi|right; assumption].
  - destruct (split_eq l) as [[x y]|] eqn:E.
    + apply split_eq_some in E. destruct (rtrim x) as [|e r] eqn:Er; [discriminate|]. injection H as <-. split; intros Hi; apply H2; rewrite E; apply in_app_iff.
      * left. apply rtrim_in. rewrite Er. assumption.
      * right. right. apply ltrim_in. assumption.
    + injection H as <-. split; [auto|intros []].
Qed.

(* ---- maps ---- *)
Lemma beqb_eq : forall a b, beqb a b = true <-> a = b.
Proof. intros a b. unfold beqb. destruct (list_eq_dec Z.eq_dec a b); split; congruence. Qed.
Lemma beqb_neq : forall a b, a <> b -> beqb a b = false.
Proof. intros a b H. destruct (beqb a b) eqn:E; [apply beqb_eq in E; congruence|reflexivity]. Qed.
Lemma assign_new : forall B k (v : B) l, ~ In k (map fst l) -> assign k v l = l ++ [(k, v)].
Proof.
  induction l as [|[k' v'] l IH]; intros H; [reflexivity|]. simpl. rewrite beqb_neq by (intros ->; apply H; left; reflexivity).
  rewrite IH by (intros Hi; apply H; right; assumption). reflexivity.
Qed.
Lemma lookup_none : forall B k (l : list (bytes * B)), ~ In k (map fst l) -> lookup k l = None.
Proof.
  induction l as [|[k' v'] l IH]; intros H; [reflexivity|]. simpl. rewrite beqb_neq by (intros ->; apply H; left; reflexivity).
  apply IH. intros Hi. apply H. right. assumption.
Qed.
Lemma lookup_mid : forall B k (v : B) l1 l2, ~ In k (map fst l1) -> lookup k (l1 ++ (k, v) :: l2) = Some v.
Proof.
  induction l1 as [|[k' v'] l1 IH]; intros l2 H; simpl.
  - replace (beqb k k) with true by (symmetry; apply beqb_eq; reflexivity). reflexivity.
  - rewrite beqb_neq by (intros ->; apply H; left; reflexivity). apply IH. intros Hi. apply H. right. assumption.
Qed.
Lemma assign_mid : forall B k (v w : B) l1 l2, ~ In k (map fst l1) -> assign k w (l1 ++ (k, v) :: l2) = l1 ++ (k, w) :: l2.
Proof.
  induction l1 as [|[k' v'] l1 IH]; intros l2 H; simpl.
  - replace (beqb k k) with true by (symmetry; apply beqb_eq; reflexivity). reflexivity.
  - rewrite beqb_neq by (intros ->; apply H; left; reflexivity). rewrite IH by (intros Hi; apply H; right; assumption). reflexivity.
Qed.
Lemma assign_in : forall B k (v : B) l k' v', In (k', v') (assign k v l) -> (k' = k /\ v' = v) \/ In (k', v') l.
Proof.
  induction l as [|[a b] l IH]; intros k' v' H; simpl in H.
  - destruct H as [H|[]]. injection H as <- <-. auto.
  - destruct (beqb a k) eqn:E.
    + apply beqb_eq in E. subst. destruct H as [H|H]; [injection H as <- <-; auto|right; right; assumption].
    + destruct H as [H|H]; [right; left; assumption|]. destruct (IH _ _ H) as [Hx|Hx]; [auto|right; right; assumption].
Qed.
Lemma lookup_in : forall B k (l : list (bytes * B)) v, lookup k l = Some v -> In (k, v) l.
Proof.
  induction l as [|[a b] l IH]; intros v H; simpl in H; [discriminate|]. destruct (beqb a k) eqn:E.
  - apply beqb_eq in E. injection H as <-. subst. left. reflexivity.
  - right. auto.
Qed.

(* ---- what the parser reads has no line feed in it ---- *)
Definition lf_free (root : list (bytes * pval)) : Prop :=
  forall k e, In (k, e) root -> one_line k /\
    match e with PStr v => one_line v | PSec l => forall k' v, In (k', v) l -> one_line k' /\ one_line v end.
Lemma read_lines_free : forall ls b sink root m, Forall one_line ls -> lf_free root ->
  read_lines b sink root ls = Ok m -> lf_free m.
Proof.
  induction ls as [|line ls IH]; intros b sink root m Hl Hr H; [injection H as <-; assumption|].
  inversion Hl as [|? ? Hl1 Hl2]; subst. cbn [read_lines] in H. destruct (read_line b line) as [w| |] eqn:Ew; [|discriminate|discriminate].
  cbn [obind] in H. pose proof (read_line_in _ _ _ Ew 10) as Hw. destruct w as [|k|k v].
  - eapply IH; eassumption.
  - destruct (lookup k root) as [[s|l]|] eqn:El; [discriminate| |].
    + eapply IH; [exact Hl2|exact Hr|exact H].
    + eapply IH; [exact Hl2| |exact H]. intros k' e Hi. apply assign_in in Hi. destruct Hi as [[-> ->]|Hi]; [|auto].
      split; [unfold one_line in *; tauto|]. intros k'' v [].
  - destruct sink as [sec|].
    + destruct (lookup sec root) as [[s|l]|] eqn:El; [discriminate| |discriminate].
      eapply IH; [exact Hl2| |exact H]. intros k' e Hi. apply assign_in in Hi. destruct Hi as [[-> ->]|Hi]; [|auto].
      apply lookup_in in El. destruct (Hr _ _ El) as [H1 H2]. split; [assumption|]. intros k'' v' Hi.
      apply assign_in in Hi. destruct Hi as [[-> ->]|Hi]; [unfold one_line in *; tauto|]. eapply H2. exact Hi.
    + eapply IH; [exact Hl2| |exact H]. intros k' e Hi. apply assign_in in Hi. destruct Hi as [[-> ->]|Hi]; [|auto].
      unfold one_line in *. tauto.
Qed.
Lemma lines_free : forall s acc, one_line acc -> Forall one_line (lines acc s).
Proof.
  unfold lines. induction s as [|c s IH]; intros acc H; cbn [CsvModel.lines].
  - destruct acc; [constructor|repeat constructor; assumption].
  - destruct (c =? CsvModel.lf) eqn:E.
    + constructor; [assumption|]. apply IH. intros [].
    + apply IH. apply Z.eqb_neq in E. unfold one_line, CsvModel.lf in *. rewrite in_app_iff. simpl. intuition congruence.
Qed.
Lemma lines_crlf : forall L, Forall one_line L ->
  lines [] (concat (map (fun l => l ++ [cr; lf]) L)) = map (fun l => l ++ [cr]) L.
Proof.
  induction L as [|l L IH]; intros H; [reflexivity|]. inversion H; subst. cbn [map concat].
  replace ((l ++ [cr; lf]) ++ concat (map (fun l => l ++ [cr; lf]) L))
    with ((l ++ [cr]) ++ CsvModel.lf :: concat (map (fun l => l ++ [cr; lf]) L))
    by (rewrite <- !app_assoc; reflexivity).
  unfold lines. rewrite CsvProofs2.lines_app.
  - cbn [app]. f_equal. apply IH. assumption.
  - rewrite in_app_iff. unfold one_line, cr, CsvModel.lf in *. simpl. intuition lia.
Qed.
