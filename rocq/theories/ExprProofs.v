(* Lemmas for C39. *)
From Verif Require Import Base Text ExprModel ExprSpec.

(* ---- tables ---- *)

Lemma beq_eq a b : beq a b = true <-> a = b.
Proof.
  revert b; induction a as [|x a IH]; intros [|y b]; cbn; split; intros H; try discriminate; auto.
  - apply andb_prop in H as [H1 H2]. apply Z.eqb_eq in H1. apply IH in H2. congruence.
  - inversion H; subst. rewrite Z.eqb_refl. cbn. apply IH. reflexivity.
Qed.

Lemma lookup_in {A} s (l : list (bytes * A)) a : lookup s l = Some a -> In (s, a) l.
Proof.
  induction l as [|[k v] l IH]; cbn; [discriminate|].
  destruct (beq k s) eqn:E; intros H.
  - apply beq_eq in E. subst. inversion H. auto.
  - right. auto.
Qed.

Ltac in_cases H :=
  repeat (cbn [In] in H; destruct H as [H | H]; [inversion H; clear H; subst | try contradiction]);
  try contradiction.

Lemma existsb_in s l : existsb (beq s) l = true -> In s l.
Proof. intros H. apply existsb_exists in H as (x & Hx & E). apply beq_eq in E. subst. auto. Qed.

(* ---- first tokens ---- *)

Definition pstart (t : token) : bool :=
  match t with
  | TId _ | TFunc _ | TInt _ | TReal _ | TStr _ => true
  | TKw s =>
      existsb (beq s)
        [str "extern"; str "null"; str "true"; str "false"; str "this"; str "__fma"; str "__addm";
         str "__subm"; str "__mulm"; str "__adds"; str "__subs"; str "__muls"; str "catch";
         str "__vcall"; str "import"]
  | TPunct s => existsb (beq s) [str "["; str "{"; str "("]
  end.

Definition start (t : token) : bool :=
  pstart t ||
  match t with
  | TKw s => existsb (beq s) (map fst prefix_keywords)
  | TPunct s => existsb (beq s) (map fst prefix_punctuators)
  | _ => false
  end.

Lemma pstart_prefix t r : pstart t = true -> accept_prefix (t :: r) = Rej.
Proof.
  destruct t; cbn [pstart]; intros H; try reflexivity; apply existsb_in in H; cbn [In] in H;
    repeat (destruct H as [H | H]; [subst; reflexivity|]); contradiction.
Qed.

Lemma start_ref t r : start t = true -> accept_ref (t :: r) = (false, t :: r).
Proof.
  unfold start. intros H. apply orb_prop in H as [H | H].
  - destruct t; cbn [pstart] in H; try reflexivity; apply existsb_in in H; cbn [In] in H;
      repeat (destruct H as [H | H]; [subst; reflexivity|]); contradiction.
  - destruct t; try discriminate; apply existsb_in in H;
      cbn [In map fst prefix_keywords prefix_punctuators] in H;
      repeat (destruct H as [H | H]; [subst; reflexivity|]); contradiction.
Qed.

Definition heads (f : token -> bool) (ts : list token) : Prop :=
  exists t r, ts = t :: r /\ f t = true.

Lemma heads_app f a b : heads f a -> heads f (a ++ b).
Proof. intros (t & r & -> & H). exists t, (r ++ b). auto. Qed.

Scheme Gprim_m := Minimality for Gprim Sort Prop
  with Gpost_m := Minimality for Gpost Sort Prop
  with Gelem_m := Minimality for Gelem Sort Prop
  with Gexp_m := Minimality for Gexp Sort Prop
  with Gop_m := Minimality for Gop Sort Prop
  with Gargs_m := Minimality for Gargs Sort Prop
  with Gelems_m := Minimality for Gelems Sort Prop
  with Gmembers_m := Minimality for Gmembers Sort Prop.
Combined Scheme G_mutual from
  Gprim_m, Gpost_m, Gelem_m, Gexp_m, Gop_m, Gargs_m, Gelems_m, Gmembers_m.

Lemma prim_head e ts : Gprim e ts -> heads pstart ts.
Proof.
  destruct 1; try (eexists _, _; split; [reflexivity | reflexivity]).
  - destruct b; eexists _, _; split; reflexivity.
  - eexists _, _; split; [reflexivity|]. in_cases H; reflexivity.
Qed.

Lemma post_head e ts : Gpost e ts -> heads pstart ts.
Proof. induction 1; try (apply heads_app; assumption). eapply prim_head; eauto. Qed.

Lemma elem_head e ts : Gelem e ts -> heads start ts.
Proof.
  induction 1 as [e ts H | t x e ts H _ _].
  - apply post_head in H as (t & r & -> & H). exists t, r. split; auto. unfold start. rewrite H. auto.
  - exists t, ts. split; auto. in_cases H; reflexivity.
Qed.

Lemma exp_head p e ts : Gexp p e ts -> heads start ts.
Proof. induction 1; [eapply elem_head; eauto | apply heads_app; assumption]. Qed.

(* ---- tokens that end an expression ---- *)

Definition elem_stops (ts : list token) : Prop :=
  ~ begins_with_text ts /\ ~ begins_with postfix_tokens ts.
Definition stops (ts : list token) : Prop := elem_stops ts /\ ~ begins_with infix_tokens ts.

Lemma stops_punct s r :
  existsb (fun t => is_punct s t) (postfix_tokens ++ infix_tokens) = false ->
  stops (TPunct s :: r).
Proof.
  intros H. rewrite existsb_app in H. apply orb_false_elim in H as [H1 H2].
  repeat split.
  - intros (x & y & E). discriminate.
  - intros (t & y & E & Hin). inversion E; subst.
    apply Bool.not_true_iff_false in H1. apply H1. apply existsb_exists.
    exists (TPunct s). split; auto. cbn. apply beq_eq. reflexivity.
  - intros (t & y & E & Hin). inversion E; subst.
    apply Bool.not_true_iff_false in H2. apply H2. apply existsb_exists.
    exists (TPunct s). split; auto. cbn. apply beq_eq. reflexivity.
Qed.

Ltac closer := apply stops_punct; vm_compute; reflexivity.

Lemma infix_rejects px ts : ~ begins_with infix_tokens ts -> accept_infix px ts = Rej.
Proof.
  intros H. destruct ts as [|[s|s|s|z|z|s|z] r]; try reflexivity; cbn [accept_infix].
  - assert (Hs : ~ In (TPunct s) infix_tokens)
      by (intros Hs; apply H; exists (TPunct s), r; auto).
    clear H.
    destruct (beq s (str "?") || beq s (str "?=")) eqn:E1.
    { exfalso. apply Hs. apply orb_prop in E1 as [E | E]; apply beq_eq in E; subst;
        vm_compute; tauto. }
    destruct (beq s (str "&&") || beq s (str "&&=")) eqn:E2.
    { exfalso. apply Hs. apply orb_prop in E2 as [E | E]; apply beq_eq in E; subst;
        vm_compute; tauto. }
    destruct (beq s (str "||") || beq s (str "||=")) eqn:E3.
    { exfalso. apply Hs. apply orb_prop in E3 as [E | E]; apply beq_eq in E; subst;
        vm_compute; tauto. }
    destruct (beq s (str "??") || beq s (str "??=")) eqn:E4.
    { exfalso. apply Hs. apply orb_prop in E4 as [E | E]; apply beq_eq in E; subst;
        vm_compute; tauto. }
    destruct (lookup s infix_punctuators) as [[x a]|] eqn:E; [|reflexivity].
    exfalso. apply Hs. apply lookup_in in E. unfold infix_punctuators in E.
    in_cases E; vm_compute; tauto.
  - assert (Hs : ~ In (TKw s) infix_tokens)
      by (intros Hs; apply H; exists (TKw s), r; auto).
    destruct (beq s (str "and")) eqn:E1.
    { exfalso. apply Hs. apply beq_eq in E1; subst; vm_compute; tauto. }
    destruct (beq s (str "or")) eqn:E2; [|reflexivity].
    exfalso. apply Hs. apply beq_eq in E2; subst; vm_compute; tauto.
Qed.

Lemma postfix_rejects px n ts : ~ begins_with postfix_tokens ts -> accept_postfix px n ts = Rej.
Proof.
  intros H. destruct ts as [|[s|s|s|z|z|s|z] r]; try reflexivity; cbn [accept_postfix].
  assert (Hs : ~ In (TPunct s) postfix_tokens)
    by (intros Hs; apply H; exists (TPunct s), r; auto).
  destruct (lookup s postfix_punctuators) as [x|] eqn:E.
  { exfalso. apply Hs. apply lookup_in in E. unfold postfix_punctuators in E.
    in_cases E; vm_compute; tauto. }
  destruct (beq s (str "(")) eqn:E1.
  { exfalso. apply Hs. apply beq_eq in E1; subst; vm_compute; tauto. }
  destruct (beq s (str "[")) eqn:E2.
  { exfalso. apply Hs. apply beq_eq in E2; subst; vm_compute; tauto. }
  destruct (beq s (str ".")) eqn:E3; [|reflexivity].
  exfalso. apply Hs. apply beq_eq in E3; subst; vm_compute; tauto.
Qed.

(* ---- which units can be void ---- *)

Lemma last_void_back (l : list unit_) :
  (fix last_void (l : list unit_) : bool :=
     match l with
     | [] => false
     | [u] => may_be_void u
     | _ :: l => last_void l
     end) l = back_void l.
Proof.
  induction l as [|u l IH]; [reflexivity|].
  destruct l as [|v l]; [reflexivity|].
  rewrite IH. unfold back_void. cbn [rev].
  destruct (rev l ++ [v]) eqn:E; [destruct (rev l); discriminate|]. reflexivity.
Qed.

Lemma back_void_snoc us u : back_void (us ++ [u]) = may_be_void u.
Proof. unfold back_void. rewrite rev_app_distr. reflexivity. Qed.

Lemma units_void e : back_void (units e) = voidable e.
Proof.
  induction e; cbn [units voidable]; rewrite ?back_void_snoc; try reflexivity.
  - rewrite app_assoc, back_void_snoc. reflexivity.
  - change [ULit (LStr key); UOp xop_index false] with ([ULit (LStr key)] ++ [UOp xop_index false]).
    rewrite app_assoc, back_void_snoc. reflexivity.
  - rewrite !app_assoc, back_void_snoc. reflexivity.
  - rewrite !app_assoc, back_void_snoc. reflexivity.
  - rewrite !app_assoc, back_void_snoc. reflexivity.
  - cbn [may_be_void existsb snd]. rewrite last_void_back, IHe2. apply orb_false_r.
  - cbn [may_be_void existsb snd]. rewrite last_void_back, IHe2. apply orb_false_r.
  - cbn [may_be_void existsb snd]. rewrite last_void_back, IHe2. apply orb_false_r.
  - cbn [may_be_void existsb snd]. rewrite !last_void_back, IHe2, IHe3, orb_false_r. reflexivity.
Qed.

Definition value (b : bool) (e : ex) : list unit_ :=
  units e ++ (if voidable e then [UCheck b] else []).

Lemma check_value b e :
  (if back_void (units e) then units e ++ [UCheck b] else units e) = value b e.
Proof. rewrite units_void. unfold value. destruct (voidable e); rewrite ?app_nil_r; reflexivity. Qed.

(* ---- the operator stack ---- *)

Lemma ja_ja e a b : junction_append (junction_append e a) b = junction_append e (a ++ b).
Proof. destruct e; cbn; rewrite ?app_assoc; reflexivity. Qed.

Lemma ja_prec e us : tell_precedence (junction_append e us) = tell_precedence e.
Proof. destruct e; reflexivity. Qed.

(* collapse frames [gs], the lowest first, onto the element [t] *)
Fixpoint squash (gs : list elem) (t : elem) : elem :=
  match gs with
  | [] => t
  | g :: gs => junction_append t (extract (squash gs g))
  end.

Lemma squash_prec gs t : tell_precedence (squash gs t) = tell_precedence t.
Proof. destruct gs; cbn; rewrite ?ja_prec; reflexivity. Qed.

Definition split_stack {A} (st : list elem) (k : elem -> list elem -> A) (d : A) : A :=
  match st with [] => d | t :: b => k t b end.

Definition collapse_st (np : Z) (st : list elem) : list elem :=
  split_stack st (fun t b => let '(t', b') := collapse np t b in t' :: b') [].

Lemma collapse_rev np gs : forall t below,
  Forall (fun g => tell_precedence g <= np) gs ->
  collapse_st np (rev gs ++ t :: below) = collapse_st np (squash gs t :: below).
Proof.
  induction gs as [|g gs IH]; intros t below H; [reflexivity|].
  inversion H as [|? ? H1 H2]; subst.
  cbn [rev squash]. rewrite <- app_assoc. cbn [app]. rewrite IH by assumption.
  unfold collapse_st, split_stack. cbn [collapse]. rewrite squash_prec.
  replace (tell_precedence g <=? np) with true by lia. reflexivity.
Qed.

Definition collapse_all_st (st : list elem) : elem :=
  split_stack st collapse_all (MHead []).

Lemma collapse_all_rev gs : forall t below,
  collapse_all_st (rev gs ++ t :: below) = collapse_all_st (squash gs t :: below).
Proof.
  induction gs as [|g gs IH]; intros t below; [reflexivity|].
  cbn [rev squash]. rewrite <- app_assoc. cbn [app]. rewrite IH. reflexivity.
Qed.

Definition loop_st px (n n0 : nat) (st : list elem) (ts : list token) : res (list unit_) :=
  split_stack st (fun t b => infix_loop px n n0 t b ts) Err.

Lemma loop_st_step px n n0 st ts op r us r1 :
  st <> [] ->
  accept_infix px ts = Acc op r -> accept_element px n0 r = Acc us r1 ->
  loop_st px (S n) n0 st ts =
  loop_st px n n0
    (junction_append op us ::
     collapse_st (if tell_precedence op =? 11 then 10 else tell_precedence op) st) r1.
Proof.
  intros Hst H1 H2. destruct st as [|t b]; [congruence|].
  unfold loop_st, split_stack, collapse_st. cbn [infix_loop split_stack]. rewrite H1, H2, ja_prec.
  change precedence_assignment with 11. change (11 - 1) with 10.
  destruct (collapse _ t b) as [t' b']. reflexivity.
Qed.

Lemma loop_st_end px n n0 st ts :
  st <> [] -> accept_infix px ts = Rej ->
  loop_st px (S n) n0 st ts = Acc (extract (collapse_all_st st)) ts.
Proof.
  intros Hst H. destruct st as [|t b]; [congruence|].
  unfold loop_st, split_stack, collapse_all_st. cbn [infix_loop split_stack]. rewrite H. reflexivity.
Qed.

Lemma rev_app_cons {A} (l : list A) x m : rev l ++ x :: m <> [].
Proof. destruct (rev l); discriminate. Qed.

(* ---- grammar to parser ---- *)

Definition prepend (l : list unit_) (r : res (list unit_)) : res (list unit_) :=
  match r with Acc l' t => Acc (l ++ l') t | x => x end.

Lemma prepend_prepend a b r : prepend a (prepend b r) = prepend (a ++ b) r.
Proof. destruct r; cbn; rewrite ?app_assoc; reflexivity. Qed.

Definition full_ok (e : ex) (ts : list token) : Prop :=
  forall n rest, (length (ts ++ rest) < n)%nat -> stops rest ->
    expr n (ts ++ rest) = Acc (units e) rest.

Definition prim_ok (e : ex) (ts : list token) : Prop :=
  forall n rest, (length (ts ++ rest) < S n)%nat -> ~ begins_with_text rest ->
    accept_primary (expr n) (S n) (ts ++ rest) = Acc (units e) rest.

Definition post_ok (e : ex) (ts : list token) : Prop :=
  forall n rest, (length (ts ++ rest) < S n)%nat -> ~ begins_with_text rest ->
    exists us r l k,
      accept_primary (expr n) (S n) (ts ++ rest) = Acc us r /\ us ++ l = units e /\
      (k <= length ts)%nat /\
      forall m, accept_postfixes (expr n) (k + m) (S n) r
                = prepend l (accept_postfixes (expr n) m (S n) rest).

Definition elem_ok (e : ex) (ts : list token) : Prop :=
  forall n m rest, (length (ts ++ rest) < S n)%nat -> (length (ts ++ rest) < m)%nat ->
    elem_stops rest ->
    exists ps r us r1 l,
      accept_prefixes m (ts ++ rest) = Acc ps r /\
      accept_primary (expr n) (S n) r = Acc us r1 /\
      accept_postfixes (expr n) (S n) (S n) r1 = Acc l rest /\
      us ++ l ++ rev ps = units e.

Definition exp_ok (p : Z) (e : ex) (ts : list token) : Prop :=
  p <= 11 ->
  forall n rest, (length (ts ++ rest) < S n)%nat -> elem_stops rest ->
    exists us r,
      accept_element (expr n) (S n) (ts ++ rest) = Acc us r /\
      forall top below,
        below = [] \/ p < tell_precedence top \/ tell_precedence top = 11 ->
        exists j gs k,
          (S k <= length ts)%nat /\
          Forall (fun g => tell_precedence g <= p) gs /\
          squash gs (junction_append top j) = junction_append top (units e) /\
          forall m,
            loop_st (expr n) (k + m) (S n) (junction_append top us :: below) r
            = loop_st (expr n) m (S n) (rev gs ++ junction_append top j :: below) rest.

Definition op_ok (q : Z) (f : ex -> ex -> ex) (top : list token) : Prop :=
  1 <= q <= 11 /\ (forall rest, elem_stops (top ++ rest)) /\ (1 <= length top)%nat /\
  forall n rest, (length (top ++ rest) < S n)%nat ->
    exists op, accept_infix (expr n) (top ++ rest) = Acc op rest /\ tell_precedence op = q /\
      forall l r, units (f l r) = units l ++ extract (junction_append op (units r)).

Definition args_ok (args : list (bool * ex)) (ts : list token) : Prop :=
  forall n m rest, (length (ts ++ P ")" :: rest) < n)%nat ->
    (length (ts ++ P ")" :: rest) < m)%nat ->
    accept_args (expr n) m (ts ++ P ")" :: rest)
    = Acc (map (fun a => value (fst a) (snd a)) args) (P ")" :: rest).

Definition ref_ok (b : bool) (ts : list token) : Prop :=
  forall r, heads start r -> accept_ref (ts ++ r) = (b, r).

Definition elems_ok (es : list ex) (ts : list token) : Prop :=
  forall n m c rest, (length (ts ++ P "]" :: rest) < n)%nat ->
    (length (ts ++ P "]" :: rest) < m)%nat ->
    c + Z.of_nat (length es) <= 0xFFFFF ->
    accept_elements (expr n) m c (ts ++ P "]" :: rest)
    = Acc (flat_map (value false) es, c + Z.of_nat (length es)) (P "]" :: rest).

Definition members_ok (kvs : list (bytes * ex)) (ts : list token) : Prop :=
  forall n m seen rest, (length (ts ++ P "}" :: rest) < n)%nat ->
    (length (ts ++ P "}" :: rest) < m)%nat ->
    NoDup (seen ++ map fst kvs) ->
    accept_members (expr n) m seen (ts ++ P "}" :: rest)
    = Acc (flat_map (fun kv => value false (snd kv)) kvs, seen ++ map fst kvs) (P "}" :: rest).

Ltac len := do 6 (rewrite ?app_length in *; cbn [length] in *); lia.

Lemma element_of n e ts rest :
  elem_ok e ts -> (length (ts ++ rest) < S n)%nat -> elem_stops rest ->
  accept_element (expr n) (S n) (ts ++ rest) = Acc (units e) rest.
Proof.
  intros H Hn Hs. destruct (H n (S n) rest Hn Hn Hs) as (ps & r & us & r1 & l & H1 & H2 & H3 & H4).
  unfold accept_element. rewrite H1, H2, H3, H4. reflexivity.
Qed.

Lemma full_of e ts : exp_ok 11 e ts -> full_ok e ts.
Proof.
  intros H n rest Hn [Hs Hi]. destruct n as [|n]; [lia|].
  destruct (H ltac:(lia) n rest Hn Hs) as (us & r & He & Hl).
  cbn [expr]. unfold expr_body. rewrite He.
  destruct (Hl (MHead []) [] (or_introl eq_refl)) as (j & gs & k & Hk & _ & Hsq & Hm).
  specialize (Hm (S (n - k))%nat). replace (k + S (n - k))%nat with (S n) in Hm by len.
  cbn [junction_append app] in Hm, Hsq.
  change (infix_loop (expr n) (S n) (S n) (MHead us) [] r)
    with (loop_st (expr n) (S n) (S n) [MHead us] r).
  rewrite Hm. rewrite loop_st_end; [|apply rev_app_cons | apply infix_rejects; assumption].
  rewrite collapse_all_rev, Hsq. reflexivity.
Qed.

Lemma expr_rejects n s r :
  is_punct s (P ")") || is_punct s (P "]") = true -> expr (S n) (TPunct s :: r) = Rej.
Proof.
  intros H. apply orb_prop in H as [H | H]; apply beq_eq in H; subst; reflexivity.
Qed.
