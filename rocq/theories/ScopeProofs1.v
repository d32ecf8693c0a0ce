(* Proofs about code generation and rebinding. *)
From Verif Require Import Base Monad Text ScopeModel ScopeSpec.

Scheme expr_mut := Induction for expr Sort Prop
with args_mut := Induction for args Sort Prop
with stmt_mut := Induction for stmt Sort Prop
with stmts_mut := Induction for stmts Sort Prop
with clauses_mut := Induction for clauses Sort Prop.
Combined Scheme source_ind from expr_mut, args_mut, stmt_mut, stmts_mut, clauses_mut.
Scheme cexpr_mut := Induction for cexpr Sort Prop
with cargs_mut := Induction for cargs Sort Prop
with node_mut := Induction for node Sort Prop
with code_mut := Induction for code Sort Prop
with cases_mut := Induction for cases Sort Prop.
Combined Scheme code_all_ind from cexpr_mut, cargs_mut, node_mut, code_mut, cases_mut.

(* Every name is one of the contexts around. *)
Definition leaf_ok (C : list (list name)) (d : nat) (l : leaf) : Prop :=
  match l with
  | LLocal n x => (n < d)%nat \/ exists c, nth_error C (n - d) = Some c /\ mem x c = true
  | _ => True
  end.
Fixpoint ok_e (C : list (list name)) (d : nat) (e : cexpr) : Prop :=
  match e with
  | CInt _ | CNull => True
  | CName l => leaf_ok C d l
  | CFun _ b => ok_l C (S d) b
  | CCall f xs => ok_e C d f /\ ok_a C d xs
  | CList xs => ok_a C d xs
  | CSet a b | CAdd a b => ok_e C d a /\ ok_e C d b
  | CCond c a b => ok_e C d c /\ ok_e C d a /\ ok_e C d b
  | COut e => ok_e C d e
  end
with ok_a C d (xs : cargs) : Prop :=
  match xs with
  | BNil => True
  | BCons _ e xs => ok_e C d e /\ ok_a C d xs
  end
with ok_s C d (s : node) : Prop :=
  match s with
  | NExpr e | NVar _ _ e | NRef _ e | NThrow e | NReturn _ e | NDefer e => ok_e C d e
  | NBlock b => ok_l C (S d) b
  | NIf e a b | NWhile e a b | NDo a e b => ok_e C d e /\ ok_l C (S d) a /\ ok_l C (S d) b
  | NSwitch e l => ok_e C d e /\ ok_k C d l
  | NFor _ _ i e st b c =>
    ok_e C (S d) i /\ ok_e C (S d) e /\ ok_e C (S d) st /\ ok_l C (S (S d)) b /\ ok_l C (S d) c
  | NEach _ _ e b c => ok_e C (S d) e /\ ok_l C (S (S d)) b /\ ok_l C (S d) c
  | NTry b _ c => ok_l C (S d) b /\ ok_l C (S d) c
  | NVoid | NBreak | NContinue => True
  end
with ok_l C d (l : code) : Prop :=
  match l with
  | End => True
  | Then s l => ok_s C d s /\ ok_l C d l
  end
with ok_k C d (l : cases) : Prop :=
  match l with
  | JNil => True
  | JCase e _ b l => ok_e C d e /\ ok_l C (S d) b /\ ok_k C d l
  | JDefault _ b l => ok_l C (S d) b /\ ok_k C d l
  end.

Lemma leaf_ok_shift : forall c C d l, leaf_ok (c :: C) d l -> leaf_ok C (S d) l.
Proof.
  intros c C d [n x| |]; simpl; auto. intros [H | (c0 & H & Hm)]; [lia|].
  destruct (Nat.lt_ge_cases n (S d)); [auto|]. right.
  replace (n - d)%nat with (S (n - S d)) in H by lia. simpl in H. eauto.
Qed.
Lemma ok_shift : forall c C,
  (forall e d, ok_e (c :: C) d e -> ok_e C (S d) e) /\
  (forall xs d, ok_a (c :: C) d xs -> ok_a C (S d) xs) /\
  (forall s d, ok_s (c :: C) d s -> ok_s C (S d) s) /\
  (forall l d, ok_l (c :: C) d l -> ok_l C (S d) l) /\
  (forall l d, ok_k (c :: C) d l -> ok_k C (S d) l).
Proof.
  intros c C. apply code_all_ind; simpl; intros; auto; try (intuition eauto; fail).
  eapply leaf_ok_shift; eauto.
Qed.
Lemma shift_e : forall c C d e, ok_e (c :: C) d e -> ok_e C (S d) e.
Proof. intros c C d e. apply (proj1 (ok_shift c C)). Qed.
Lemma shift_l : forall c C d e, ok_l (c :: C) d e -> ok_l C (S d) e.
Proof. intros c C d e. apply (proj1 (proj2 (proj2 (proj2 (ok_shift c C))))). Qed.
Lemma shift_k : forall c C d e, ok_k (c :: C) d e -> ok_k C (S d) e.
Proof. intros c C d e. apply (proj2 (proj2 (proj2 (proj2 (ok_shift c C))))). Qed.

Lemma resolve_ok : forall x cs d C, (forall n c, nth_error cs n = Some c -> nth_error C (d + n) = Some c) -> leaf_ok C 0 (resolve d cs x).
Proof.
  intros x cs. induction cs as [|c cs IH]; intros d C H; simpl; auto.
  destruct (mem x c) eqn:E; simpl.
  - right. exists c. split; auto. rewrite Nat.sub_0_r. specialize (H 0%nat c eq_refl). rewrite Nat.add_0_r in H. exact H.
  - apply IH. intros n c0 Hn. specialize (H (S n) c0 Hn). rewrite <- H. f_equal. lia.
Qed.
Lemma ok_app : forall C d a b, ok_l C d a -> ok_l C d b -> ok_l C d (app a b).
Proof. intros C d. induction a; simpl; intuition. Qed.

Lemma gen_ok :
  (forall e cs, ok_e cs 0 (gen_e cs e)) /\
  (forall xs cs, ok_a cs 0 (gen_a cs xs)) /\
  (forall s c cs na, ok_l cs 1 (fst (fst (gen_s s c cs na)))) /\
  (forall l c cs na, ok_l cs 1 (fst (fst (gen_l l c cs na)))) /\
  (forall l cb c cs, ok_k cs 1 (gen_k l cb c cs)).
Proof.
  apply source_ind; simpl; intros; auto;
    repeat match goal with |- _ /\ _ => split end; auto;
    try (eapply shift_e; eauto; fail); try (eapply shift_l; eauto; fail);
    try (eapply shift_e; eapply shift_e; eauto; fail); try (eapply shift_l; eapply shift_l; eauto; fail).
  - apply resolve_ok. intros n c H. exact H.
  - destruct (flat b); simpl; [auto|]. split; auto. eapply shift_l; eauto.
  - destruct (gen_s s c cs na) as [[k1 c1] na1] eqn:E1.
    specialize (H c cs na). rewrite E1 in H. simpl in H.
    destruct (back_terminates k1); [exact H|].
    destruct (gen_l l c1 cs na1) as [[k2 c2] na2] eqn:E2. simpl.
    specialize (H0 c1 cs na1). rewrite E2 in H0. apply ok_app; auto.
  - destruct (gen_l b cb (c :: cs) (Some [])) as [[k c1] na1] eqn:E. simpl.
    specialize (H0 cb (c :: cs) (Some [])). rewrite E in H0.
    repeat split; auto. + eapply shift_e; eauto. + eapply shift_l; eauto.
  - destruct (gen_l b cb (c :: cs) (Some [])) as [[k c1] na1] eqn:E. simpl.
    specialize (H cb (c :: cs) (Some [])). rewrite E in H.
    split; auto. eapply shift_l; eauto.
Qed.

(* Rebinding without contexts changes nothing. *)
Ltac obinds :=
  repeat match goal with
  | H : obind ?m _ = Ok _ |- _ => let E := fresh "E" in destruct m eqn:E; simpl in H; try discriminate
  end.
Lemma rebind_none :
  (forall e d, ok_e [] d e -> rebind_e d [] e = Ok e) /\
  (forall xs d, ok_a [] d xs -> rebind_a d [] xs = Ok xs) /\
  (forall s d, ok_s [] d s -> rebind_s d [] s = Ok s) /\
  (forall l d, ok_l [] d l -> rebind_l d [] l = Ok l) /\
  (forall l d, ok_k [] d l -> rebind_k d [] l = Ok l).
Proof.
  apply code_all_ind; simpl; intros; auto;
    repeat match goal with H : _ /\ _ |- _ => destruct H end;
    repeat match goal with H : forall d, _ -> ?f d [] ?x = Ok ?x |- context[?f ?dd [] ?x] => rewrite (H dd) by assumption end;
    simpl; auto.
  destruct l as [n x| |]; simpl in *; auto. destruct H as [H | (c & H & _)].
  - apply Nat.ltb_lt in H. rewrite H. reflexivity.
  - destruct (n - d)%nat; discriminate.
Qed.

(* Rebinding twice, first for the contexts further out *)
Definition doms (C : list (list name)) (K : list (frame ifun)) : Prop :=
  Forall2 (fun c f => forall x, mem x c = true -> find x f <> None) C K.
Definition agree (d : nat) (fs K : list (frame ifun)) : Prop := forall n, (n < d)%nat -> nth_error fs n = nth_error K n.
Lemma agree_cons : forall d fs K g, agree d fs K -> agree (S d) (g :: fs) (g :: K).
Proof. intros d fs K g H [|n] L; simpl; auto. apply H. lia. Qed.
Lemma nth_error_skipn' : forall {A} d (l : list A) n, nth_error (skipn d l) n = nth_error l (d + n).
Proof. induction d; intros [|a l] n; simpl; auto. destruct n; reflexivity. Qed.
Lemma Forall2_nth' : forall {A B} (R : A -> B -> Prop) l l' n a, Forall2 R l l' -> nth_error l n = Some a -> exists b, nth_error l' n = Some b /\ R a b.
Proof.
  intros A B R l l' n a H. revert n. induction H; intros [|n] E; simpl in *; try discriminate; eauto.
  injection E as <-. eauto.
Qed.
Lemma compose_leaf : forall C K fs d k l l', doms C K -> agree d fs K -> leaf_ok C k l ->
  rebind_leaf (k + d) (skipn d K) l = Ok l' -> rebind_leaf k fs l' = rebind_leaf k K l.
Proof.
  intros C K fs d k l l' D A O E. destruct l as [n x|x|r]; simpl in *; try (injection E as <-; reflexivity).
  destruct (Nat.ltb n (k + d)) eqn:L1.
  - injection E as <-. simpl. destruct (Nat.ltb n k) eqn:L2; [reflexivity|].
    apply Nat.ltb_lt in L1. apply Nat.ltb_ge in L2. rewrite (A (n - k)%nat) by lia. reflexivity.
  - apply Nat.ltb_ge in L1. destruct (Nat.ltb n k) eqn:L2; [apply Nat.ltb_lt in L2; lia|].
    rewrite nth_error_skipn' in E. replace (d + (n - (k + d)))%nat with (n - k)%nat in E by lia.
    destruct O as [O|(c & Hc & Hm)]; [lia|].
    destruct (Forall2_nth' _ _ _ _ _ D Hc) as (f & Hf & HR). rewrite Hf in *.
    specialize (HR x Hm). destruct (find x f) as [[| | |]|]; try congruence; injection E as <-; reflexivity.
Qed.
Lemma compose : forall C K fs d, doms C K -> agree d fs K ->
  (forall t k t', ok_e C k t -> rebind_e (k + d) (skipn d K) t = Ok t' -> rebind_e k fs t' = rebind_e k K t) /\
  (forall t k t', ok_a C k t -> rebind_a (k + d) (skipn d K) t = Ok t' -> rebind_a k fs t' = rebind_a k K t) /\
  (forall t k t', ok_s C k t -> rebind_s (k + d) (skipn d K) t = Ok t' -> rebind_s k fs t' = rebind_s k K t) /\
  (forall t k t', ok_l C k t -> rebind_l (k + d) (skipn d K) t = Ok t' -> rebind_l k fs t' = rebind_l k K t) /\
  (forall t k t', ok_k C k t -> rebind_k (k + d) (skipn d K) t = Ok t' -> rebind_k k fs t' = rebind_k k K t).
Proof.
  intros C K fs d D A.
  apply code_all_ind; simpl; intros;
    repeat match goal with H : _ /\ _ |- _ => destruct H end;
    obinds;
    repeat match goal with H : context[S (?k + d)] |- _ => change (S (k + d)) with (S k + d)%nat in H end;
    repeat match goal with H : context[S (S ?k + d)] |- _ => change (S (S k + d)) with (S (S k) + d)%nat in H end;
    repeat match goal with H : Ok _ = Ok _ |- _ => injection H as <- end; simpl;
    repeat match goal with
    | IH : forall k t', _ -> ?f (k + d)%nat _ ?x = Ok t' -> _, E : ?f (?kk + d)%nat _ ?x = Ok ?y |- _ =>
      rewrite (IH kk y) by assumption; clear E
    end; try reflexivity.
  match goal with O : leaf_ok _ _ _, E : rebind_leaf _ _ _ = Ok _ |- _ => rewrite (compose_leaf _ _ _ _ _ _ _ D A O E) end. reflexivity.
Qed.

Lemma rebind_l_app : forall d K a b,
  rebind_l d K (app a b) = (do a' <- rebind_l d K a ; do b' <- rebind_l d K b ; Ok (app a' b')).
Proof.
  intros d K. induction a as [|s a IH]; intros b; simpl.
  - destruct (rebind_l d K b); reflexivity.
  - destruct (rebind_s d K s); simpl; auto. rewrite IH. destruct (rebind_l d K a); simpl; auto.
    destruct (rebind_l d K b); reflexivity.
Qed.

(* Terminators *)
Lemma back_app : forall a b, back_terminates a = false -> back_terminates (app a b) = back_terminates b.
Proof.
  induction a as [|s a IH]; intros b H; simpl in *; auto.
  destruct a as [|s' a].
  - simpl. destruct b; auto.
  - rewrite <- (IH b H). simpl. reflexivity.
Qed.
Lemma gen_ends :
  (forall e : expr, True) /\ (forall xs : args, True) /\
  (forall s c cs na, back_terminates (fst (fst (gen_s s c cs na))) = ends s) /\
  (forall l c cs na, back_terminates (fst (fst (gen_l l c cs na))) = ends_l l) /\
  (forall l : clauses, True).
Proof.
  apply source_ind; simpl; intros; auto.
  - destruct (flat b); simpl; auto.
  - rewrite H0, H1. reflexivity.
  - destruct (gen_s s c cs na) as [[k1 c1] na1] eqn:E1.
    specialize (H c cs na). rewrite E1 in H. simpl in H. rewrite <- H.
    destruct (back_terminates k1) eqn:T; [exact T|].
    destruct (gen_l l c1 cs na1) as [[k2 c2] na2] eqn:E2. simpl.
    specialize (H0 c1 cs na1). rewrite E2 in H0. simpl in H0. rewrite back_app by auto. auto.
Qed.
Lemma gen_s_ends : forall s c cs na k c' na', gen_s s c cs na = (k, c', na') -> back_terminates k = ends s.
Proof. intros s c cs na k c' na' H. rewrite <- (proj1 (proj2 (proj2 gen_ends)) s c cs na), H. reflexivity. Qed.

(* The context after a statement *)
Lemma mem_app : forall x a b, mem x (a ++ b) = mem x a || mem x b.
Proof. intros. unfold mem. apply existsb_app. Qed.
Lemma gen_s_ctx : forall s c cs na, snd (fst (gen_s s c cs na)) = decl s ++ c.
Proof. destruct s; intros; simpl; try reflexivity. destruct (flat b); reflexivity. Qed.
Lemma gen_all_ctx :
  (forall e : expr, True) /\ (forall xs : args, True) /\ (forall s : stmt, True) /\
  (forall l c cs na x, mem x (snd (fst (gen_l l c cs na))) = mem x (decls l) || mem x c) /\
  (forall l : clauses, True).
Proof.
  apply source_ind; intros; auto. simpl.
  pose proof (gen_s_ctx s c cs na) as C.
  destruct (gen_s s c cs na) as [[k1 c1] na1] eqn:E1. simpl in C. subst c1.
  rewrite (gen_s_ends _ _ _ _ _ _ _ E1). destruct (ends s); simpl.
  - rewrite app_nil_r, mem_app. reflexivity.
  - specialize (H0 (decl s ++ c) cs na1 x). destruct (gen_l l (decl s ++ c) cs na1) as [[k2 c2] na2]. simpl in *.
    rewrite H0, !mem_app. destruct (mem x (decl s)), (mem x (decls l)), (mem x c); reflexivity.
Qed.
Lemma gen_l_ctx : forall l c cs na k c' na' x, gen_l l c cs na = (k, c', na') -> mem x c' = mem x (decls l) || mem x c.
Proof. intros l c cs na k c' na' x H. rewrite <- (proj1 (proj2 (proj2 (proj2 gen_all_ctx))) l c cs na x), H. reflexivity. Qed.

Lemma note_mem : forall x y l, exists l', note y (Some l) = Some l' /\ mem y l' = true /\ (mem x l = true -> mem x l' = true).
Proof.
  intros x y l. simpl. eexists. split; [reflexivity|]. destruct (mem y l) eqn:E; [auto|].
  rewrite !mem_app. simpl. rewrite Z.eqb_refl. split; [destruct (mem y l); reflexivity|]. intros ->. reflexivity.
Qed.
Lemma gen_s_noted : forall s c cs l, exists l', snd (gen_s s c cs (Some l)) = Some l' /\
  (forall x, mem x l || mem x (decl s) = true -> mem x l' = true).
Proof.
  assert (N : forall y l, exists l', note y (Some l) = Some l' /\ forall x, mem x l || mem x [y] = true -> mem x l' = true).
  { intros y l. exists (if mem y l then l else l ++ [y]). split; [reflexivity|]. intros x H.
    destruct (mem y l) eqn:E.
    - destruct (mem x l) eqn:E2; [auto|]. simpl in H. rewrite orb_false_r in H. apply Z.eqb_eq in H. congruence.
    - rewrite mem_app. exact H. }
  assert (N0 : forall l : list name, exists l', Some l = Some l' /\ forall x, mem x l || mem x [] = true -> mem x l' = true).
  { intros l. exists l. split; [reflexivity|]. intros x. simpl. rewrite orb_false_r. auto. }
  destruct s; intros c0 cs l0; cbn [gen_s snd decl]; try apply N; try apply N0.
  - destruct (flat b); apply N0.
  - destruct (N k l0) as (l1 & E1 & H1). rewrite E1. destruct (N m l1) as (l2 & E2 & H2). exists l2. split; [exact E2|].
    intros x H. apply H2. simpl in H. rewrite orb_false_r in H. rewrite H1; auto. rewrite H. reflexivity.
  - destruct (N x l0) as (l1 & E1 & H1). exists l1. split; [exact E1|].
    intros y H. apply H1. simpl in H. rewrite orb_false_r in H. rewrite H. reflexivity.
Qed.
Lemma gen_all_noted :
  (forall e : expr, True) /\ (forall xs : args, True) /\ (forall s : stmt, True) /\
  (forall l c cs l0, exists l', snd (gen_l l c cs (Some l0)) = Some l' /\ (forall x, mem x l0 || mem x (decls l) = true -> mem x l' = true)) /\
  (forall l : clauses, True).
Proof.
  apply source_ind; intros; auto; simpl.
  - exists l0. split; [reflexivity|]. intros x. rewrite orb_false_r. auto.
  - destruct (gen_s_noted s c cs l0) as (l1 & N1 & H1).
    destruct (gen_s s c cs (Some l0)) as [[k1 c1] na1] eqn:E1. simpl in N1. subst na1.
    rewrite (gen_s_ends _ _ _ _ _ _ _ E1). destruct (ends s); simpl.
    + exists l1. split; [reflexivity|]. intros x. rewrite app_nil_r. apply H1.
    + destruct (H0 c1 cs l1) as (l2 & N2 & H2).
      destruct (gen_l l c1 cs (Some l1)) as [[k2 c2] na2]. simpl in *. subst na2.
      exists l2. split; [reflexivity|]. intros x Hx. rewrite mem_app, orb_assoc in Hx.
      apply H2. apply orb_true_iff in Hx. destruct Hx as [Hx|Hx]; [rewrite (H1 x Hx); reflexivity|].
      rewrite Hx. apply orb_true_r.
Qed.
Lemma gen_l_noted : forall l c cs k c' na', gen_l l c cs (Some []) = (k, c', na') -> forall x, mem x (decls l) = true -> mem x (noted na') = true.
Proof.
  intros l c cs k c' na' E x H. destruct (proj1 (proj2 (proj2 (proj2 gen_all_noted))) l c cs []) as (l' & N & P).
  rewrite E in N. simpl in N. subst na'. simpl. apply P. rewrite H. apply orb_true_r.
Qed.

(* Values of the source and of the code *)
Inductive rval : val sfun -> val ifun -> Prop :=
| R_null : rval VNull VNull
| R_int n : rval (VInt n) (VInt n)
| R_str s : rval (VStr s) (VStr s)
| R_arr l l' : Forall2 rval l l' -> rval (VArr l) (VArr l')
| R_fun f g : rfun f g -> rval (VFun f) (VFun g)
with rref : ref sfun -> ref ifun -> Prop :=
| R_invalid : rref RInvalid RInvalid
| R_void : rref RVoid RVoid
| R_temp v v' : rval v v' -> rref (RTemp v) (RTemp v')
| R_var l : rref (RVar l) (RVar l)
with rfun : sfun -> ifun -> Prop :=
| R_closure ps b en cs K code :
    fair_l b = true -> menv cs en K -> rebind_l 1 K (gen_body ps cs b) = Ok code ->
    rfun (SFun ps b en) (IFun ps code)
with menv : list (list name) -> env -> list (frame ifun) -> Prop :=
| M_nil : menv [] [] []
| M_cons c f g cs en K :
    (forall x, mem x c = true <-> find x f <> None) ->
    (forall x r, find x f = Some r -> exists r', find x g = Some r' /\ rref r r') ->
    menv cs en K -> menv (c :: cs) (f :: en) (g :: K)
| M_skip cs en K : menv cs en K -> menv cs ([] :: en) K.
Definition rframe (f : frame sfun) (g : frame ifun) : Prop :=
  forall x r, find x f = Some r -> exists r', find x g = Some r' /\ rref r r'.

Lemma menv_doms : forall cs en K, menv cs en K -> doms cs K.
Proof.
  induction 1; [constructor | | assumption]. constructor; [|assumption].
  intros x Hm. apply H in Hm. destruct (find x f) as [r|] eqn:E; [|congruence].
  destruct (H0 _ _ E) as (r' & E' & _). congruence.
Qed.
Lemma resolve_menv : forall x cs en K, menv cs en K -> forall d,
  match lookup x en with
  | Some r => exists n g r', resolve d cs x = LLocal (d + n) x /\ nth_error K n = Some g /\ find x g = Some r' /\ rref r r'
  | None => resolve d cs x = LGlobal x
  end.
Proof.
  intros x cs en K. induction 1 as [|c f g cs en K D Rf M IH|cs en K M IH]; intros d; simpl; auto.
  - destruct (find x f) as [r|] eqn:E.
    + assert (Hm : mem x c = true) by (apply D; congruence). rewrite Hm.
      destruct (Rf _ _ E) as (r' & E' & Hr). exists 0%nat, g, r'. rewrite Nat.add_0_r. auto.
    + assert (Hm : mem x c = false). { destruct (mem x c) eqn:Hm; auto. apply D in Hm. congruence. }
      rewrite Hm. specialize (IH (S d)). destruct (lookup x en).
      * destruct IH as (n & g0 & r' & E1 & E2 & E3 & E4). exists (S n), g0, r'.
        rewrite E1. split; [f_equal; lia|]. auto.
      * exact IH.
  - specialize (IH d). exact IH.
Qed.

(* Rebinding throws if and only if a name from outside is bypassed. *)
Definition agrees {A} (b : bool) (m : outcome A) : Prop := if b then m = Throw else exists t, m = Ok t.
Lemma agrees_bind : forall {A B} b1 b2 (m : outcome A) (k : A -> outcome B),
  agrees b1 m -> (forall t, agrees b2 (k t)) -> agrees (b1 || b2) (obind m k).
Proof.
  intros A B b1 b2 m k H1 H2. destruct b1; simpl in *.
  - rewrite H1. reflexivity.
  - destruct H1 as (t & ->). apply H2.
Qed.
Lemma agrees_ret : forall {A} (t : A), agrees false (Ok t).
Proof. intros. simpl. eauto. Qed.
Lemma agrees_map : forall {A B} b (m : outcome A) (k : A -> B), agrees b m -> agrees b (do a <- m ; Ok (k a)).
Proof. intros A B b m k H. rewrite <- (orb_false_r b). apply agrees_bind; auto. intros. apply agrees_ret. Qed.
Lemma bypassed_app : forall en a b, bypassed en (a ++ b) = bypassed en a || bypassed en b.
Proof. intros. apply existsb_app. Qed.

Lemma resolve_app : forall x cs1 cs d,
  resolve d (cs1 ++ cs) x = if existsb (mem x) cs1 then resolve d cs1 x else resolve (d + length cs1) cs x.
Proof.
  induction cs1 as [|c cs1 IH]; intros cs d; simpl; [f_equal; lia|].
  destruct (mem x c); simpl; auto. rewrite IH. destruct (existsb (mem x) cs1); auto. f_equal. lia.
Qed.
Lemma resolve_in : forall x cs d, existsb (mem x) cs = true -> exists n, resolve d cs x = LLocal n x /\ (n < d + length cs)%nat.
Proof.
  induction cs as [|c cs IH]; intros d H; simpl in *; [discriminate|].
  destruct (mem x c); [exists d; split; [auto|lia]|]. destruct (IH (S d) H) as (n & E & L). exists n. split; [auto|lia].
Qed.

Section Free.
Variables (cs : list (list name)) (en : env) (K : list (frame ifun)).
Hypothesis M : menv cs en K.
Definition same_names (bs : list name) (cs1 : list (list name)) : Prop := forall x, mem x bs = existsb (mem x) cs1.
Lemma same_cons : forall bs cs1 c, same_names bs cs1 -> same_names (c ++ bs) (c :: cs1).
Proof. intros bs cs1 c H x. rewrite mem_app. simpl. rewrite H. reflexivity. Qed.
Lemma same_nil : forall bs cs1, same_names bs cs1 -> same_names bs ([] :: cs1).
Proof. intros bs cs1 H. exact (same_cons bs cs1 [] H). Qed.
Lemma same_one : forall bs c cs1 x, same_names bs (c :: cs1) -> same_names (x :: bs) ((x :: c) :: cs1).
Proof. intros bs c cs1 x H y. simpl. rewrite H. simpl. apply orb_assoc. Qed.
Lemma same_decl : forall bs c cs1 l, same_names bs (c :: cs1) -> same_names (l ++ bs) ((l ++ c) :: cs1).
Proof. intros bs c cs1 l H y. simpl. rewrite !mem_app, H. simpl. apply orb_assoc. Qed.

Lemma free_leaf : forall x bs cs1, same_names bs cs1 ->
  agrees (bypassed en (if mem x bs then [] else [x])) (rebind_leaf (length cs1) K (resolve 0 (cs1 ++ cs) x)).
Proof.
  intros x bs cs1 S. rewrite (S x), resolve_app. destruct (existsb (mem x) cs1) eqn:E.
  - destruct (resolve_in x cs1 0 E) as (n & -> & L). simpl. apply Nat.ltb_lt in L. simpl in L. rewrite L. eauto.
  - simpl. pose proof (resolve_menv x _ _ _ M (length cs1)) as H.
    destruct (lookup x en) as [r|]; simpl.
    + destruct H as (n & g & r' & -> & Hn & Hf & Hr). simpl.
      destruct (Nat.ltb_spec (length cs1 + n) (length cs1)); [lia|].
      replace (length cs1 + n - length cs1)%nat with n by lia. rewrite Hn, Hf.
      inversion Hr; simpl; eauto.
    + rewrite H. simpl. eauto.
Qed.

Ltac bind_all :=
  rewrite ?bypassed_app;
  repeat first [ apply agrees_map | apply agrees_bind; [ | intros ? ] ].
Lemma free_rebind :
  (forall e bs cs1, same_names bs cs1 ->
     agrees (bypassed en (free_e bs e)) (rebind_e (length cs1) K (gen_e (cs1 ++ cs) e))) /\
  (forall xs bs cs1, same_names bs cs1 ->
     agrees (bypassed en (free_a bs xs)) (rebind_a (length cs1) K (gen_a (cs1 ++ cs) xs))) /\
  (forall s bs c cs1 na, same_names bs (c :: cs1) ->
     agrees (bypassed en (free_s bs s)) (rebind_l (S (length cs1)) K (fst (fst (gen_s s c (cs1 ++ cs) na))))) /\
  (forall l bs c cs1 na, same_names bs (c :: cs1) ->
     agrees (bypassed en (free_l bs l)) (rebind_l (S (length cs1)) K (fst (fst (gen_l l c (cs1 ++ cs) na))))) /\
  (forall l bs inner cb c cs1, same_names bs (c :: cs1) -> same_names inner (cb :: c :: cs1) ->
     agrees (bypassed en (free_k bs inner l)) (rebind_k (S (length cs1)) K (gen_k l cb c (cs1 ++ cs)))).
Proof.
  apply source_ind; intros; simpl free_e; simpl free_a; simpl free_s; simpl free_l; simpl free_k;
    simpl gen_e; simpl gen_a; cbn [gen_s gen_k fst snd]; cbn [rebind_e rebind_a rebind_k rebind_l];
    cbn [rebind_s].
  - apply agrees_ret.
  - apply agrees_ret.
  - bind_all. apply free_leaf; auto.
  - bind_all. apply (H (ps ++ bs) ps cs1 None). apply same_cons; auto.
  - bind_all; auto.
  - bind_all; auto.
  - bind_all; auto.
  - bind_all; auto.
  - bind_all; auto.
  - bind_all; auto.
  - apply agrees_ret.
  - bind_all; auto.
  - bind_all. apply (H bs (c :: cs1)); auto.
  - bind_all. apply (H (x :: bs) ((x :: c) :: cs1)). apply same_one; auto.
  - bind_all. apply (H (x :: bs) ((x :: c) :: cs1)). apply same_one; auto.
  - destruct (flat b); cbn [fst].
    + apply H; auto.
    + cbn [rebind_l rebind_s]. bind_all. apply (H bs [] (c :: cs1) None). apply same_nil; auto.
  - bind_all; [apply (H bs (c :: cs1)); auto | apply (H0 bs [] (c :: cs1) None) | apply (H1 bs [] (c :: cs1) None)]; apply same_nil; auto.
  - bind_all; [apply (H bs (c :: cs1)); auto | apply H0; auto].
  - bind_all; [apply (H bs (c0 :: cs1)); auto | apply (H0 bs [] (c0 :: cs1) None) | apply (H1 bs [] (c0 :: cs1) None)]; apply same_nil; auto.
  - bind_all; [apply (H bs [] (c0 :: cs1) None) | apply (H0 bs (c0 :: cs1)); auto | apply (H1 bs [] (c0 :: cs1) None)]; apply same_nil; auto.
  - assert (S1 : same_names (x :: bs) ([x] :: c0 :: cs1)) by (apply (same_cons bs (c0 :: cs1) [x]); auto).
    bind_all; [apply (H _ _ S1) | apply (H0 _ _ S1) | apply (H1 _ _ S1) | apply (H2 (x :: bs) [] ([x] :: c0 :: cs1) None); apply same_nil; auto
              | apply (H3 bs [] (c0 :: cs1) None); apply same_nil; auto].
  - assert (S1 : same_names (m :: k :: bs) ([m; k] :: c0 :: cs1)) by (apply (same_cons bs (c0 :: cs1) [m; k]); auto).
    bind_all; [apply (H _ _ S1) | apply (H0 (m :: k :: bs) [] ([m; k] :: c0 :: cs1) None); apply same_nil; auto
              | apply (H1 bs [] (c0 :: cs1) None); apply same_nil; auto].
  - bind_all; [apply (H bs [] (c0 :: cs1) None); apply same_nil; auto | apply (H0 (x :: bs) [x] (c0 :: cs1) None)].
    apply (same_cons bs (c0 :: cs1) [x]); auto.
  - bind_all. apply (H bs (c :: cs1)); auto.
  - bind_all. apply (H bs (c :: cs1)); auto.
  - apply agrees_ret.
  - apply agrees_ret.
  - apply agrees_ret.
  - bind_all. apply (H bs (c :: cs1)); auto.
  - apply agrees_ret.
  - cbn [gen_l]. pose proof (gen_s_ctx s c (cs1 ++ cs) na) as Ec.
    specialize (H bs c cs1 na H1).
    destruct (gen_s s c (cs1 ++ cs) na) as [[k1 c1] na1] eqn:E1. cbn [fst snd] in *. subst c1.
    rewrite (gen_s_ends _ _ _ _ _ _ _ E1). destruct (ends s).
    + rewrite app_nil_r. exact H.
    + specialize (H0 (decl s ++ bs) (decl s ++ c) cs1 na1 (same_decl _ _ _ _ H1)).
      destruct (gen_l l (decl s ++ c) (cs1 ++ cs) na1) as [[k2 c2] na2]. cbn [fst] in *.
      rewrite rebind_l_app. bind_all; auto.
  - apply agrees_ret.
  - destruct (gen_l b cb (c :: cs1 ++ cs) (Some [])) as [[k c1] na1] eqn:E. cbn [rebind_k].
    bind_all; [apply (H bs (c :: cs1)); auto| |].
    + specialize (H0 inner cb (c :: cs1) (Some []) H3). change ((c :: cs1) ++ cs) with (c :: cs1 ++ cs) in H0. rewrite E in H0. exact H0.
    + apply H1; auto. intros x. simpl. rewrite (gen_l_ctx _ _ _ _ _ _ _ x E), mem_app.
      rewrite (H3 x). simpl. apply orb_assoc.
  - destruct (gen_l b cb (c :: cs1 ++ cs) (Some [])) as [[k c1] na1] eqn:E. cbn [rebind_k].
    bind_all.
    + specialize (H inner cb (c :: cs1) (Some []) H2). change ((c :: cs1) ++ cs) with (c :: cs1 ++ cs) in H. rewrite E in H. exact H.
    + apply H0; auto. intros x. simpl. rewrite (gen_l_ctx _ _ _ _ _ _ _ x E), mem_app.
      rewrite (H2 x). simpl. apply orb_assoc.
Qed.
End Free.
