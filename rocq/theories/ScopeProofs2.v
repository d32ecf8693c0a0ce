(* Proofs about worlds that match, and about sequencing. *)
From Verif Require Import Base Monad Text ScopeModel ScopeSpec ScopeProofs1.

Definition roption {A B} (R : A -> B -> Prop) (a : option A) (b : option B) : Prop :=
  match a, b with
  | Some a, Some b => R a b
  | None, None => True
  | _, _ => False
  end.
Definition rcell (c : cell sfun) (c' : cell ifun) : Prop :=
  roption rval (content c) (content c') /\ fixed c = fixed c'.
Definition rworld (w : world sfun) (w' : world ifun) : Prop :=
  Forall2 rcell (store w) (store w') /\ Forall2 rval (out w) (out w').

Lemma rworld_length : forall w w', rworld w w' -> length (store w) = length (store w').
Proof. intros w w' [H _]. induction H; simpl; congruence. Qed.
Lemma Forall2_opt : forall {A B} (R : A -> B -> Prop) l l' n, Forall2 R l l' -> roption R (nth_error l n) (nth_error l' n).
Proof. intros A B R l l' n H. revert n. induction H; intros [|n]; simpl; auto. Qed.
Lemma read_rel : forall w w' r r', rworld w w' -> rref r r' -> roption rval (read w r) (read w' r').
Proof.
  intros w w' r r' [H _] []; simpl; auto.
  pose proof (Forall2_opt _ _ _ l H) as P. destruct (nth_error (store w) l), (nth_error (store w') l); simpl in *; try contradiction; auto.
  apply P.
Qed.
Lemma Forall2_firstn : forall {A B} (R : A -> B -> Prop) n l l', Forall2 R l l' -> Forall2 R (firstn n l) (firstn n l').
Proof. intros A B R n l l' H. revert n. induction H; intros [|n]; simpl; auto. Qed.
Lemma Forall2_skipn : forall {A B} (R : A -> B -> Prop) n l l', Forall2 R l l' -> Forall2 R (skipn n l) (skipn n l').
Proof. intros A B R n l l' H. revert n. induction H; intros [|n]; simpl; auto. Qed.
Lemma put_rel : forall w w' l c c', rworld w w' -> rcell c c' -> rworld (put l c w) (put l c' w').
Proof.
  intros w w' l c c' [H O] C. split; [|exact O]. apply Forall2_app; [apply Forall2_firstn; exact H|].
  constructor; [exact C|]. apply Forall2_skipn. exact H.
Qed.
Lemma initialize_rel : forall w w' l v v' im, rworld w w' -> rval v v' -> rworld (initialize l v im w) (initialize l v' im w').
Proof. intros. apply put_rel; auto. split; simpl; auto. Qed.
Lemma create_rel : forall w w', rworld w w' -> rworld (fst (create w)) (fst (create w')) /\ snd (create w) = snd (create w').
Proof.
  intros w w' H. split; [|apply rworld_length; exact H]. destruct H as [H O]. split; [|exact O].
  apply Forall2_app; auto. constructor; auto. split; simpl; auto.
Qed.
Lemma assign_rel : forall w w' r r' v v', rworld w w' -> rref r r' -> rval v v' ->
  roption rworld (assign r v w) (assign r' v' w').
Proof.
  intros w w' r r' v v' H [] V; simpl; auto.
  pose proof (Forall2_opt _ _ _ l (proj1 H)) as P.
  destruct (nth_error (store w) l) as [[o f]|], (nth_error (store w') l) as [[o' f']|]; simpl in *; try contradiction; auto.
  destruct P as [P E]. simpl in *. subst f'. destruct o, o'; simpl in *; try contradiction; auto.
  destruct f; simpl; auto. apply initialize_rel; auto.
Qed.
Lemma print_rel : forall w w' v v', rworld w w' -> rval v v' -> rworld (print v w) (print v' w').
Proof. intros w w' v v' [H O] V. split; [exact H|]. apply Forall2_app; auto. Qed.
Lemma Forall2_len : forall {A B} (R : A -> B -> Prop) l l', Forall2 R l l' -> length l = length l'.
Proof. intros A B R l l' H. induction H; simpl; congruence. Qed.
Lemma test_rel : forall v v', rval v v' -> test v = test v'.
Proof. intros v v' []; simpl; auto. erewrite Forall2_len; eauto. Qed.
Lemma equal_rel : forall v v' u u', rval v v' -> rval u u' -> equal v u = equal v' u'.
Proof. intros v v' u u' [] []; reflexivity. Qed.
Lemma add_rel : forall v v' u u', rval v v' -> rval u u' -> roption rval (add v u) (add v' u').
Proof. intros v v' u u' [] []; simpl; auto. constructor. Qed.
Lemma all_some_rel : forall w w' xs xs', rworld w w' -> Forall2 rref xs xs' ->
  roption (Forall2 rval) (all_some (map (read w) xs)) (all_some (map (read w') xs')).
Proof.
  intros w w' xs xs' W H. induction H; simpl; [constructor|].
  pose proof (read_rel _ _ _ _ W H) as P. destruct (read w x), (read w' y); simpl in *; try contradiction; auto.
  destruct (all_some (map (read w) l)), (all_some (map (read w') l')); simpl in *; try contradiction; auto.
Qed.

(* results *)
Definition reres (r : eres sfun) (r' : eres ifun) : Prop :=
  match r, r' with
  | ERef r, ERef r' => rref r r'
  | EThr v, EThr v' => rval v v'
  | EFuel, EFuel => True
  | _, _ => False
  end.
Definition rsres (r : sres sfun) (r' : sres ifun) : Prop :=
  match r, r' with
  | Next, Next | Break, Break | Continue, Continue | Fuel, Fuel => True
  | Ret r, Ret r' => rref r r'
  | Thr v, Thr v' => rval v v'
  | _, _ => False
  end.
Definition re (m : world sfun * eres sfun) (m' : world ifun * eres ifun) : Prop :=
  rworld (fst m) (fst m') /\ reres (snd m) (snd m').
Definition rq (m : world sfun * sres sfun) (m' : world ifun * sres ifun) : Prop :=
  rworld (fst m) (fst m') /\ rsres (snd m) (snd m').

Lemma re_thr : forall w w' s, rworld w w' -> re (w, EThr (VStr s)) (w', EThr (error s)).
Proof. intros. split; simpl; auto. constructor. Qed.
Lemma rq_thr : forall w w' s, rworld w w' -> rq (w, Thr (VStr s)) (w', Thr (error s)).
Proof. intros. split; simpl; auto. constructor. Qed.

Lemma with_ref_rel : forall m m' k k', re m m' ->
  (forall r r' w w', rworld w w' -> rref r r' -> re (k r w) (k' r' w')) -> re (with_ref m k) (ebind m' k').
Proof.
  intros [w r] [w' r'] k k' [W R] H. simpl in *. destruct r, r'; simpl in *; try contradiction; auto; split; simpl; auto.
Qed.
Lemma with_val_rel : forall m m' k k', re m m' ->
  (forall v v' w w', rworld w w' -> rval v v' -> re (k v w) (k' v' w')) -> re (with_val m k) (vbind m' k').
Proof.
  intros m m' k k' R H. apply with_ref_rel; auto. intros r r' w w' W Rr.
  pose proof (read_rel _ _ _ _ W Rr) as P. destruct (read w r), (read w' r'); simpl in *; try contradiction; auto.
  apply re_thr; auto.
Qed.
Lemma then_ref_rel : forall m m' k k', re m m' ->
  (forall r r' w w', rworld w w' -> rref r r' -> rq (k r w) (k' r' w')) -> rq (then_ref m k) (after m' k').
Proof.
  intros [w r] [w' r'] k k' [W R] H. simpl in *. destruct r, r'; simpl in *; try contradiction; auto; split; simpl; auto.
Qed.
Lemma then_val_rel : forall m m' (k : val sfun -> world sfun -> world sfun * sres sfun) (k' : bool -> _), re m m' ->
  (forall v w w', rworld w w' -> rq (k v w) (k' (test v) w')) -> rq (then_val m k) (when m' k').
Proof.
  intros m m' k k' R H. apply then_ref_rel; auto. intros r r' w w' W Rr.
  pose proof (read_rel _ _ _ _ W Rr) as P. destruct (read w r), (read w' r'); simpl in *; try contradiction; auto.
  - rewrite <- (test_rel _ _ P). auto.
  - apply rq_thr; auto.
Qed.
Lemma round_rel : forall m m' k k', rq m m' ->
  (forall w w', rworld w w' -> rq (k w) (k' w')) -> rq (round m k) (again m' k').
Proof.
  intros [w r] [w' r'] k k' [W R] H. simpl in *. destruct r, r'; simpl in *; try contradiction; auto; unfold round; simpl; auto; split; simpl; auto.
Qed.

(* loops *)
Definition rbody (k : world sfun -> world sfun * sres sfun) (k' : world ifun -> world ifun * sres ifun) : Prop :=
  forall w w', rworld w w' -> rq (k w) (k' w').
Definition rcond (k : world sfun -> world sfun * eres sfun) (k' : world ifun -> world ifun * eres ifun) : Prop :=
  forall w w', rworld w w' -> re (k w) (k' w').
Lemma while_rel : forall e e' b b' d d', rcond e e' -> rbody b b' -> rbody d d' ->
  forall n, rbody (whiles n e b d) (while_loop n e' b' d').
Proof.
  intros e e' b b' d d' E B D. induction n; intros w w' W; simpl; [split; simpl; auto|].
  apply then_val_rel; [apply E; auto|]. intros v w1 w1' W1. destruct (test v); [|apply D; auto].
  apply round_rel; [apply B; auto|]. exact IHn.
Qed.
Lemma do_rel : forall e e' b b' d d', rcond e e' -> rbody b b' -> rbody d d' ->
  forall n, rbody (dos n b e d) (do_loop n b' e' d').
Proof.
  intros e e' b b' d d' E B D. induction n; intros w w' W; simpl; [split; simpl; auto|].
  apply round_rel; [apply B; auto|]. intros w1 w1' W1.
  apply then_val_rel; [apply E; auto|]. intros v w2 w2' W2. destruct (test v); [apply IHn; auto|apply D; auto].
Qed.
Lemma for_rel : forall e e' s s' b b' d d', rcond e e' -> rcond s s' -> rbody b b' -> rbody d d' ->
  forall n, rbody (fors n e s b d) (for_loop n e' s' b' d').
Proof.
  intros e e' s s' b b' d d' E T B D. induction n; intros w w' W; simpl; [split; simpl; auto|].
  apply then_val_rel; [apply E; auto|]. intros v w1 w1' W1. destruct (test v); [|apply D; auto].
  apply round_rel; [apply B; auto|]. intros w2 w2' W2. apply then_ref_rel; [apply T; auto|]. intros r r' w3 w3' W3 _. apply IHn; auto.
Qed.
Lemma each_rel : forall l b b' d d', (forall v v', rval v v' -> rbody (b v) (b' v')) -> rbody d d' ->
  forall vs vs', Forall2 rval vs vs' -> forall i, rbody (eachs i vs l b d) (each_loop i vs' l b' d').
Proof.
  intros l b b' d d' B D vs vs' V. induction V; intros i w w' W; simpl; [apply D; auto|].
  apply round_rel; [|apply IHV]. apply B; auto. apply initialize_rel; auto. constructor.
Qed.

(* Statements that end do. *)
Section Ends.
Variables (glob : name -> option Z) (call : sfun -> list (ref sfun) -> world sfun -> world sfun * eres sfun) (fuel : nat).
Lemma finish_not_next : forall ev ds w r, r <> Next -> snd (finish ev ds w r) <> Next.
Proof.
  induction ds as [|[e en] ds IH]; intros w r H; simpl; auto.
  destruct (ev e en w) as [w1 []]; simpl; try discriminate; apply IH; auto; discriminate.
Qed.
Lemma close_not_next : forall p, snd p <> Next -> snd (close glob call p) <> Next.
Proof.
  intros [[w s] r] H. simpl in *. destruct r; simpl; try discriminate; try congruence; apply finish_not_next; auto.
Qed.
Lemma scoped_not_next : forall s m k, (forall r w, snd (k r w) <> Next) -> snd (scoped s m k) <> Next.
Proof. intros s [w []] k H; simpl; auto; discriminate. Qed.
Lemma scoped_val_not_next : forall s m k, (forall v w, snd (k v w) <> Next) -> snd (scoped_val s m k) <> Next.
Proof. intros s m k H. apply scoped_not_next. intros r w. destruct (read w r); simpl; auto. discriminate. Qed.
Lemma ends_stops :
  (forall e : expr, True) /\ (forall xs : args, True) /\
  (forall s, ends s = true -> forall sc en w, snd (exec_s glob call fuel s sc en w) <> Next) /\
  (forall l, ends_l l = true -> forall sc en w, snd (exec_l glob call fuel l sc en w) <> Next) /\
  (forall l : clauses, True).
Proof.
  apply source_ind; simpl; intros; auto; try discriminate.
  - apply close_not_next. auto.
  - apply andb_true_iff in H2. destruct H2 as [A B]. apply scoped_val_not_next. intros v w1. simpl.
    destruct (test v); apply close_not_next; auto.
  - apply scoped_val_not_next. discriminate.
  - apply scoped_not_next. intros r w1. destruct r; simpl; try discriminate.
    destruct (nth_error (store w1) l); simpl; try discriminate. destruct (content c); discriminate.
  - destruct (exec_s glob call fuel s sc en w) as [[w1 s1] r1] eqn:E. specialize (H) with (sc := sc) (en := en) (w := w).
    rewrite E in H. simpl in H. destruct (ends s); simpl in *.
    + specialize (H eq_refl). destruct r1; simpl; congruence.
    + destruct r1; simpl; try discriminate. apply H0; auto.
Qed.
End Ends.

(* Arguments *)
Lemma bind_args_eq : forall {F} ps (xs : list (ref F)) f,
  bind_args ps xs f =
  if (length xs <=? length ps)%nat
  then Some (rev (combine ps (xs ++ repeat (RTemp VNull) (length ps - length xs))) ++ f)
  else None.
Proof.
  intros F. induction ps as [|p ps IH]; intros [|x xs] f; simpl; auto.
  - rewrite IH. simpl. rewrite <- app_assoc, Nat.sub_0_r. reflexivity.
  - rewrite IH. destruct (length xs <=? length ps)%nat; auto. rewrite <- app_assoc. reflexivity.
Qed.
Lemma find_app : forall {F} x (f g : frame F), find x (f ++ g) = match find x f with Some r => Some r | None => find x g end.
Proof. induction f as [|[y r] f IH]; intros g; simpl; auto. destruct (x =? y); auto. Qed.
Lemma params_dom : forall {F} x ps (ys : list (ref F)), length ys = length ps -> mem x ps = true <-> find x (rev (combine ps ys)) <> None.
Proof.
  intros F x. induction ps as [|p ps IH]; intros [|y ys] L; simpl in *; try discriminate; [split; congruence|].
  rewrite find_app. simpl. rewrite orb_true_iff, (IH ys) by lia.
  destruct (find x (rev (combine ps ys))); [split; [congruence|right; congruence]|].
  destruct (x =? p); split; intros; try congruence; auto. destruct H; congruence.
Qed.
Definition rentry (a : name * ref sfun) (b : name * ref ifun) : Prop := fst a = fst b /\ rref (snd a) (snd b).
Lemma rframe_entries : forall f g, Forall2 rentry f g -> rframe f g.
Proof.
  intros f g H x r. induction H as [|[y a] [z b] f g [E R] H IH]; simpl; [discriminate|]. simpl in *. subst z.
  destruct (x =? y); auto. intros [= <-]. eauto.
Qed.
Lemma Forall2_combine : forall (ps : list name) xs ys, Forall2 rref xs ys -> Forall2 rentry (combine ps xs) (combine ps ys).
Proof.
  induction ps as [|p ps IH]; intros xs ys H; simpl; [constructor|]. destruct H; constructor; auto. split; auto.
Qed.
Lemma Forall2_rev' : forall {A B} (R : A -> B -> Prop) l l', Forall2 R l l' -> Forall2 R (rev l) (rev l').
Proof. intros A B R l l' H. induction H; simpl; auto. apply Forall2_app; auto. Qed.
Lemma Forall2_repeat : forall {A B} (R : A -> B -> Prop) a b n, R a b -> Forall2 R (repeat a n) (repeat b n).
Proof. induction n; simpl; auto. Qed.
Lemma parameters_rel : forall ps xs xs', Forall2 rref xs xs' ->
  match parameters ps xs, bind_args ps xs' [] with
  | Some f, Some g => (forall x, mem x ps = true <-> find x f <> None) /\ rframe f g
  | None, None => True
  | _, _ => False
  end.
Proof.
  intros ps xs xs' H. rewrite bind_args_eq. unfold parameters. rewrite (Forall2_len _ _ _ H), app_nil_r.
  destruct (Nat.leb_spec (length xs') (length ps)) as [L|L]; auto. split.
  - intros x. apply params_dom. rewrite app_length, repeat_length, (Forall2_len _ _ _ H). lia.
  - apply rframe_entries, Forall2_rev', Forall2_combine, Forall2_app; auto.
    apply Forall2_repeat. constructor. constructor.
Qed.

(* Observations *)
Fixpoint look_rel (v : val sfun) : forall v', rval v v' -> look v = look v'.
Proof.
  destruct v; intros v' H; inversion H; subst; simpl; auto.
  f_equal. clear H. revert l' H1. induction l as [|a l IH]; intros l' H1; inversion H1; subst; simpl; auto.
  f_equal; [apply look_rel; auto|apply IH; auto].
Qed.
Lemma observe_rel : forall m m', re m m' -> observe m = observe m' /\ snd (observe m') <> Undefined.
Proof.
  intros [w r] [w' r'] [W R]. unfold observe. simpl in *. split.
  - f_equal.
    + destruct W as [_ O]. induction O; simpl; auto. f_equal; auto. apply look_rel; auto.
    + destruct r, r'; simpl in *; try contradiction; auto.
      * f_equal. pose proof (read_rel _ _ _ _ W R) as P.
        destruct (read w r), (read w' r0); simpl in *; try contradiction; auto. f_equal. apply look_rel; auto.
      * f_equal. apply look_rel; auto.
  - destruct r, r'; simpl in *; try contradiction; discriminate.
Qed.
