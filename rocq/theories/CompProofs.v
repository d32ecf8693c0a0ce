From Verif Require Import Base Monad Text SortModel ValueModel IntOpsModel OperModel CompModel CompSpec.
From Coq Require Import Lia.

(* ---- folded operators ---- *)

Lemma compare_int : forall fuel l n, compare_partial (S fuel) l (VInt n) = Some (compare_with_int l n).
Proof.
  intros. unfold compare_partial. cbn -[compare_with_int].
  replace (cmp_next (cmp_at fuel) []) with (Some (Ok Equal)) by reflexivity.
  destruct l; cbn -[int_to_real_down real_to_int real_cmp int_cmp]; try reflexivity;
    repeat match goal with
    | |- context [match int_cmp ?x ?y with _ => _ end] => destruct (int_cmp x y)
    | |- context [obind ?x _] => destruct x; cbn [Monad.obind]
    | |- context [match real_cmp ?x ?y with _ => _ end] => destruct (real_cmp x y)
    | |- context [if ?b then _ else _] => destruct b
    end; reflexivity.
Qed.

Lemma total_int : forall fuel l n, compare_total (S fuel) l (VInt n) = Some (total_with_int l n).
Proof.
  intros. unfold compare_total. rewrite compare_int. unfold total_with_int.
  destruct (compare_with_int l n) as [[]| |]; reflexivity.
Qed.

Lemma bi32_general : forall a fuel o l n, foldable o = true -> o <> xo_index ->
  general a (S fuel) o l (VInt n) = Some (bi32 a o l n).
Proof.
  intros a fuel o l n H H1.
  destruct o; try discriminate; try congruence; cbn -[compare_partial compare_total compare_with_int total_with_int];
    rewrite ?compare_int, ?total_int; try reflexivity;
    destruct l; reflexivity.
Qed.

Lemma null_eq : forall fuel l, compare_partial (S fuel) l VNull =
  Some (Ok (match l with VNull => Equal | _ => Unordered end)).
Proof. intros. destruct l; reflexivity. Qed.

Lemma check_null_general : forall a fuel l,
  general a (S fuel) xo_cmp_eq l VNull = Some (Ok (check_null false l)) /\
  general a (S fuel) xo_cmp_ne l VNull = Some (Ok (check_null true l)).
Proof. intros. cbn -[compare_partial]. rewrite null_eq. destruct l; split; reflexivity. Qed.

Lemma notb_const : forall n, op_notb_value (VInt n) = Ok (VInt (Z.lxor n (-1))).
Proof. intros. cbn. unfold op_notb. cbn. now rewrite Z.lxor_m1_r. Qed.

(* ---- induction over units ---- *)

Section UnitInd.
Context {N D : Type} (Q : xunit N D -> Prop).
Hypothesis Hlit : forall v, Q (ULit v).
Hypothesis Href : forall nm, Q (URef nm).
Hypothesis Hfn : forall d, Q (UFn d).
Hypothesis Hif : forall t f a, Forall Q t -> Forall Q f -> Q (UIf t f a).
Hypothesis Hco : forall n a, Forall Q n -> Q (UCoalesce n a).
Hypothesis Hcall : forall args, Forall (Forall Q) args -> Q (UCall args).
Hypothesis Hop : forall o a, Q (UOp o a).
Hypothesis Harr : forall n, Q (UArray n).
Hypothesis Hobj : forall k, Q (UObject k).
Hypothesis Hvar : forall args, Forall (Forall Q) args -> Q (UVariadic args).
Hypothesis Hchk : forall b, Q (UCheck b).
Hypothesis Himp : forall args, Forall (Forall Q) args -> Q (UImport args).
Hypothesis Hcat : forall us, Forall Q us -> Q (UCatch us).

Fixpoint unit_ind (u : xunit N D) : Q u :=
  let one := fix one (us : list (xunit N D)) : Forall Q us :=
    match us with
    | [] => Forall_nil _
    | u :: us => Forall_cons _ (unit_ind u) (one us)
    end in
  let all := fix all (args : list (list (xunit N D))) : Forall (Forall Q) args :=
    match args with
    | [] => Forall_nil _
    | us :: args => Forall_cons _ (one us) (all args)
    end in
  match u with
  | ULit v => Hlit v
  | URef nm => Href nm
  | UFn d => Hfn d
  | UIf t f a => Hif t f a (one t) (one f)
  | UCoalesce n a => Hco n a (one n)
  | UCall args => Hcall args (all args)
  | UOp o a => Hop o a
  | UArray n => Harr n
  | UObject k => Hobj k
  | UVariadic args => Hvar args (all args)
  | UCheck b => Hchk b
  | UImport args => Himp args (all args)
  | UCatch us => Hcat us (one us)
  end.
End UnitInd.

Section Sim.
Context {W E R X F N D : Type} (P : prims W E R X F N D).
Variables (lv : Z) (tail : bool) (e : E) (inv inv' : @invoker W R X F).
Hypothesis inv_eq : forall f self args w, inv f self args w = inv' f self args w.
Notation ref := (ref R F).
Notation res := (res X).
Notation step := (step R F).
Notation st := (@st W R F).
Notation gen := (@gen N D lv tail).
Notation gens := (@gens N D lv tail).
Notation exec := (exec P e inv).
Notation execs := (execs P e inv).
Notation eval := (eval P (lv <? 2) tail e inv').
Notation evals := (evals P (lv <? 2) tail e inv').

Fixpoint gargs (args : list (list (xunit N D))) (code : list (node N D)) : list (node N D) :=
  match args with
  | [] => code
  | us :: args => gargs args (gens PtcNone us code)
  end.
Definition rptc (p : ptc) := if tail then p else PtcNone.

Lemma gen_if : forall p t f a c, ended c = false ->
  gen p (UIf t f a) c = NBranch (gens (if a then PtcNone else p) t []) (gens (if a then PtcNone else p) f []) a :: c.
Proof. intros. cbn. rewrite H. reflexivity. Qed.
Lemma gen_coalesce : forall p n a c, ended c = false ->
  gen p (UCoalesce n a) c = NCoalesce (gens (if a then PtcNone else p) n []) a :: c.
Proof. intros. cbn. rewrite H. reflexivity. Qed.
Lemma gen_call : forall p args c, ended c = false ->
  gen p (UCall args) c =
    if (1 <=? lv) && negb (existsb (existsb clobbers) args)
    then NAltCall (rptc p) :: gargs args (NAltClear :: c)
    else NCall (length args) (rptc p) :: gargs args c.
Proof. intros. cbn -[existsb Z.leb]. rewrite H. reflexivity. Qed.
Lemma gen_variadic : forall p args c, ended c = false ->
  gen p (UVariadic args) c = NVariadic (rptc p) :: gargs args c.
Proof. intros. cbn. rewrite H. reflexivity. Qed.
Lemma gen_import : forall p args c, ended c = false ->
  gen p (UImport args) c = NImport (length args) :: gargs args c.
Proof. intros. cbn. rewrite H. reflexivity. Qed.
Lemma gen_catch : forall p us c, ended c = false ->
  gen p (UCatch us) c = NCatch (gens PtcNone us []) :: c.
Proof. intros. cbn. rewrite H. reflexivity. Qed.
Lemma gens_cons : forall p u u' us c, gens p (u :: u' :: us) c = gens p (u' :: us) (gen PtcNone u c).
Proof. reflexivity. Qed.

(* ---- code that has not run to its end is not run on ---- *)

Definition extends (c c' : list (node N D)) : Prop :=
  forall t t1 r, execs c t = (t1, r) -> r <> Val SNext -> execs c' t = (t1, r).
Lemma ext_refl : forall c, extends c c. Proof. intros c t t1 r H _. exact H. Qed.
Lemma ext_trans : forall a b c, extends a b -> extends b c -> extends a c.
Proof. intros a b c H1 H2 t t1 r H N0. apply H2; [apply H1|]; assumption. Qed.
Lemma ext_cons : forall n c, extends c (n :: c).
Proof. intros n c t t1 r H N0. cbn. rewrite H. destruct r as [[]| | |]; try reflexivity. congruence. Qed.
Lemma ext_const : forall v n c, extends (NConst v :: c) (n :: c).
Proof.
  intros v n c t t1 r H N0. cbn in *. destruct (execs c t) as [t2 [[]| | |]]; try exact H.
  injection H as _ H. congruence.
Qed.

Lemma gen_op_ext : forall o a c, extends c (gen_op lv o a c).
Proof.
  intros o a c. unfold gen_op.
  destruct c as [|[] ]; try apply ext_cons.
  repeat match goal with
  | |- extends _ (if ?b then _ else _) => destruct b
  | |- extends _ (match ?x with _ => _ end) => destruct x
  end; try apply ext_cons; try apply ext_const; try apply ext_refl.
Qed.

Lemma gens_ext_of : forall us, Forall (fun u => forall p c, extends c (gen p u c)) us ->
  forall p c, extends c (gens p us c).
Proof.
  induction us as [|u us IH]; intros H p c; [apply ext_refl|].
  inversion H; subst. destruct us as [|u' us].
  - apply H2.
  - rewrite gens_cons. eapply ext_trans; [apply H2|]. apply IH. assumption.
Qed.
Lemma gargs_ext_of : forall args, Forall (Forall (fun u => forall p c, extends c (gen p u c))) args ->
  forall c, extends c (gargs args c).
Proof.
  induction args as [|us args IH]; intros H c; [apply ext_refl|].
  inversion H; subst. cbn [gargs]. apply (ext_trans c (gens PtcNone us c)); [apply gens_ext_of; assumption|]. apply IH. assumption.
Qed.

Lemma gen_ended : forall p u c, ended c = true -> gen p u c = c.
Proof. intros p u c H. destruct u; cbn; rewrite H; reflexivity. Qed.

Lemma gen_ext : forall u p c, extends c (gen p u c).
Proof.
  induction u using unit_ind; intros p c; destruct (ended c) eqn:Ec;
    try (rewrite gen_ended by exact Ec; apply ext_refl);
    rewrite ?gen_if, ?gen_coalesce, ?gen_variadic, ?gen_import, ?gen_catch by exact Ec;
    try (cbn; rewrite Ec; apply ext_cons); try apply ext_cons.
  - rewrite gen_call by exact Ec. destruct ((1 <=? lv) && _); cbn iota.
    + apply (ext_trans c (NAltClear :: c)); [apply ext_cons|].
      apply (ext_trans _ (gargs args (NAltClear :: c))); [apply gargs_ext_of; assumption|]. apply ext_cons.
    + apply (ext_trans _ (gargs args c)); [apply gargs_ext_of; assumption|]. apply ext_cons.
  - cbn -[gen_op]. rewrite Ec. apply gen_op_ext.
  - apply (ext_trans _ (gargs args c)); [apply gargs_ext_of; assumption|]. apply ext_cons.
  - cbn. rewrite Ec. destruct (2 <=? lv); [apply ext_refl|apply ext_cons].
  - apply (ext_trans _ (gargs args c)); [apply gargs_ext_of; assumption|]. apply ext_cons.
Qed.
Lemma gens_ext : forall us p c, extends c (gens p us c).
Proof. intros. apply gens_ext_of. apply Forall_forall. intros u _. apply gen_ext. Qed.
Lemma gargs_ext : forall args c, extends c (gargs args c).
Proof. intros. apply gargs_ext_of. apply Forall_forall. intros us _. apply Forall_forall. intros u _. apply gen_ext. Qed.

(* ---- only tail calls end the code ---- *)

Lemma gen_op_open : forall o a (c : list (node N D)), ended c = false -> ended (gen_op lv o a c) = false.
Proof.
  intros o a c H. unfold gen_op. destruct c as [|[] ]; try reflexivity.
  repeat match goal with
  | |- ended (if ?b then _ else _) = _ => destruct b
  | |- ended (match ?x with _ => _ end) = _ => destruct x
  end; reflexivity.
Qed.
Lemma rptc_none : rptc PtcNone = PtcNone. Proof. unfold rptc. now destruct tail. Qed.
Lemma gens_open_of : forall us, Forall (fun u => forall c, ended c = false -> ended (gen PtcNone u c) = false) us ->
  forall c, ended c = false -> ended (gens PtcNone us c) = false.
Proof.
  induction us as [|u us IH]; intros H c Hc; [exact Hc|].
  inversion H; subst. destruct us as [|u' us].
  - apply H2; exact Hc.
  - rewrite gens_cons. apply IH; [assumption|]. apply H2; exact Hc.
Qed.
Lemma gen_open : forall u c, ended c = false -> ended (gen PtcNone u c) = false.
Proof.
  induction u using unit_ind; intros c Ec;
    rewrite ?gen_if, ?gen_coalesce, ?gen_variadic, ?gen_import, ?gen_catch by exact Ec;
    try (cbn; rewrite Ec; reflexivity); try reflexivity.
  - cbn. replace (if a then PtcNone else PtcNone) with PtcNone by (destruct a; reflexivity).
    assert (A := gens_open_of t H [] eq_refl). assert (B := gens_open_of f H0 [] eq_refl).
    unfold ended in A, B. destruct (gens PtcNone t []); [reflexivity|]. destruct (gens PtcNone f []); [reflexivity|].
    now rewrite A.
  - rewrite gen_call by exact Ec. rewrite rptc_none. destruct ((1 <=? lv) && _); reflexivity.
  - cbn -[gen_op]. rewrite Ec. apply gen_op_open. exact Ec.
  - rewrite rptc_none. reflexivity.
  - cbn. rewrite Ec. destruct (2 <=? lv); [exact Ec|reflexivity].
Qed.
Lemma gens_open : forall us c, ended c = false -> ended (gens PtcNone us c) = false.
Proof. intros. apply gens_open_of; [|assumption]. apply Forall_forall. intros u _. apply gen_open. Qed.
Lemma gargs_open : forall args c, ended c = false -> ended (gargs args c) = false.
Proof. induction args as [|us args IH]; intros c H; [exact H|]. cbn [gargs]. apply IH, gens_open, H. Qed.

(* ---- states ---- *)

Lemma cur_set_cur : forall (t : st) s, cur (set_cur t s) = s.
Proof. intros [w a b []] s; reflexivity. Qed.
Lemma alt_set_cur : forall (t : st) s, alt (set_cur t s) = alt t.
Proof. intros [w a b []] s; reflexivity. Qed.
Lemma sw_set_cur : forall (t : st) s, sw (set_cur t s) = sw t.
Proof. intros [w a b []] s; reflexivity. Qed.
Lemma wd_set_cur : forall (t : st) s, wd (set_cur t s) = wd t.
Proof. intros [w a b []] s; reflexivity. Qed.
Lemma cur_set_alt : forall (t : st) s, cur (set_alt t s) = cur t.
Proof. intros [w a b []] s; reflexivity. Qed.
Lemma sw_set_alt : forall (t : st) s, sw (set_alt t s) = sw t.
Proof. intros [w a b []] s; reflexivity. Qed.
Lemma wd_set_alt : forall (t : st) s, wd (set_alt t s) = wd t.
Proof. intros [w a b []] s; reflexivity. Qed.
Lemma cur_set_wd : forall (t : st) w, cur (set_wd t w) = cur t.
Proof. reflexivity. Qed.
Lemma alt_set_wd : forall (t : st) w, alt (set_wd t w) = alt t.
Proof. reflexivity. Qed.
Lemma sw_set_wd : forall (t : st) w, sw (set_wd t w) = sw t.
Proof. reflexivity. Qed.
Lemma wd_set_wd : forall (t : st) w, wd (set_wd t w) = w.
Proof. reflexivity. Qed.
Lemma cur_swap : forall t : st, cur (swap_stacks t) = alt t.
Proof. intros [w a b []]; reflexivity. Qed.
Lemma alt_swap : forall t : st, alt (swap_stacks t) = cur t.
Proof. intros [w a b []]; reflexivity. Qed.
Lemma sw_swap : forall t : st, sw (swap_stacks t) = negb (sw t).
Proof. reflexivity. Qed.
Lemma wd_swap : forall t : st, wd (swap_stacks t) = wd t.
Proof. reflexivity. Qed.
Lemma set_wd_same : forall t : st, set_wd t (wd t) = t.
Proof. intros [w a b c]; reflexivity. Qed.
Ltac stx := repeat progress rewrite ?cur_set_cur, ?alt_set_cur, ?sw_set_cur, ?wd_set_cur, ?cur_set_alt, ?sw_set_alt, ?wd_set_alt,
  ?cur_set_wd, ?alt_set_wd, ?sw_set_wd, ?wd_set_wd, ?cur_swap, ?alt_swap, ?sw_swap, ?wd_swap in *.

(* ---- the relation ---- *)

Definition same (nc ca : bool) (t1 t' : st) : Prop :=
  (nc = true -> alt t' = alt t1) /\ (nc || ca = true -> sw t' = sw t1).
Definition sim (nc ca pl : bool) (t1 : st) (base : list ref) (h : nat) (m : st * res status) (r : W * res step) : Prop :=
  match r with
  | (w, Val (Next s)) =>
    exists t', m = (t', Val SNext) /\ wd t' = w /\ cur t' = s ++ base /\ length s = h /\ same nc ca t1 t'
  | (w, Val (Tail r)) =>
    exists t' tl, m = (t', Val SReturn) /\ wd t' = w /\ cur t' = r :: tl /\ (ca = true -> sw t' = sw t1)
  | (w, Exn x) => exists t', m = (t', Exn x) /\ wd t' = w /\ (pl = true -> sw t' = sw t1)
  | (w, Bad) => exists t', m = (t', Bad) /\ wd t' = w
  | (w, Fuel) => exists t', m = (t', Fuel) /\ wd t' = w
  end.

Lemma same_refl : forall nc ca t, same nc ca t t.
Proof. split; reflexivity. Qed.

Lemma with_top_sim : forall nc ca pl k f t1 s base, cur t1 = s ++ base -> (k <= length s)%nat ->
  sim nc ca pl t1 base (S (length s - k)) (with_top k f t1) (operands k f (wd t1) s).
Proof.
  intros nc ca pl k f t1 s base Hc Hk. unfold with_top, operands. rewrite Hc.
  replace (length (s ++ base) <? k)%nat with false by (symmetry; apply Nat.ltb_ge; rewrite app_length; lia).
  replace (length s <? k)%nat with false by (symmetry; apply Nat.ltb_ge; lia).
  rewrite firstn_app, skipn_app. replace (k - length s)%nat with 0%nat by lia. rewrite firstn_O, app_nil_r, skipn_O.
  destruct (f (firstn k s) (wd t1)) as [w [r|x| |]]; cbn [lift sim].
  - eexists. split; [reflexivity|]. stx. repeat split; try reflexivity; stx; try reflexivity.
    cbn [length]. rewrite skipn_length. reflexivity.
  - eexists. split; [reflexivity|]. stx. split; reflexivity.
  - eexists. split; reflexivity.
  - eexists. split; reflexivity.
Qed.

Lemma generate_eq : forall f self n k w, generate P inv f self n k w = generate P inv' f self n k w.
Proof.
  induction n as [|n IH]; intros; [reflexivity|]. cbn [generate]. rewrite inv_eq.
  destruct (inv' f self [Temp (VInt k)] w) as [w1 [r|x| |]]; try reflexivity.
  destruct (read P w1 r); [|reflexivity]. now rewrite IH.
Qed.
Lemma expand_eq : forall g w, expand P inv g w = expand P inv' g w.
Proof.
  intros g w. unfold expand.
  destruct (read P w g) as [[]|]; try reflexivity;
  (destruct (target P _); [|reflexivity]; rewrite inv_eq;
   destruct (inv' f (pop_sub P g) [] w) as [w1 [r1|x| |]]; try reflexivity;
   destruct (read P w1 r1) as [[]|]; try reflexivity;
   destruct ((_ <? 0) || _); [reflexivity|]; apply generate_eq).
Qed.

Lemma invoke_top_sim : forall ca pl p args t1 top s base, cur t1 = top :: s ++ base ->
  sim false ca pl t1 base (S (length s)) (invoke_top P inv p args t1) (call P inv' p args top s (wd t1)).
Proof.
  intros ca pl p args t1 top s base Hc. unfold invoke_top, call. rewrite Hc.
  destruct (read P (wd t1) top) as [v|x].
  2: { cbn. eexists. repeat split; reflexivity. }
  destruct (target P v) as [f|].
  2: { cbn. eexists. repeat split; reflexivity. }
  destruct p; [rewrite inv_eq; destruct (inv' f (pop_sub P top) args (wd t1)) as [w [r|x| |]]| | |];
    cbn [lift sim]; try (eexists; split; [reflexivity|]); try (eexists; split; [reflexivity|]); stx;
    repeat split; try reflexivity; stx; try reflexivity; try discriminate; try (intros; stx; reflexivity).
  all: eexists; eexists; split; [reflexivity|]; stx; repeat split; reflexivity.
Qed.

(* ---- lists of units ---- *)

Fixpoint args_of (args : list (list (xunit N D))) (w : W) : W * res (list ref) :=
  match args with
  | [] => (w, Val [])
  | us :: args =>
    match evals PtcNone us w [] with
    | (w, Val (Next [r])) =>
      match args_of args w with
      | (w, Val l) => (w, Val (r :: l))
      | f => f
      end
    | (w, Val _) => (w, Bad)
    | (w, Exn x) => (w, Exn x)
    | (w, Bad) => (w, Bad)
    | (w, Fuel) => (w, Fuel)
    end
  end.

Lemma forallb_impl_in : forall A (f g : A -> bool) l, Forall (fun x => f x = true -> g x = true) l ->
  forallb f l = true -> forallb g l = true.
Proof.
  induction l as [|x l IH]; intros H K; [reflexivity|]. inversion H; subst. cbn in *.
  apply andb_true_iff in K as [K1 K2]. rewrite H2 by exact K1. now apply IH.
Qed.
Lemma plain_calm : forall u : xunit N D, plain lv u = true -> calm lv u = true.
Proof.
  induction u using unit_ind; cbn [plain calm]; intros K; try reflexivity.
  - apply andb_true_iff in K as [K1 K2]. rewrite (forallb_impl_in _ _ _ _ H K1), (forallb_impl_in _ _ _ _ H0 K2). reflexivity.
  - exact (forallb_impl_in _ _ _ _ H K).
  - apply andb_true_iff in K as [_ K]. revert K. apply forallb_impl_in.
    eapply Forall_impl; [|exact H]. intros us Hus. now apply forallb_impl_in.
  - revert K. apply forallb_impl_in. eapply Forall_impl; [|exact H]. intros us Hus. now apply forallb_impl_in.
  - revert K. apply forallb_impl_in. eapply Forall_impl; [|exact H]. intros us Hus. now apply forallb_impl_in.
  - exact K.
Qed.

Definition unit_sim (u : xunit N D) : Prop :=
  forall p c t t1 s base h, ended c = false -> execs c t = (t1, Val SNext) -> cur t1 = s ++ base ->
  height u (length s) = Some h ->
  sim (negb (clobbers u)) (calm lv u) (plain lv u) t1 base h (execs (gen p u c) t) (eval p u (wd t1) s).
Definition units_sim (us : list (xunit N D)) : Prop :=
  forall p c t t1 s base h, ended c = false -> execs c t = (t1, Val SNext) -> cur t1 = s ++ base ->
  heights us (length s) = Some h ->
  sim (negb (existsb clobbers us)) (forallb (calm lv) us) (forallb (plain lv) us) t1 base h
    (execs (gens p us c) t) (evals p us (wd t1) s).

Lemma evals_cons : forall p u u' us w s, evals p (u :: u' :: us) w s =
  match eval PtcNone u w s with
  | (w, Val (Next s)) => evals p (u' :: us) w s
  | r => r
  end.
Proof. reflexivity. Qed.

Lemma units_sim_of : forall us, Forall unit_sim us -> units_sim us.
Proof.
  induction us as [|u us IH]; intros H p c t t1 s base h Ec Hc Hs Hh.
  - cbn in Hh. injection Hh as <-. cbn. exists t1. rewrite Hc. repeat split; try reflexivity. exact Hs.
  - inversion H as [|? ? Hu Hus]; subst. specialize (IH Hus). destruct us as [|u' us].
    + cbn in Hh. destruct (height u (length s)) as [h1|] eqn:E1; [|discriminate]. injection Hh as ->.
      cbn [gens evals existsb forallb]. rewrite orb_false_r, !andb_true_r. eapply Hu; eassumption.
    + rewrite gens_cons, evals_cons. cbn [heights] in Hh.
      destruct (height u (length s)) as [h1|] eqn:E1; [|discriminate].
      pose proof (Hu PtcNone c t t1 s base h1 Ec Hc Hs E1) as S1.
      destruct (eval PtcNone u (wd t1) s) as [w [[s'|r]|x| |]]; cbn [sim] in S1.
      * destruct S1 as (t' & A1 & A2 & A3 & A4 & A5 & A6). subst w h1.
        pose proof (IH p (gen PtcNone u c) t t' s' base h (gen_open u c Ec) A1 A3 Hh) as S2.
        remember (u' :: us) as rest.
        change (existsb clobbers (u :: rest)) with (clobbers u || existsb clobbers rest).
        change (forallb (calm lv) (u :: rest)) with (calm lv u && forallb (calm lv) rest).
        change (forallb (plain lv) (u :: rest)) with (plain lv u && forallb (plain lv) rest).
        rewrite negb_orb.
        destruct (evals p rest (wd t') s') as [w2 [[s2|r2]|x2| |]]; cbn [sim] in S2 |- *.
        -- destruct S2 as (t2 & B1 & B2 & B3 & B4 & B5 & B6). exists t2. repeat split; try assumption.
           ++ intros K. apply andb_true_iff in K as [K1 K2]. rewrite B5, A5 by assumption. reflexivity.
           ++ intros K. rewrite B6, A6; [reflexivity| |];
                destruct (negb (clobbers u)), (calm lv u), (negb (existsb clobbers rest)), (forallb (calm lv) rest);
                try reflexivity; try discriminate.
        -- destruct S2 as (t2 & tl2 & B1 & B2 & B3 & B4). exists t2, tl2. repeat split; try assumption.
           intros K. apply andb_true_iff in K as [K1 K2]. rewrite B4, A6 by (rewrite ?K1, ?orb_true_r; trivial). reflexivity.
        -- destruct S2 as (t2 & B1 & B2 & B3). exists t2. repeat split; try assumption.
           intros K. apply andb_true_iff in K as [K1 K2]. rewrite B3 by assumption.
           apply A6. rewrite (plain_calm u K1). apply orb_true_r.
        -- exact S2.
        -- exact S2.
      * destruct S1 as (t' & tl1 & A1 & A2 & A3 & A4). exists t', tl1. repeat split; try assumption.
        -- eapply gens_ext; [exact A1|discriminate].
        -- intros K. apply A4. cbn in K. apply andb_true_iff in K as [K _]. exact K.
      * destruct S1 as (t' & A1 & A2 & A3). exists t'. repeat split; try assumption.
        -- eapply gens_ext; [exact A1|discriminate].
        -- intros K. apply A3. cbn in K. apply andb_true_iff in K as [K _]. exact K.
      * destruct S1 as (t' & A1 & A2). exists t'. split; [|assumption]. eapply gens_ext; [exact A1|discriminate].
      * destruct S1 as (t' & A1 & A2). exists t'. split; [|assumption]. eapply gens_ext; [exact A1|discriminate].
Qed.

Definition branch (us : list (xunit N D)) (assign : bool) (p : ptc) (w : W) (c : ref) (s : list ref) : W * res step :=
  match us with
  | [] => (w, Val (Next (c :: s)))
  | _ =>
    if assign then
      match evals PtcNone us w [] with
      | (w, Val (Next [r])) =>
        match read P w r with
        | inr x => (w, Exn x)
        | inl v =>
          match open P c w with
          | (w, inr x) => (w, Exn x)
          | (w, inl _) => (store P c v w, Val (Next (c :: s)))
          end
        end
      | (w, Val _) => (w, Bad)
      | r => r
      end
    else
      match evals p us w [] with
      | (w, Val (Next [r])) => (w, Val (Next (r :: s)))
      | (w, Val (Next _)) => (w, Bad)
      | r => r
      end
  end.

Lemma eval_if : forall p t f a w s, eval p (UIf t f a) w s =
  match s with
  | [] => (w, Bad)
  | c :: s =>
    match read P w c with
    | inr x => (w, Exn x)
    | inl v => branch (if test P v then t else f) a (rptc p) w c s
    end
  end.
Proof. reflexivity. Qed.
Lemma eval_coalesce : forall p n a w s, eval p (UCoalesce n a) w s =
  match s with
  | [] => (w, Bad)
  | c :: s =>
    match read P w c with
    | inr x => (w, Exn x)
    | inl VNull => branch n a (rptc p) w c s
    | inl _ => (w, Val (Next (c :: s)))
    end
  end.
Proof. reflexivity. Qed.
Lemma eval_call : forall p args w s, eval p (UCall args) w s =
  match args_of args w with
  | (w, Val l) => match s with top :: s => call P inv' (rptc p) l top s w | [] => (w, Bad) end
  | (w, Exn x) => (w, Exn x)
  | (w, Bad) => (w, Bad)
  | (w, Fuel) => (w, Fuel)
  end.
Proof. reflexivity. Qed.
Lemma eval_variadic : forall p args w s, eval p (UVariadic args) w s =
  match args_of args w with
  | (w, Val [top; g]) =>
    match expand P inv' g w with
    | (w, Val l) => call P inv' (rptc p) l top s w
    | (w, Exn x) => (w, Exn x)
    | (w, Bad) => (w, Bad)
    | (w, Fuel) => (w, Fuel)
    end
  | (w, Val _) => (w, Bad)
  | (w, Exn x) => (w, Exn x)
  | (w, Bad) => (w, Bad)
  | (w, Fuel) => (w, Fuel)
  end.
Proof. reflexivity. Qed.
Lemma eval_import : forall p args w s, eval p (UImport args) w s =
  match args_of args w with
  | (w, Val (path :: l)) =>
    match read P w path with
    | inr x => (w, Exn x)
    | inl v =>
      match load P v w with
      | (w, inr x) => (w, Exn x)
      | (w, inl f) => lift s (inv' f Void l w)
      end
    end
  | (w, Val []) => (w, Bad)
  | (w, Exn x) => (w, Exn x)
  | (w, Bad) => (w, Bad)
  | (w, Fuel) => (w, Fuel)
  end.
Proof. reflexivity. Qed.
Lemma eval_catch : forall p us w s, eval p (UCatch us) w s =
  match evals PtcNone us w [] with
  | (w, Val (Next _)) => (w, Val (Next (Temp VNull :: s)))
  | (w, Exn x) => (w, Val (Next (Temp (xval P x) :: s)))
  | (w, Val (Tail _)) => (w, Bad)
  | r => r
  end.
Proof. reflexivity. Qed.

(* ---- tail calls are made only where they are asked for ---- *)

Lemma lift_tail : forall s (m : W * res ref) w r, lift s m = (w, Val (Tail r)) -> False.
Proof. intros s [w0 [a|x| |]] w r H; discriminate. Qed.
Lemma operands_tail : forall k (f : list ref -> W -> W * res ref) w0 s w r, operands k f w0 s = (w, Val (Tail r)) -> False.
Proof. intros k f w0 s w r H. unfold operands in H. destruct (length s <? k)%nat; [discriminate|]. eapply lift_tail; exact H. Qed.
Lemma call_tail : forall args top s w0 w r, call P inv' PtcNone args top s w0 = (w, Val (Tail r)) -> False.
Proof.
  intros args top s w0 w r H. unfold call in H. destruct (read P w0 top); [|discriminate].
  destruct (target P v); [|discriminate]. eapply lift_tail; exact H.
Qed.
Definition no_tail (u : xunit N D) : Prop := forall w0 s w r, eval PtcNone u w0 s = (w, Val (Tail r)) -> False.
Lemma no_tails_of : forall us, Forall no_tail us -> forall w0 s w r, evals PtcNone us w0 s = (w, Val (Tail r)) -> False.
Proof.
  induction us as [|u us IH]; intros H w0 s w r K; [discriminate|]. inversion H; subst.
  destruct us as [|u' us]; [exact (H2 _ _ _ _ K)|]. rewrite evals_cons in K.
  destruct (eval PtcNone u w0 s) as [w1 [[s1|r1]|x| |]] eqn:E1; try discriminate K.
  - exact (IH H3 _ _ _ _ K).
  - exact (H2 _ _ _ _ E1).
Qed.
Lemma branch_tail : forall us, Forall no_tail us -> forall a w0 c s w r,
  branch us a PtcNone w0 c s = (w, Val (Tail r)) -> False.
Proof.
  intros us H a w0 c s w r K. unfold branch in K. destruct us as [|u us]; [discriminate|].
  pose proof (no_tails_of _ H w0 []) as Q. destruct a.
  - destruct (evals PtcNone (u :: us) w0 []) as [w1 [[[|r1 [|]]|r1]|x| |]]; try discriminate K.
    destruct (read P w1 r1); [|discriminate K]. destruct (open P c w1) as [? []]; discriminate K.
  - destruct (evals PtcNone (u :: us) w0 []) as [w1 [[[|r1 [|]]|r1]|x| |]] eqn:E1; try discriminate K.
    exact (Q _ _ eq_refl).
Qed.
Lemma eval_no_tail : forall u, no_tail u.
Proof.
  induction u using unit_ind; intros w0 s w r K;
    rewrite ?eval_if, ?eval_coalesce, ?eval_call, ?eval_variadic, ?eval_import, ?eval_catch, ?rptc_none in K;
    try (cbn in K; discriminate K); try (cbn [CompSpec.eval] in K; eapply operands_tail; exact K);
    try (cbn [CompSpec.eval] in K; eapply lift_tail; exact K).
  - destruct s as [|c s]; [discriminate K|]. destruct (read P w0 c); [|discriminate K].
    destruct (test P v); eapply branch_tail; try exact K; assumption.
  - destruct s as [|c s]; [discriminate K|]. destruct (read P w0 c) as [[]|]; try discriminate K.
    eapply branch_tail; try exact K; assumption.
  - destruct (args_of args w0) as [w1 [l|x| |]]; try discriminate K. destruct s; [discriminate K|].
    eapply call_tail; exact K.
  - destruct (args_of args w0) as [w1 [[|? [|? [|]]]|x| |]]; try discriminate K.
    destruct (expand P inv' r1 w1) as [w2 [l|x| |]]; try discriminate K. eapply call_tail; exact K.
  - cbn [CompSpec.eval] in K. destruct (lv <? 2); [|discriminate K]. eapply operands_tail; exact K.
  - destruct (args_of args w0) as [w1 [[|]|x| |]]; try discriminate K. destruct (read P w1 r0); [|discriminate K].
    destruct (load P v w1) as [? []]; [|discriminate K]. eapply lift_tail; exact K.
  - destruct (evals PtcNone us w0 []) as [w1 [[|]|x| |]]; discriminate K.
Qed.
Lemma evals_no_tail : forall us w0 s w r, evals PtcNone us w0 s = (w, Val (Tail r)) -> False.
Proof. intros us. apply no_tails_of. apply Forall_forall. intros u _. apply eval_no_tail. Qed.

Fixpoint all_one (args : list (list (xunit N D))) : bool :=
  match args with
  | [] => true
  | us :: args => match heights us 0%nat with Some 1%nat => true | _ => false end && all_one args
  end.
Lemma one_of : forall us : list (xunit N D),
  match heights us 0%nat with Some 1%nat => true | _ => false end = true -> heights us 0 = Some 1%nat.
Proof. intros us H. destruct (heights us 0) as [[|[|n]]|]; try discriminate. reflexivity. Qed.

Definition args_sim (nc ca pl : bool) (t1 : st) (b : list ref) (n : nat) (m : st * res status) (r : W * res (list ref)) : Prop :=
  match r with
  | (w, Val l) =>
    exists t', m = (t', Val SNext) /\ wd t' = w /\ cur t' = rev l ++ b /\ length l = n /\ same nc ca t1 t'
  | (w, Exn x) => exists t', m = (t', Exn x) /\ wd t' = w /\ (pl = true -> sw t' = sw t1)
  | (w, Bad) => exists t', m = (t', Bad) /\ wd t' = w
  | (w, Fuel) => exists t', m = (t', Fuel) /\ wd t' = w
  end.

Lemma args_sim_of : forall args, Forall units_sim args -> all_one args = true ->
  forall c t t1, ended c = false -> execs c t = (t1, Val SNext) ->
  args_sim (negb (existsb (existsb clobbers) args)) (forallb (forallb (calm lv)) args)
    (forallb (forallb (plain lv)) args) t1 (cur t1) (length args) (execs (gargs args c) t) (args_of args (wd t1)).
Proof.
  induction args as [|us args IH]; intros H Ho c t t1 Ec Hc.
  - cbn. exists t1. rewrite Hc. repeat split; reflexivity.
  - inversion H as [|? ? Hu Hus]; subst. cbn [all_one] in Ho. apply andb_true_iff in Ho as [Ho1 Ho2].
    apply one_of in Ho1. specialize (IH Hus Ho2). cbn [gargs args_of].
    pose proof (Hu PtcNone c t t1 [] (cur t1) 1%nat Ec Hc eq_refl Ho1) as S1.
    destruct (evals PtcNone us (wd t1) []) as [w [[s'|r]|x| |]] eqn:Ev; cbn [sim] in S1.
    + destruct S1 as (t' & A1 & A2 & A3 & A4 & A5 & A6). subst w.
      destruct s' as [|r [|? ?]]; try discriminate A4. cbn [app] in A3.
      pose proof (IH (gens PtcNone us c) t t' (gens_open us c Ec) A1) as S2.
      cbn [existsb forallb length].
      rewrite negb_orb.
      destruct (args_of args (wd t')) as [w2 [l|x2| |]]; cbn [args_sim] in S2 |- *.
      * destruct S2 as (t2 & B1 & B2 & B3 & B4 & B5 & B6). exists t2. repeat split; try assumption.
        -- rewrite B3, A3. cbn [rev]. rewrite <- app_assoc. reflexivity.
        -- cbn [length]. now rewrite B4.
        -- intros K. apply andb_true_iff in K as [K1 K2]. rewrite B5, A5 by assumption. reflexivity.
        -- intros K. rewrite B6, A6; [reflexivity| |];
             destruct (negb (existsb clobbers us)), (forallb (calm lv) us), (negb (existsb (existsb clobbers) args)),
               (forallb (forallb (calm lv)) args); try reflexivity; try discriminate.
      * destruct S2 as (t2 & B1 & B2 & B3). exists t2. repeat split; try assumption.
        intros K. apply andb_true_iff in K as [K1 K2]. rewrite B3 by assumption.
        apply A6. rewrite (forallb_impl_in _ (plain lv) (calm lv) us); [apply orb_true_r| |exact K1].
        apply Forall_forall. intros u _. apply plain_calm.
      * exact S2.
      * exact S2.
    + exfalso. eapply evals_no_tail. exact Ev.
    + destruct S1 as (t' & A1 & A2 & A3). exists t'. repeat split; try assumption.
      * eapply gargs_ext; [exact A1|discriminate].
      * intros K. apply A3. cbn in K. apply andb_true_iff in K as [K _]. exact K.
    + destruct S1 as (t' & A1 & A2). exists t'. split; [|assumption]. eapply gargs_ext; [exact A1|discriminate].
    + destruct S1 as (t' & A1 & A2). exists t'. split; [|assumption]. eapply gargs_ext; [exact A1|discriminate].
Qed.

Lemma eval_rptc : forall p u w s, eval (rptc p) u w s = eval p u w s.
Proof. intros p u w s. unfold rptc. destruct tail; destruct u; reflexivity. Qed.
Lemma evals_rptc : forall us p w s, evals (rptc p) us w s = evals p us w s.
Proof.
  induction us as [|u us IH]; intros p w s; [reflexivity|]. destruct us as [|u' us]; [apply eval_rptc|].
  rewrite !evals_cons. destruct (eval PtcNone u w s) as [w1 [[s1|r1]|x| |]]; try reflexivity. apply IH.
Qed.

(* ---- something is generated ---- *)

Lemma gen_op_some : forall o a (c : list (node N D)), gen_op lv o a c <> [].
Proof.
  intros o a c. unfold gen_op. destruct c as [|[] ]; try discriminate.
  repeat match goal with
  | |- (if ?b then _ else _) <> _ => destruct b
  | |- (match ?x with _ => _ end) <> _ => destruct x
  end; discriminate.
Qed.
Lemma gargs_cons : forall us args c, gargs (us :: args) c = gargs args (gens PtcNone us c).
Proof. reflexivity. Qed.
Lemma gen_keeps : forall p u c, c <> [] -> gen p u c <> [].
Proof.
  intros p u c H. destruct (ended c) eqn:Ec; [now rewrite gen_ended|].
  destruct u; rewrite ?gen_if, ?gen_coalesce, ?gen_variadic, ?gen_import, ?gen_catch, ?gen_call by exact Ec;
    try (cbn -[gen_op]; rewrite Ec; try discriminate); try discriminate.
  - destruct (_ && _); discriminate.
  - apply gen_op_some.
  - destruct (2 <=? lv); [exact H|discriminate].
Qed.
Lemma gens_keeps : forall us p c, c <> [] -> gens p us c <> [].
Proof.
  induction us as [|u us IH]; intros p c H; [exact H|]. destruct us; [now apply gen_keeps|].
  rewrite gens_cons. apply IH. now apply gen_keeps.
Qed.
Lemma gens_some : forall us p, us <> [] -> heights us 0 = Some 1%nat -> gens p us [] <> [].
Proof.
  intros us p H Hh. destruct us as [|u us]; [congruence|].
  assert (A : forall q, gen q u [] <> []).
  { intros q. destruct u; rewrite ?gen_if, ?gen_coalesce, ?gen_variadic, ?gen_import, ?gen_catch, ?gen_call by reflexivity;
      try discriminate.
    - destruct (_ && _); discriminate.
    }
  destruct us as [|u' us]; [apply A|]. rewrite gens_cons. apply gens_keeps, A.
Qed.

(* ---- operators ---- *)

Lemma update_ext : forall b l f g x w, (forall v, f v = g v) -> update P b l f x w = update P b l g x w.
Proof.
  intros b l f g x w H. unfold update. destruct b.
  - destruct (open P l w) as [w1 [v|y]]; [|reflexivity]. rewrite H. reflexivity.
  - destruct (read P w l) as [v|y]; [|reflexivity]. rewrite H. reflexivity.
Qed.
Lemma fold_bi32 : forall o a n l w, foldable o = true -> op_sem P o a [Temp (VInt n); l] w = bi32_sem P o a n l w.
Proof.
  intros o a n l w H. destruct o; try discriminate H; cbn [op_sem bi32_sem]; try reflexivity;
    apply update_ext; intros v; apply bi32_general; (reflexivity || discriminate).
Qed.
Lemma fold_null : forall l w, op_sem P xo_cmp_eq false [Temp VNull; l] w = check_null_sem P false l w
  /\ op_sem P xo_cmp_ne false [Temp VNull; l] w = check_null_sem P true l w.
Proof.
  intros l w. cbn [op_sem is_assign]. unfold update, check_null_sem.
  destruct (read P w l) as [v|x]; [|split; reflexivity].
  destruct (check_null_general (num P) (cfuel P) v) as [-> ->]. split; reflexivity.
Qed.

Lemma cut32_id : forall n, is_int32 n = true -> cut32 n = n.
Proof.
  intros n H. unfold is_int32 in H. apply andb_true_iff in H. destruct H as [H1 H2]. apply Z.leb_le in H1. apply Z.ltb_lt in H2.
  unfold cut32. rewrite Z.mod_small; change (2 ^ 32) with (2 * 2 ^ 31); lia.
Qed.

Lemma gen_op_view : forall o a v (rest : list (node N D)),
  gen_op lv o a (NConst v :: rest) = NOp o a :: NConst v :: rest \/
  (o = xo_pos /\ a = false /\ gen_op lv o a (NConst v :: rest) = NConst v :: rest) \/
  (o = xo_cmp_eq /\ v = VNull /\ gen_op lv o a (NConst v :: rest) = NCheckNull false :: rest) \/
  (o = xo_cmp_ne /\ v = VNull /\ gen_op lv o a (NConst v :: rest) = NCheckNull true :: rest) \/
  (exists k, o = xo_index /\ v = VStr k /\ gen_op lv o a (NConst v :: rest) = NMember k :: rest) \/
  (exists n, o = xo_notb /\ v = VInt n /\ gen_op lv o a (NConst v :: rest) = NConst (VInt (Z.lxor n (-1))) :: rest) \/
  (exists n, foldable o = true /\ v = VInt n /\ gen_op lv o a (NConst v :: rest) = NBi32 o a n :: rest).
Proof.
  intros o a v rest. cbn [gen_op]. destruct (lv <? 1); [left; reflexivity|].
  destruct v; destruct o; cbn [foldable]; rewrite ?andb_false_r, ?andb_true_r;
    try (left; reflexivity); destruct a; try (left; reflexivity);
    try match goal with |- context [is_int32 ?n] => destruct (is_int32 n) eqn:EI; rewrite ?(cut32_id _ EI) end;
    first [ left; reflexivity
          | right; left; split; [reflexivity|]; split; reflexivity
          | right; right; left; split; [reflexivity|]; split; reflexivity
          | right; right; right; left; split; [reflexivity|]; split; reflexivity
          | right; right; right; right; left; eexists; split; [reflexivity|]; split; reflexivity
          | right; right; right; right; right; left; eexists; split; [reflexivity|]; split; reflexivity
          | right; right; right; right; right; right; eexists; split; [reflexivity|]; split; reflexivity ].
Qed.

Lemma sim_start : forall nc ca pl t1 t2 base h m r, alt t1 = alt t2 -> sw t1 = sw t2 ->
  sim nc ca pl t2 base h m r -> sim nc ca pl t1 base h m r.
Proof.
  intros nc ca pl t1 t2 base h m [w [[s|r]|x| |]] Ha Hs; cbn [sim]; unfold same; rewrite ?Ha, ?Hs; trivial.
Qed.

Lemma op_sim : forall nc ca pl o a c t t1 s base h, execs c t = (t1, Val SNext) -> cur t1 = s ++ base ->
  height (N:=N) (D:=D) (UOp o a) (length s) = Some h ->
  sim nc ca pl t1 base h (execs (gen_op lv o a c) t) (operands (arity o) (op_sem P o a) (wd t1) s).
Proof.
  intros nc ca pl o a c t t1 s base h Hc Hs Hh.
  assert (Ha : a = false \/ (o <> xo_cmp_eq /\ o <> xo_cmp_ne /\ o <> xo_notb)).
  { destruct a; [right|left; reflexivity]. destruct o; cbn in Hh; try discriminate Hh; repeat split; discriminate. }
  assert (Hk : (arity o <= length s)%nat /\ h = S (length s - arity o)).
  { cbn [height] in Hh.
    assert (Hh' : (if (arity o <=? length s)%nat then Some (S (length s - arity o)) else None) = Some h).
    { destruct o, a; try discriminate Hh; exact Hh. }
    destruct (arity o <=? length s)%nat eqn:L; [|discriminate Hh']. apply Nat.leb_le in L. split; [exact L|congruence]. }
  destruct Hk as [Hk ->].
  assert (Gen : sim nc ca pl t1 base (S (length s - arity o)) (execs (NOp o a :: c) t)
                  (operands (arity o) (op_sem P o a) (wd t1) s)).
  { cbn [CompModel.execs]. rewrite Hc. cbn [CompModel.exec]. now apply with_top_sim. }
  assert (V : gen_op lv o a c = NOp o a :: c \/ exists v rest, c = NConst v :: rest).
  { destruct c as [|[] ]; try (left; reflexivity). right. eauto. }
  destruct V as [-> | (v & rest & ->)]; [exact Gen|].
  (* the constant is on the top *)
  cbn [CompModel.execs] in Hc. destruct (execs rest t) as [t2 [[]| | |]] eqn:E2; try discriminate Hc.
  cbn [CompModel.exec] in Hc. injection Hc as <-. stx.
  assert (Bin : forall l s2 g, s = Temp v :: l :: s2 -> arity o = 2%nat ->
    op_sem P o a [Temp v; l] (wd t2) = g l (wd t2) ->
    sim nc ca pl (set_cur t2 (Temp v :: cur t2)) base (S (length s - arity o))
      (with_top 1 (top1 g) t2) (operands (arity o) (op_sem P o a) (wd t2) s)).
  { intros l s2 g -> -> Hg. cbn [app] in Hs. injection Hs as Hs.
    pose proof (with_top_sim nc ca pl 1 (top1 g) t2 (l :: s2) base Hs) as K.
    unfold operands in *. cbn [length Nat.ltb Nat.leb firstn skipn top1] in *. rewrite Hg.
    eapply sim_start; [| |apply K; lia]; stx; reflexivity. }
  assert (Sh : arity o = 2%nat -> exists l s2, s = Temp v :: l :: s2).
  { intros A2. rewrite A2 in Hk. destruct s as [|x [|l s2]]; cbn in Hk; try lia. cbn [app] in Hs.
    injection Hs as <- _. eauto. }
  destruct (gen_op_view o a v rest) as [-> |[(-> & -> & ->)|[(-> & -> & ->)|[(-> & -> & ->)|[(k & -> & -> & ->)|[(n & -> & -> & ->)|(n & Hf & -> & ->)]]]]]].
  - exact Gen.
  - destruct s as [|x s]; [cbn in Hk; lia|]. cbn [app] in Hs. injection Hs as <- Hs.
    cbn [CompModel.execs]. rewrite E2. cbn [CompModel.exec].
    unfold operands. cbn [length arity Nat.ltb Nat.leb firstn skipn op_sem update read lift sim].
    eexists. split; [reflexivity|]. stx. repeat split; try reflexivity; stx; try reflexivity.
    + cbn [app]. now rewrite Hs.
    + cbn. lia.
  - destruct Ha as [-> |(Ha & _)]; [|congruence]. destruct (Sh eq_refl) as (l & s2 & Es).
    cbn [CompModel.execs]. rewrite E2. cbn [CompModel.exec]. apply (Bin l s2); [exact Es|reflexivity|]. apply fold_null.
  - destruct Ha as [-> |(_ & Ha & _)]; [|congruence]. destruct (Sh eq_refl) as (l & s2 & Es).
    cbn [CompModel.execs]. rewrite E2. cbn [CompModel.exec]. apply (Bin l s2); [exact Es|reflexivity|]. apply fold_null.
  - destruct (Sh eq_refl) as (l & s2 & Es).
    cbn [CompModel.execs]. rewrite E2. cbn [CompModel.exec]. apply (Bin l s2 (fun r w => subscript P r (SubKey k) w));
      [exact Es|reflexivity|reflexivity].
  - destruct Ha as [-> |(_ & _ & Ha)]; [|congruence].
    destruct s as [|x s]; [cbn in Hk; lia|]. cbn [app] in Hs. injection Hs as <- Hs.
    cbn [CompModel.execs]. rewrite E2. cbn [CompModel.exec].
    unfold operands. cbn [length arity Nat.ltb Nat.leb firstn skipn op_sem]. unfold update. cbn [read].
    rewrite notb_const. cbn [lift sim].
    eexists. split; [reflexivity|]. stx. repeat split; try reflexivity; stx; try reflexivity.
    + cbn [app]. now rewrite Hs.
    + cbn. lia.
  - assert (A2 : arity o = 2%nat) by (destruct o; try discriminate Hf; reflexivity).
    destruct (Sh A2) as (l & s2 & Es).
    cbn [CompModel.execs]. rewrite E2. cbn [CompModel.exec]. apply (Bin l s2); [exact Es|exact A2|]. now apply fold_bi32.
Qed.

(* ---- branches ---- *)

Definition opt_one (us : list (xunit N D)) : bool :=
  match us with [] => true | _ => match heights us 0%nat with Some 1%nat => true | _ => false end end.

(* do_evaluate_subexpression *)
Definition subexpr (code : list (node N D)) (assign : bool) (t : st) : st * res status :=
  match code with
  | [] => (t, Val SNext)
  | _ =>
    if assign then
      match execs code t with
      | (t, Val SNext) => assign_top P t
      | (t, Val _) => (t, Bad)
      | r => r
      end
    else execs code (set_cur t (tl (cur t)))
  end.

Lemma branch_some : forall us a p w c s, us <> [] -> branch us a p w c s =
  if a then
    match evals PtcNone us w [] with
    | (w, Val (Next [r])) =>
      match read P w r with
      | inr x => (w, Exn x)
      | inl v =>
        match open P c w with
        | (w, inr x) => (w, Exn x)
        | (w, inl _) => (store P c v w, Val (Next (c :: s)))
        end
      end
    | (w, Val _) => (w, Bad)
    | r => r
    end
  else
    match evals p us w [] with
    | (w, Val (Next [r])) => (w, Val (Next (r :: s)))
    | (w, Val (Next _)) => (w, Bad)
    | r => r
    end.
Proof. intros us a p w c s H. destruct us; [congruence|]. reflexivity. Qed.
Lemma subexpr_some : forall code a t, code <> [] -> subexpr code a t =
  if a then
    match execs code t with
    | (t, Val SNext) => assign_top P t
    | (t, Val _) => (t, Bad)
    | r => r
    end
  else execs code (set_cur t (tl (cur t))).
Proof. intros code a t H. destruct code; [congruence|]. reflexivity. Qed.
Lemma plains_calm : forall us : list (xunit N D), forallb (plain lv) us = true -> forallb (calm lv) us = true.
Proof. intros us. apply forallb_impl_in, Forall_forall. intros u _. apply plain_calm. Qed.

Lemma branch_sim : forall us, units_sim us -> opt_one us = true -> forall (a : bool) p t1 c s base,
  cur t1 = c :: s ++ base ->
  sim (negb (existsb clobbers us)) (forallb (calm lv) us) (forallb (plain lv) us) t1 base (S (length s))
    (subexpr (gens (if a then PtcNone else p) us []) a t1) (branch us a (rptc p) (wd t1) c s).
Proof.
  intros us Hus Ho a p t1 c s base Hc.
  assert (D0 : us = [] \/ us <> []) by (destruct us; [left; reflexivity|right; discriminate]).
  destruct D0 as [-> |Hn].
  { cbn. exists t1. repeat split; try reflexivity. exact Hc. }
  assert (Ho' : heights us 0 = Some 1%nat) by (apply one_of; destruct us; [congruence|exact Ho]).
  rewrite branch_some by exact Hn. rewrite subexpr_some by (apply gens_some; assumption).
  destruct a.
  - pose proof (Hus PtcNone [] t1 t1 [] (cur t1) 1%nat eq_refl eq_refl eq_refl Ho') as S1.
    destruct (evals PtcNone us (wd t1) []) as [w [[s'|r]|x| |]] eqn:Ev; cbn [sim] in S1.
    + destruct S1 as (t' & A1 & A2 & A3 & A4 & A5 & A6). rewrite A1.
      destruct s' as [|r [|? ?]]; try discriminate A4. cbn [app] in A3. unfold assign_top. rewrite A3, Hc, A2.
      destruct (read P w r) as [v|x].
      2: { cbn [sim]. exists t'. repeat split; try assumption. intros K. apply A6.
           rewrite (plains_calm us K). apply orb_true_r. }
      destruct (open P c w) as [w2 [v2|x]]; cbn [sim].
      * eexists. split; [reflexivity|]. stx. repeat split; try reflexivity; stx; assumption.
      * eexists. split; [reflexivity|]. stx. repeat split; stx. intros K. apply A6.
        rewrite (plains_calm us K). apply orb_true_r.
    + exfalso. eapply evals_no_tail; exact Ev.
    + destruct S1 as (t' & A1 & A2 & A3). rewrite A1. cbn [sim]. exists t'. repeat split; assumption.
    + destruct S1 as (t' & A1 & A2). rewrite A1. cbn [sim]. exists t'. split; [reflexivity|assumption].
    + destruct S1 as (t' & A1 & A2). rewrite A1. cbn [sim]. exists t'. split; [reflexivity|assumption].
  - rewrite Hc. cbn [tl]. rewrite evals_rptc.
    pose proof (Hus p [] (set_cur t1 (s ++ base)) (set_cur t1 (s ++ base)) [] (s ++ base) 1%nat eq_refl eq_refl
      (cur_set_cur _ _) Ho') as S1. rewrite wd_set_cur in S1.
    apply (sim_start _ _ _ _ (set_cur t1 (s ++ base))); [now stx|now stx|].
    destruct (evals p us (wd t1) []) as [w [[s'|r]|x| |]] eqn:Ev; cbn [sim] in S1 |- *.
    + destruct S1 as (t' & A1 & A2 & A3 & A4 & A5). destruct s' as [|r [|? ?]]; try discriminate A4.
      cbn [sim]. exists t'. repeat split; try assumption; apply A5.
    + exact S1.
    + exact S1.
    + exact S1.
    + exact S1.
Qed.

Lemma exec_branch : forall ct cf a t, exec (NBranch ct cf a) t =
  match cur t with
  | [] => (t, Bad)
  | top :: _ =>
    match read P (wd t) top with
    | inr x => (t, Exn x)
    | inl v => if test P v then subexpr ct a t else subexpr cf a t
    end
  end.
Proof. reflexivity. Qed.
Lemma exec_coalesce : forall c a t, exec (NCoalesce c a) t =
  match cur t with
  | [] => (t, Bad)
  | top :: _ =>
    match read P (wd t) top with
    | inr x => (t, Exn x)
    | inl VNull => subexpr c a t
    | inl _ => (t, Val SNext)
    end
  end.
Proof. reflexivity. Qed.
Lemma exec_catch : forall c t, exec (NCatch c) t =
  match execs c (set_cur t []) with
  | (t', Val SNext) => (set_cur t' (Temp VNull :: cur t), Val SNext)
  | (t', Exn x) => (set_cur t' (Temp (xval P x) :: cur t), Val SNext)
  | (t', Val _) => (t', Bad)
  | r => r
  end.
Proof. reflexivity. Qed.
Lemma execs_cons : forall n c t, execs (n :: c) t =
  match execs c t with
  | (t, Val SNext) => exec n t
  | r => r
  end.
Proof. reflexivity. Qed.

Lemma sim_flags : forall nc nc' ca ca' pl pl' t1 base h m r,
  (nc' = true -> nc = true) -> (ca' = true -> ca = true) -> (pl' = true -> pl = true) ->
  sim nc ca pl t1 base h m r -> sim nc' ca' pl' t1 base h m r.
Proof.
  intros nc nc' ca ca' pl pl' t1 base h m [w [[s|r]|x| |]] Hn Hca Hpl; cbn [sim]; try trivial.
  - intros (t' & A1 & A2 & A3 & A4 & A5 & A6). exists t'. repeat split; try assumption.
    + intros K. apply A5, Hn, K.
    + intros K. apply A6. apply orb_true_iff in K as [K|K]; [rewrite (Hn K)|rewrite (Hca K), orb_true_r]; reflexivity.
  - intros (t' & tl & A1 & A2 & A3 & A4). exists t', tl. repeat split; try assumption. intros K. apply A4, Hca, K.
  - intros (t' & A1 & A2 & A3). exists t'. repeat split; try assumption. intros K. apply A3, Hpl, K.
Qed.

Lemma height_if : forall t f a h, height (UIf t f a : xunit N D) h =
  if opt_one t && opt_one f then (if (1 <=? h)%nat then Some (S (h - 1)) else None) else None.
Proof. reflexivity. Qed.
Lemma height_coalesce : forall n a h, height (UCoalesce n a : xunit N D) h =
  if opt_one n then (if (1 <=? h)%nat then Some (S (h - 1)) else None) else None.
Proof. reflexivity. Qed.
Lemma height_call : forall args h, height (UCall args : xunit N D) h =
  if all_one args then (if (1 <=? h)%nat then Some (S (h - 1)) else None) else None.
Proof. reflexivity. Qed.
Lemma height_variadic : forall args h, height (UVariadic args : xunit N D) h =
  if all_one args && (length args =? 2)%nat then Some (S h) else None.
Proof. reflexivity. Qed.
Lemma height_import : forall args h, height (UImport args : xunit N D) h =
  if all_one args && (1 <=? length args)%nat then Some (S h) else None.
Proof. reflexivity. Qed.

Lemma same_trans : forall nc ca (t1 t2 : st), alt t1 = alt t2 -> sw t1 = sw t2 -> same nc ca t1 t2.
Proof. intros nc ca t1 t2 A B. split; intros _; congruence. Qed.

Lemma sim_restart : forall ca pl t1 t2 base h m r, (ca = true -> sw t2 = sw t1) -> (pl = true -> sw t2 = sw t1) ->
  sim false true true t2 base h m r -> sim false ca pl t1 base h m r.
Proof.
  intros ca pl t1 t2 base h m [w [[s|r]|x| |]] Hca Hpl; cbn [sim]; try trivial.
  - intros (t' & A1 & A2 & A3 & A4 & A5 & A6). exists t'. repeat split; try assumption; try discriminate.
    intros K. cbn [orb] in K. rewrite <- Hca by exact K. apply A6. reflexivity.
  - intros (t' & tl & A1 & A2 & A3 & A4). exists t', tl. repeat split; try assumption.
    intros K. rewrite <- Hca by exact K. now apply A4.
  - intros (t' & A1 & A2 & A3). exists t'. repeat split; try assumption.
    intros K. rewrite <- Hpl by exact K. now apply A3.
Qed.
Lemma all_plain_calm : forall args : list (list (xunit N D)),
  forallb (forallb (plain lv)) args = true -> forallb (forallb (calm lv)) args = true.
Proof. intros args. apply forallb_impl_in, Forall_forall. intros u _. apply plains_calm. Qed.
Lemma pop_one : forall n h, (if (1 <=? n)%nat then Some (S (n - 1)) else None) = Some h -> (1 <= n)%nat /\ h = n.
Proof.
  intros n h H. destruct (1 <=? n)%nat eqn:L; [|discriminate]. apply Nat.leb_le in L.
  injection H as <-. split; lia.
Qed.
Lemma sims_of : forall args, Forall (Forall unit_sim) args -> Forall units_sim args.
Proof. intros args H. eapply Forall_impl; [|exact H]. intros us. apply units_sim_of. Qed.

Lemma unit_sim_all : forall u, unit_sim u.
Proof.
  induction u using unit_ind; intros p c t0 t1 s base h Ec Hc Hs Hh.
  - cbn in Hh. injection Hh as <-. cbn [CompModel.gen]. rewrite Ec, execs_cons, Hc. cbn.
    eexists. split; [reflexivity|]. stx. rewrite Hs. repeat split; try reflexivity; stx; reflexivity.
  - cbn in Hh. injection Hh as <-. cbn [CompModel.gen]. rewrite Ec, execs_cons, Hc. cbn [CompModel.exec CompSpec.eval].
    pose proof (with_top_sim (negb (clobbers (URef nm : xunit N D))) (calm lv (URef nm : xunit N D)) (plain lv (URef nm : xunit N D)) 0
      (pushed (fetch P e nm)) t1 s base Hs (Nat.le_0_l _)) as K.
    rewrite Nat.sub_0_r in K. exact K.
  - cbn in Hh. injection Hh as <-. cbn [CompModel.gen]. rewrite Ec, execs_cons, Hc. cbn [CompModel.exec CompSpec.eval].
    pose proof (with_top_sim (negb (clobbers (UFn d : xunit N D))) (calm lv (UFn d : xunit N D)) (plain lv (UFn d : xunit N D)) 0
      (pushed (closure P e d)) t1 s base Hs (Nat.le_0_l _)) as K.
    rewrite Nat.sub_0_r in K. exact K.
  - (* conditions *)
    rewrite height_if in Hh. destruct (opt_one t && opt_one f) eqn:Ho; [|discriminate]. apply andb_true_iff in Ho as [Ho1 Ho2].
    apply pop_one in Hh as [Hl ->]. destruct s as [|c1 s]; [cbn in Hl; lia|]. cbn [app] in Hs.
    rewrite gen_if by exact Ec. rewrite execs_cons, Hc, exec_branch, eval_if, Hs.
    destruct (read P (wd t1) c1) as [v|x].
    2: { cbn [sim]. exists t1. repeat split; reflexivity. }
    cbn [clobbers calm plain]. rewrite negb_orb.
    destruct (test P v).
    + eapply sim_flags; [| | |exact (branch_sim t (units_sim_of _ H) Ho1 a p t1 c1 s base Hs)];
        intros K; apply andb_true_iff in K as [K1 K2]; assumption.
    + eapply sim_flags; [| | |exact (branch_sim f (units_sim_of _ H0) Ho2 a p t1 c1 s base Hs)];
        intros K; apply andb_true_iff in K as [K1 K2]; assumption.
  - rewrite height_coalesce in Hh. destruct (opt_one n) eqn:Ho; [|discriminate].
    apply pop_one in Hh as [Hl ->]. destruct s as [|c1 s]; [cbn in Hl; lia|]. cbn [app] in Hs.
    rewrite gen_coalesce by exact Ec. rewrite execs_cons, Hc, exec_coalesce, eval_coalesce, Hs.
    destruct (read P (wd t1) c1) as [v|x].
    2: { cbn [sim]. exists t1. repeat split; reflexivity. }
    cbn [clobbers calm plain].
    destruct v; try (cbn [sim]; exists t1; repeat split; try reflexivity; exact Hs).
    exact (branch_sim n (units_sim_of _ H) Ho a p t1 c1 s base Hs).
  - (* calls *)
    rewrite height_call in Hh. destruct (all_one args) eqn:Ho; [|discriminate].
    apply pop_one in Hh as [Hl ->]. destruct s as [|top s]; [cbn in Hl; lia|]. cbn [app] in Hs.
    rewrite gen_call by exact Ec. rewrite eval_call. cbn [clobbers calm plain negb].
    destruct ((1 <=? lv) && negb (existsb (existsb clobbers) args)) eqn:Ea.
    + apply andb_true_iff in Ea as [Ea1 Ea2]. apply Z.leb_le in Ea1. apply negb_true_iff in Ea2.
      replace ((lv <? 1) || existsb (existsb clobbers) args) with false
        by (rewrite Ea2, orb_false_r; symmetry; apply Z.ltb_ge; lia).
      cbn [andb].
      assert (Hc' : execs (NAltClear :: c) t0 = (set_cur (swap_stacks t1) [], Val SNext)) by (rewrite execs_cons, Hc; reflexivity).
      pose proof (args_sim_of args (sims_of _ H) Ho (NAltClear :: c) t0 _ eq_refl Hc') as S1.
      rewrite wd_set_cur, wd_swap, Ea2 in S1. rewrite execs_cons.
      destruct (args_of args (wd t1)) as [w [l|x| |]]; cbn [args_sim] in S1.
      * destruct S1 as (t' & A1 & A2 & A3 & A4 & A5 & A6). rewrite A1. cbn [CompModel.exec].
        rewrite A3, cur_set_cur, app_nil_r, rev_involutive.
        assert (B5 : alt t' = cur t1) by (rewrite A5 by reflexivity; now stx).
        assert (B6 : sw t' = negb (sw t1)) by (rewrite A6 by reflexivity; now stx).
        pose proof (invoke_top_sim true true (rptc p) l (swap_stacks t') top s base) as S2.
        rewrite cur_swap, wd_swap, A2 in S2. specialize (S2 (eq_trans B5 Hs)).
        eapply sim_restart; [| |exact S2]; intros _; rewrite sw_swap, B6; apply negb_involutive.
      * destruct S1 as (t' & A1 & A2 & A3). rewrite A1. cbn [sim]. exists t'. repeat split; [assumption|discriminate].
      * destruct S1 as (t' & A1 & A2). rewrite A1. cbn [sim]. exists t'. split; [reflexivity|assumption].
      * destruct S1 as (t' & A1 & A2). rewrite A1. cbn [sim]. exists t'. split; [reflexivity|assumption].
    + pose proof (args_sim_of args (sims_of _ H) Ho c t0 _ Ec Hc) as S1. rewrite execs_cons.
      destruct (args_of args (wd t1)) as [w [l|x| |]]; cbn [args_sim] in S1.
      * destruct S1 as (t' & A1 & A2 & A3 & A4 & A5 & A6). rewrite A1. cbn [CompModel.exec].
        rewrite A3. replace (length (rev l ++ cur t1) <? length args)%nat with false
          by (symmetry; apply Nat.ltb_ge; rewrite app_length, rev_length; lia).
        assert (L : length args = length (rev l)) by (rewrite rev_length; lia).
        rewrite L, firstn_app, skipn_app, firstn_all, skipn_all, Nat.sub_diag, firstn_O, skipn_O, app_nil_r, rev_involutive.
        cbn [app]. rewrite Hs.
        set (t2 := set_alt (set_cur t' (top :: s ++ base)) (rev l)).
        assert (Hw : wd t2 = w) by (unfold t2; stx; exact A2).
        assert (Hsw : sw t2 = sw t') by (unfold t2; now stx).
        rewrite <- Hw.
        eapply sim_restart; [| |apply invoke_top_sim; unfold t2; now stx].
        -- intros K. rewrite Hsw. apply A6. rewrite K. apply orb_true_r.
        -- intros K. rewrite Hsw. apply A6. apply andb_true_iff in K as [_ K]. rewrite (all_plain_calm _ K). apply orb_true_r.
      * destruct S1 as (t' & A1 & A2 & A3). rewrite A1. cbn [sim]. exists t'. repeat split; [assumption|].
        intros K. apply A3. apply andb_true_iff in K as [_ K]. exact K.
      * destruct S1 as (t' & A1 & A2). rewrite A1. cbn [sim]. exists t'. split; [reflexivity|assumption].
      * destruct S1 as (t' & A1 & A2). rewrite A1. cbn [sim]. exists t'. split; [reflexivity|assumption].
  - cbn [CompModel.gen CompSpec.eval]. rewrite Ec. now apply op_sim.
  - cbn [height] in Hh. destruct (n <=? length s)%nat eqn:L; [|discriminate]. injection Hh as <-. apply Nat.leb_le in L.
    cbn [CompModel.gen CompSpec.eval]. rewrite Ec, execs_cons, Hc. cbn [CompModel.exec]. now apply with_top_sim.
  - cbn [height] in Hh. destruct (length k <=? length s)%nat eqn:L; [|discriminate]. injection Hh as <-. apply Nat.leb_le in L.
    cbn [CompModel.gen CompSpec.eval]. rewrite Ec, execs_cons, Hc. cbn [CompModel.exec]. now apply with_top_sim.
  - (* variadic calls *)
    rewrite height_variadic in Hh. destruct (all_one args && _) eqn:Ho; [|discriminate]. apply andb_true_iff in Ho as [Ho Hn].
    apply Nat.eqb_eq in Hn. injection Hh as <-.
    rewrite gen_variadic by exact Ec. rewrite eval_variadic. cbn [clobbers calm plain negb].
    pose proof (args_sim_of args (sims_of _ H) Ho c t0 _ Ec Hc) as S1. rewrite execs_cons.
    destruct (args_of args (wd t1)) as [w [l|x| |]]; cbn [args_sim] in S1.
    + destruct S1 as (t' & A1 & A2 & A3 & A4 & A5 & A6). rewrite A1. cbn [CompModel.exec].
      rewrite Hn in A4. destruct l as [|top [|g [|? ?]]]; try discriminate A4. cbn [rev app] in A3. rewrite A3, A2, expand_eq.
      assert (Ksw : forallb (forallb (calm lv)) args = true -> sw t' = sw t1)
        by (intros K; apply A6; rewrite K; apply orb_true_r).
      assert (Kpl : forallb (forallb (plain lv)) args = true -> sw t' = sw t1)
        by (intros K; apply Ksw, all_plain_calm, K).
      destruct (expand P inv' g w) as [w2 [l|x| |]].
      * rewrite Hs. set (t2 := set_alt (set_cur (set_wd t' w2) (top :: s ++ base)) (rev l)).
        assert (Hw : wd t2 = w2) by (unfold t2; now stx).
        assert (Hsw : sw t2 = sw t') by (unfold t2; now stx).
        rewrite <- Hw.
        eapply sim_restart; [| |apply invoke_top_sim; unfold t2; now stx]; rewrite Hsw; assumption.
      * cbn [sim]. eexists. split; [reflexivity|]. stx. split; [reflexivity|assumption].
      * cbn [sim]. eexists. split; reflexivity.
      * cbn [sim]. eexists. split; reflexivity.
    + destruct S1 as (t' & A1 & A2 & A3). rewrite A1. cbn [sim]. exists t'. repeat split; assumption.
    + destruct S1 as (t' & A1 & A2). rewrite A1. cbn [sim]. exists t'. split; [reflexivity|assumption].
    + destruct S1 as (t' & A1 & A2). rewrite A1. cbn [sim]. exists t'. split; [reflexivity|assumption].
  - (* checks *)
    cbn [height] in Hh. apply pop_one in Hh as [Hl ->].
    cbn [CompModel.gen CompSpec.eval]. rewrite Ec. rewrite Z.ltb_antisym.
    destruct (2 <=? lv); cbn [negb].
    + rewrite Hc. cbn [sim]. exists t1. repeat split; try reflexivity. exact Hs.
    + rewrite execs_cons, Hc. cbn [CompModel.exec].
      replace (length s) with (S (length s - 1)) by lia. now apply with_top_sim.
  - (* imports *)
    rewrite height_import in Hh. destruct (all_one args && _) eqn:Ho; [|discriminate]. apply andb_true_iff in Ho as [Ho Hn].
    apply Nat.leb_le in Hn. injection Hh as <-.
    rewrite gen_import by exact Ec. rewrite eval_import. cbn [clobbers calm plain negb].
    pose proof (args_sim_of args (sims_of _ H) Ho c t0 _ Ec Hc) as S1. rewrite execs_cons.
    destruct (args_of args (wd t1)) as [w [l|x| |]]; cbn [args_sim] in S1.
    + destruct S1 as (t' & A1 & A2 & A3 & A4 & A5 & A6). rewrite A1. cbn [CompModel.exec].
      destruct l as [|path l]; [cbn in A4; lia|]. cbn [length] in A4. rewrite <- A4.
      assert (Ksw : forallb (forallb (calm lv)) args = true -> sw t' = sw t1)
        by (intros K; apply A6; rewrite K; apply orb_true_r).
      assert (Kpl : forallb (forallb (plain lv)) args = true -> sw t' = sw t1)
        by (intros K; apply Ksw, all_plain_calm, K).
      unfold import_top. rewrite A3. cbn [rev].
      replace (length ((rev l ++ [path]) ++ cur t1) <? S (length l))%nat with false
        by (symmetry; apply Nat.ltb_ge; rewrite !app_length, rev_length; cbn; lia).
      rewrite <- app_assoc. cbn [app].
      assert (L : length l = length (rev l)) by (now rewrite rev_length).
      rewrite L, firstn_app, skipn_app, firstn_all, skipn_all, Nat.sub_diag, firstn_O, skipn_O, app_nil_r, rev_involutive.
      cbn [app]. stx. rewrite A2.
      destruct (read P w path) as [v|x].
      2: { cbn [sim]. eexists. split; [reflexivity|]. stx. split; assumption. }
      destruct (load P v w) as [w2 [f|x]].
      2: { cbn [sim]. eexists. split; [reflexivity|]. stx. split; [reflexivity|assumption]. }
      rewrite ?rev_involutive, inv_eq. destruct (inv' f Void l w2) as [w3 [r|x| |]]; cbn [lift sim].
      * eexists. split; [reflexivity|]. stx. rewrite Hs. repeat split; try reflexivity; stx; try discriminate.
        intros K. cbn [orb] in K. now apply Ksw.
      * eexists. split; [reflexivity|]. stx. split; [reflexivity|assumption].
      * eexists. split; [reflexivity|]. now stx.
      * eexists. split; [reflexivity|]. now stx.
    + destruct S1 as (t' & A1 & A2 & A3). rewrite A1. cbn [sim]. exists t'. repeat split; assumption.
    + destruct S1 as (t' & A1 & A2). rewrite A1. cbn [sim]. exists t'. split; [reflexivity|assumption].
    + destruct S1 as (t' & A1 & A2). rewrite A1. cbn [sim]. exists t'. split; [reflexivity|assumption].
  - (* catch *)
    assert (Ho : heights us 0 = Some 1%nat /\ h = S (length s)).
    { change (height (UCatch us) (length s)) with
        (if match heights us 0%nat with Some 1%nat => true | _ => false end then Some (S (length s)) else None) in Hh.
      destruct (match heights us 0%nat with Some 1%nat => true | _ => false end) eqn:K; [|discriminate].
      split; [now apply one_of|congruence]. }
    destruct Ho as [Ho ->].
    rewrite gen_catch by exact Ec. rewrite execs_cons, Hc, exec_catch, eval_catch. cbn [clobbers calm plain negb].
    pose proof (units_sim_of us H PtcNone [] (set_cur t1 []) (set_cur t1 []) [] [] 1%nat eq_refl eq_refl (cur_set_cur _ _) Ho) as S1.
    rewrite wd_set_cur in S1.
    destruct (evals PtcNone us (wd t1) []) as [w [[s'|r]|x| |]] eqn:Ev; cbn [sim] in S1.
    + destruct S1 as (t' & A1 & A2 & A3 & A4 & A5 & A6). rewrite A1. cbn [sim]. eexists. split; [reflexivity|]. stx.
      rewrite Hs. repeat split; try reflexivity; stx; try assumption; try discriminate.
      intros K. cbn [orb] in K. apply A6. rewrite (plains_calm _ K). apply orb_true_r.
    + exfalso. eapply evals_no_tail; exact Ev.
    + destruct S1 as (t' & A1 & A2 & A3). rewrite A1. cbn [sim]. eexists. split; [reflexivity|]. stx.
      rewrite Hs. repeat split; try reflexivity; stx; try assumption; try discriminate.
    + destruct S1 as (t' & A1 & A2). rewrite A1. cbn [sim]. exists t'. split; [reflexivity|assumption].
    + destruct S1 as (t' & A1 & A2). rewrite A1. cbn [sim]. exists t'. split; [reflexivity|assumption].
Qed.
Lemma units_sim_all : forall us, units_sim us.
Proof. intros us. apply units_sim_of, Forall_forall. intros u _. apply unit_sim_all. Qed.

(* ---- bodies ---- *)

Notation gen_exprs := (@gen_exprs N D lv tail).
Notation eval_exprs := (eval_exprs P (lv <? 2) tail e inv').

Definition ends (m : st * res status) (r : W * res (option ref)) : Prop :=
  match r with
  | (w, Val None) => exists t', m = (t', Val SNext) /\ wd t' = w /\ sw t' = false
  | (w, Val (Some r)) => exists t' tl, m = (t', Val SReturn) /\ wd t' = w /\ cur t' = r :: tl /\ sw t' = false
  | (w, Exn x) => exists t', m = (t', Exn x) /\ wd t' = w
  | (w, Bad) => exists t', m = (t', Bad) /\ wd t' = w
  | (w, Fuel) => exists t', m = (t', Fuel) /\ wd t' = w
  end.

Lemma gen_expr_open : forall p us (c : list (node N D)), ended c = false -> gen_expr lv tail p us c = gens p us (NClear :: c).
Proof. intros p us c H. unfold gen_expr. now rewrite H. Qed.
Lemma expr_sim : forall us p c t t1, whole us -> forallb (calm lv) us = true -> ended c = false ->
  execs c t = (t1, Val SNext) -> sw t1 = false ->
  sim false true false (set_cur t1 []) [] 1 (execs (gen_expr lv tail p us c) t) (evals p us (wd t1) []).
Proof.
  intros us p c t t1 Hw Hca Ec Hc Hsw. rewrite gen_expr_open by exact Ec.
  assert (Hc' : execs (NClear :: c) t = (set_cur t1 [], Val SNext)) by (rewrite execs_cons, Hc; reflexivity).
  pose proof (units_sim_all us p (NClear :: c) t _ [] [] 1%nat eq_refl Hc' (cur_set_cur _ _) Hw) as K.
  rewrite wd_set_cur in K. eapply sim_flags; [| | |exact K]; intros; try discriminate; assumption.
Qed.
Lemma gen_expr_ext : forall p us c, extends c (gen_expr lv tail p us c).
Proof.
  intros p us c. unfold gen_expr. destruct (ended c); [apply ext_refl|].
  apply (ext_trans _ (NClear :: c)); [apply ext_cons|apply gens_ext].
Qed.
Lemma gen_exprs_cons : forall q us us' l c, gen_exprs q (us :: us' :: l) c = gen_exprs q (us' :: l) (gen_expr lv tail PtcNone us c).
Proof. reflexivity. Qed.
Lemma gen_exprs_ext : forall l q c, extends c (gen_exprs q l c).
Proof.
  induction l as [|us l IH]; intros q c; [apply ext_refl|]. destruct l as [|us' l]; [apply gen_expr_ext|].
  rewrite gen_exprs_cons. apply (ext_trans _ (gen_expr lv tail PtcNone us c)); [apply gen_expr_ext|apply IH].
Qed.
Lemma gen_exprs_open : forall l c, ended c = false -> ended (gen_exprs PtcNone l c) = false.
Proof.
  induction l as [|us l IH]; intros c Ec; [exact Ec|].
  assert (A : ended (gen_expr lv tail PtcNone us c) = false) by (rewrite gen_expr_open by exact Ec; now apply gens_open).
  destruct l as [|us' l]; [exact A|]. rewrite gen_exprs_cons. now apply IH.
Qed.

Lemma exprs_sim : forall l q c t t1, Forall whole l -> forallb (forallb (calm lv)) l = true -> ended c = false ->
  execs c t = (t1, Val SNext) -> sw t1 = false ->
  ends (execs (gen_exprs q l c) t) (eval_exprs q l (wd t1)).
Proof.
  induction l as [|us l IH]; intros q c t t1 Hw Hca Ec Hc Hsw.
  - cbn. exists t1. repeat split; assumption.
  - inversion Hw as [|? ? Hw1 Hw2]; subst. cbn [forallb] in Hca. apply andb_true_iff in Hca as [Hca1 Hca2].
    pose proof (fun p => expr_sim us p c t t1 Hw1 Hca1 Ec Hc Hsw) as S1.
    cbn [CompSpec.eval_exprs].
    destruct l as [|us' l].
    + cbn [CompModel.gen_exprs]. specialize (S1 q).
      destruct (evals q us (wd t1) []) as [w [[s'|r]|x| |]]; cbn [sim] in S1; cbn [CompSpec.eval_exprs ends].
      * destruct S1 as (t' & A1 & A2 & A3 & A4 & A5 & A6). exists t'. repeat split; try assumption.
        rewrite A6 by reflexivity. now stx.
      * destruct S1 as (t' & tl1 & A1 & A2 & A3 & A4). exists t', tl1. repeat split; try assumption.
        rewrite A4 by reflexivity. now stx.
      * destruct S1 as (t' & A1 & A2 & _). exists t'. split; assumption.
      * exact S1.
      * exact S1.
    + rewrite gen_exprs_cons. specialize (S1 PtcNone).
      pose proof (gens_open us (NClear :: c) eq_refl) as Eo. rewrite <- gen_expr_open in Eo by exact Ec.
      destruct (evals PtcNone us (wd t1) []) as [w [[s'|r]|x| |]] eqn:Ev; cbn [sim] in S1.
      * destruct S1 as (t' & A1 & A2 & A3 & A4 & A5 & A6). rewrite <- A2. apply IH; try assumption.
        rewrite A6 by reflexivity. now stx.
      * exfalso. eapply evals_no_tail; exact Ev.
      * destruct S1 as (t' & A1 & A2 & _). exists t'. split; [|assumption]. eapply gen_exprs_ext; [exact A1|discriminate].
      * destruct S1 as (t' & A1 & A2). exists t'. split; [|assumption]. eapply gen_exprs_ext; [exact A1|discriminate].
      * destruct S1 as (t' & A1 & A2). exists t'. split; [|assumption]. eapply gen_exprs_ext; [exact A1|discriminate].
Qed.

Lemma exprs_no_tail : forall l w0 w r, eval_exprs PtcNone l w0 = (w, Val (Some r)) -> False.
Proof.
  induction l as [|us l IH]; intros w0 w r K; [discriminate|]. cbn [CompSpec.eval_exprs] in K.
  replace (match l with [] => PtcNone | _ => PtcNone end) with PtcNone in K by (destruct l; reflexivity).
  destruct (evals PtcNone us w0 []) as [w1 [[s'|r']|x| |]] eqn:Ev; try discriminate K.
  - eapply IH; exact K.
  - eapply evals_no_tail; exact Ev.
Qed.

(* what invoke_ptc_aware makes of the status *)
Definition outcome_of (m : st * res status) : W * res ref :=
  match m with
  | (t, Val SReturn) =>
    match s0 t with
    | [] => (wd t, Bad)
    | r :: _ => (wd t, Val r)
    end
  | (t, Val _) => (wd t, Val Void)
  | (t, Exn x) => (wd t, Exn x)
  | (t, Bad) => (wd t, Bad)
  | (t, Fuel) => (wd t, Fuel)
  end.
Lemma outcome_return : forall t r l, sw t = false -> cur t = r :: l -> outcome_of (t, Val SReturn) = (wd t, Val r).
Proof. intros t r l Hs Hc. unfold cur in Hc. rewrite Hs in Hc. cbn. now rewrite Hc. Qed.

Lemma const_return : forall v rest t t' q, execs (NConst v :: rest) t = (t', q) -> q <> Val SReturn ->
  (q = Val SNext /\ (exists l, cur t' = Temp v :: l) /\ execs (NReturnConst v :: rest) t = (t', Val SReturn)) \/
  (q <> Val SNext /\ execs (NReturnConst v :: rest) t = (t', q)).
Proof.
  intros v rest t t' q H Hq. rewrite execs_cons in *. destruct (execs rest t) as [t2 [[]| | |]].
  - cbn [CompModel.exec] in *. injection H as <- <-. left. repeat split; [eexists; now stx].
  - injection H as <- <-. congruence.
  - injection H as <- <-. right. split; [discriminate|reflexivity].
  - injection H as <- <-. right. split; [discriminate|reflexivity].
  - injection H as <- <-. right. split; [discriminate|reflexivity].
  - injection H as <- <-. right. split; [discriminate|reflexivity].
Qed.

Lemma gen_return_view : forall (by_ref : bool) us (c : list (node N D)), us <> [] ->
  let code := gen_expr lv tail (if by_ref then PtcRef else PtcVal) us c in
  gen_return lv tail by_ref us c = NReturn by_ref false :: code \/
  (exists v rest, code = NConst v :: rest /\ gen_return lv tail by_ref us c = NReturnConst v :: rest).
Proof.
  intros by_ref us c Hn code. subst code. unfold gen_return. destruct us as [|u [|u' us]]; [congruence| |].
  - destruct (lv <? 1); [left; reflexivity|].
    destruct (gen_expr lv tail (if by_ref then PtcRef else PtcVal) [u] c) as [|[] code]; try (left; reflexivity).
    destruct v; try (left; reflexivity); try (right; eexists; eexists; split; reflexivity).
    match goal with |- context [is_int32 ?n] => destruct (is_int32 n) eqn:EI; rewrite ?(cut32_id _ EI) end; [right; eexists; eexists; split; reflexivity|left; reflexivity].
  - left. destruct (lv <? 1); [reflexivity|]. reflexivity.
Qed.

Lemma body_sim : forall b t, whole_body b -> calm_body lv b = true -> sw t = false ->
  outcome_of (execs (gen_body lv tail b) t) = eval_body P (lv <? 2) tail e inv' b (wd t).
Proof.
  intros [l ret] t [Hw Hr] Hca Hsw. unfold calm_body in Hca. cbn [b_exprs b_ret] in *.
  apply andb_true_iff in Hca as [Hca1 Hca2].
  unfold gen_body, eval_body. cbn [b_exprs b_ret].
  destruct ret as [[by_ref us]|].
  - pose proof (exprs_sim l PtcNone [] t t Hw Hca1 eq_refl eq_refl Hsw) as S1.
    pose proof (gen_exprs_open l [] eq_refl) as Eo.
    set (c := gen_exprs PtcNone l []) in *.
    assert (Ext : extends c (gen_return lv tail by_ref us c)).
    { destruct us as [|u us]; [apply ext_cons|].
      destruct (gen_return_view by_ref (u :: us) c ltac:(discriminate)) as [-> |(v & rest & Ev & ->)].
      - eapply ext_trans; [apply gen_expr_ext|apply ext_cons].
      - apply (ext_trans _ (NConst v :: rest)); [rewrite <- Ev; apply gen_expr_ext|].
        intros t2 t3 r K Kn. destruct r as [[]| | |]; try (destruct (const_return v rest t2 t3 _ K) as [[? ?]|[_ ?]]; congruence).
        + rewrite execs_cons in K |- *. destruct (execs rest t2) as [t4 [[]| | |]]; try congruence. discriminate K. }
    destruct (eval_exprs PtcNone l (wd t)) as [w [[r|]|x| |]] eqn:Ev; cbn [ends] in S1.
    + exfalso. eapply exprs_no_tail; exact Ev.
    + destruct S1 as (t1 & A1 & A2 & A3). destruct us as [|u us].
      { cbn [gen_return]. rewrite execs_cons, A1. cbn. now rewrite A2. }
      destruct Hr as [Hr|Hr]; [discriminate|]. remember (u :: us) as vs.
      assert (Hn : vs <> []) by (subst; discriminate).
      replace (match vs with
               | [] => (w, Val Void)
               | _ :: _ => _
               end) with (match evals (if by_ref then PtcRef else PtcVal) vs w [] with
      | (w, Val (Tail r)) => (w, Val r)
      | (w, Val (Next (Void :: _))) => (w, Val Void)
      | (w, Val (Next (r :: _))) => check_sem P by_ref r w
      | (w, Val (Next [])) => (w, Bad)
      | (w, Exn x) => (w, Exn x)
      | (w, Bad) => (w, Bad)
      | (w, Fuel) => (w, Fuel)
      end) by (subst; reflexivity).
      clear u us Heqvs.
      pose proof (expr_sim vs (if by_ref then PtcRef else PtcVal) c t t1 Hr Hca2 Eo A1 A3) as S2. rewrite A2 in S2.
      destruct (gen_return_view by_ref vs c Hn) as [-> |(v & rest & Ec & ->)].
      * rewrite execs_cons.
        destruct (evals (if by_ref then PtcRef else PtcVal) vs w []) as [w2 [[s'|r]|x| |]]; cbn [sim] in S2.
        -- destruct S2 as (t2 & B1 & B2 & B3 & B4 & B5 & B6). rewrite B1. destruct s' as [|r [|? ?]]; try discriminate B4.
           cbn [app] in B3. specialize (B6 eq_refl). rewrite sw_set_cur, A3 in B6.
           cbn [CompModel.exec]. rewrite B3.
           assert (G : outcome_of match with_top 1 (top1 (check_sem P by_ref)) t2 with
                              | (t, Val SNext) => (t, Val SReturn)
                              | r => r
                              end = check_sem P by_ref r w2).
           { unfold with_top. rewrite B3. cbn [length Nat.ltb Nat.leb firstn skipn top1]. unfold check_sem. rewrite B2.
             destruct (read P w2 r).
             - erewrite outcome_return; [|now stx|now stx]. now stx.
             - cbn. reflexivity. }
           destruct r; try exact G. erewrite outcome_return; [|exact B6|exact B3]. now rewrite B2.
        -- destruct S2 as (t2 & tl2 & B1 & B2 & B3 & B4). rewrite B1. specialize (B4 eq_refl). rewrite sw_set_cur, A3 in B4.
           erewrite outcome_return; [|exact B4|exact B3]. now rewrite B2.
        -- destruct S2 as (t2 & B1 & B2 & _). rewrite B1. cbn. now rewrite B2.
        -- destruct S2 as (t2 & B1 & B2). rewrite B1. cbn. now rewrite B2.
        -- destruct S2 as (t2 & B1 & B2). rewrite B1. cbn. now rewrite B2.
      * rewrite Ec in S2.
        destruct (evals (if by_ref then PtcRef else PtcVal) vs w []) as [w2 [[s'|r]|x| |]]; cbn [sim] in S2.
        -- destruct S2 as (t2 & B1 & B2 & B3 & B4 & B5 & B6). destruct s' as [|r [|? ?]]; try discriminate B4.
           cbn [app] in B3. specialize (B6 eq_refl). rewrite sw_set_cur, A3 in B6.
           destruct (const_return v rest t t2 _ B1 ltac:(discriminate)) as [(_ & (l0 & Hl) & ->)|(K & _)]; [|congruence].
           rewrite B3 in Hl. injection Hl as -> <-. erewrite outcome_return; [|exact B6|exact B3]. rewrite B2. unfold check_sem. cbn [read]. now destruct by_ref.
        -- destruct S2 as (t2 & tl2 & B1 & B2 & B3 & B4). specialize (B4 eq_refl). rewrite sw_set_cur, A3 in B4.
           rewrite execs_cons in B1 |- *. destruct (execs rest t) as [t3 [[]| | |]]; try discriminate B1.
           injection B1 as ->. erewrite outcome_return; [|exact B4|exact B3]. now rewrite B2.
        -- destruct S2 as (t2 & B1 & B2 & _).
           destruct (const_return v rest t t2 _ B1 ltac:(discriminate)) as [(K & _)|(_ & ->)]; [discriminate|]. cbn. now rewrite B2.
        -- destruct S2 as (t2 & B1 & B2).
           destruct (const_return v rest t t2 _ B1 ltac:(discriminate)) as [(K & _)|(_ & ->)]; [discriminate|]. cbn. now rewrite B2.
        -- destruct S2 as (t2 & B1 & B2).
           destruct (const_return v rest t t2 _ B1 ltac:(discriminate)) as [(K & _)|(_ & ->)]; [discriminate|]. cbn. now rewrite B2.
    + destruct S1 as (t1 & A1 & A2). rewrite (Ext _ _ _ A1) by discriminate. cbn. now rewrite A2.
    + destruct S1 as (t1 & A1 & A2). rewrite (Ext _ _ _ A1) by discriminate. cbn. now rewrite A2.
    + destruct S1 as (t1 & A1 & A2). rewrite (Ext _ _ _ A1) by discriminate. cbn. now rewrite A2.
  - pose proof (exprs_sim l PtcVoid [] t t Hw Hca1 eq_refl eq_refl Hsw) as S1.
    destruct (eval_exprs PtcVoid l (wd t)) as [w [[r|]|x| |]]; cbn [ends] in S1.
    + destruct S1 as (t1 & tl1 & A1 & A2 & A3 & A4). rewrite A1. erewrite outcome_return; [|exact A4|exact A3]. now rewrite A2.
    + destruct S1 as (t1 & A1 & A2 & A3). rewrite A1. cbn. now rewrite A2.
    + destruct S1 as (t1 & A1 & A2). rewrite A1. cbn. now rewrite A2.
    + destruct S1 as (t1 & A1 & A2). rewrite A1. cbn. now rewrite A2.
    + destruct S1 as (t1 & A1 & A2). rewrite A1. cbn. now rewrite A2.
Qed.
End Sim.

(* ---- functions ---- *)

Section Functions.
Context {W E R X F N D : Type} (P : prims W E R X F N D).
Notation ref := (ref R F).
Notation invoker := (@invoker W R X F).
Implicit Types c : invoker.

Lemma unpack_ext : forall c c', (forall f self args w, c f self args w = c' f self args w) ->
  forall n r w, unpack P c n r w = unpack P c' n r w.
Proof.
  intros c c' H. induction n as [|n IH]; intros r w; destruct r; try reflexivity.
  cbn [unpack]. rewrite H. destruct (c' f r args w) as [w1 [[]|x| |]]; try reflexivity. apply IH.
Qed.
Lemma complete_ext : forall c c', (forall f self args w, c f self args w = c' f self args w) ->
  forall n f self args w, complete P c n f self args w = complete P c' n f self args w.
Proof.
  intros c c' H n f self args w. unfold complete. rewrite H.
  destruct (c' f self args w) as [w1 [r|x| |]]; try reflexivity. now apply unpack_ext.
Qed.
Lemma native_ext : forall c c', (forall f self args w, c f self args w = c' f self args w) ->
  forall m, run_native c m = run_native c' m.
Proof.
  intros c c' H. induction m as [w r|w x|f self args w k IH]; try reflexivity.
  cbn [run_native]. rewrite H. destruct (c' f self args w) as [w1 [r|x| |]]; try reflexivity; apply IH.
Qed.

Definition good (lv : Z) (fdefs : F -> @fdef W E R X F N D) : Prop :=
  forall f b enter, fdefs f = Script b enter -> whole_body b /\ calm_body lv b = true.

Lemma invoke_ptc_means : forall lv tail fdefs, good lv fdefs -> forall n f self args w,
  invoke_ptc P lv tail fdefs n f self args w = means_ptc P (lv <? 2) tail fdefs n f self args w.
Proof.
  intros lv tail fdefs G. induction n as [|n IH]; intros f self args w; [reflexivity|].
  cbn [invoke_ptc means_ptc]. destruct (fdefs f) as [b enter|m] eqn:Ef.
  - destruct (enter self args w) as [w1 [e|x]]; [|reflexivity].
    destruct (G _ _ _ Ef) as [Hw Hc].
    pose proof (body_sim P lv tail e _ _ (complete_ext _ _ IH n) b
      {| wd := w1; s0 := rev args; s1 := []; sw := false |} Hw Hc eq_refl) as K.
    exact K.
  - apply native_ext. intros. now apply complete_ext.
Qed.
Lemma invoke_means : forall lv tail fdefs, good lv fdefs -> forall n f self args w,
  invoke P lv tail fdefs n f self args w = means P (lv <? 2) tail fdefs n f self args w.
Proof.
  intros lv tail fdefs G n f self args w. unfold invoke, means. apply complete_ext. now apply invoke_ptc_means.
Qed.
End Functions.

(* without optimisation everything is plain *)
Lemma forallb_of : forall A (f : A -> bool) l, Forall (fun x => f x = true) l -> forallb f l = true.
Proof. induction 1; [reflexivity|]. cbn. now rewrite H, IHForall. Qed.
Lemma plain_zero : forall N D lv (u : xunit N D), lv < 1 -> plain lv u = true.
Proof.
  intros N D lv u Hl. assert (L : (lv <? 1) = true) by (apply Z.ltb_lt; lia).
  induction u using unit_ind; cbn [plain]; try reflexivity.
  - rewrite !forallb_of by assumption. reflexivity.
  - now apply forallb_of.
  - rewrite L. cbn [orb andb]. apply forallb_of. eapply Forall_impl; [|exact H]. intros us. apply forallb_of.
  - apply forallb_of. eapply Forall_impl; [|exact H]. intros us. apply forallb_of.
  - apply forallb_of. eapply Forall_impl; [|exact H]. intros us. apply forallb_of.
  - now apply forallb_of.
Qed.
Lemma calm_zero : forall N D lv (b : body N D), lv < 1 -> calm_body lv b = true.
Proof.
  intros N D lv b Hl. unfold calm_body.
  assert (A : forall us : list (xunit N D), forallb (calm lv) us = true).
  { intros us. apply forallb_of, Forall_forall. intros u _. apply plain_calm. now apply plain_zero. }
  rewrite forallb_of by (apply Forall_forall; intros us _; apply A).
  destruct (b_ret b) as [[br us]|]; [apply A|reflexivity].
Qed.
(* what is calm when optimised is calm at every level above *)
Lemma calm_levels : forall N D lv lv' (u : xunit N D), 1 <= lv -> 1 <= lv' ->
  plain lv u = plain lv' u /\ calm lv u = calm lv' u.
Proof.
  intros N D lv lv' u H1 H2.
  assert (L1 : (lv <? 1) = false) by (apply Z.ltb_ge; lia). assert (L2 : (lv' <? 1) = false) by (apply Z.ltb_ge; lia).
  assert (Fb : forall (f g : xunit N D -> bool) l, Forall (fun u => f u = g u) l -> forallb f l = forallb g l).
  { induction 1; [reflexivity|]. cbn. now rewrite H, IHForall. }
  assert (Fbb : forall (f g : xunit N D -> bool) l, Forall (Forall (fun u => f u = g u)) l ->
     forallb (forallb f) l = forallb (forallb g) l).
  { induction 1; [reflexivity|]. cbn. rewrite (Fb f g x) by assumption. now rewrite IHForall. }
  induction u using unit_ind; cbn [plain calm]; try (split; reflexivity).
  - split; f_equal; apply Fb; (eapply Forall_impl; [|eassumption]); intros ? []; assumption.
  - split; apply Fb; (eapply Forall_impl; [|eassumption]); intros ? []; assumption.
  - rewrite L1, L2. split; [f_equal|]; apply Fbb; (eapply Forall_impl; [|eassumption]); intros ? K;
      (eapply Forall_impl; [|exact K]); intros ? []; assumption.
  - split; apply Fbb; (eapply Forall_impl; [|eassumption]); intros ? K;
      (eapply Forall_impl; [|exact K]); intros ? []; assumption.
  - split; apply Fbb; (eapply Forall_impl; [|eassumption]); intros ? K;
      (eapply Forall_impl; [|exact K]); intros ? []; assumption.
  - split; apply Fb; (eapply Forall_impl; [|eassumption]); intros ? []; assumption.
Qed.

Section Levels.
Context {W E R X F N D : Type} (P : prims W E R X F N D).

Lemma unoptimised_means : forall lv tail fdefs, lv < 1 ->
  (forall f b enter, fdefs f = Script b enter -> whole_body b) -> forall n f self args w,
  invoke P lv tail fdefs n f self args w = means P true tail fdefs n f self args w.
Proof.
  intros lv tail fdefs Hl G n f self args w.
  replace true with (lv <? 2) by (apply Z.ltb_lt; lia). apply invoke_means.
  intros f0 b enter K. split; [exact (G _ _ _ K)|now apply calm_zero].
Qed.
Lemma optimised_same : forall tail fdefs, good 1 fdefs -> forall n f self args w,
  invoke P 1 tail fdefs n f self args w = invoke P 0 tail fdefs n f self args w.
Proof.
  intros tail fdefs G n f self args w. rewrite invoke_means by exact G. symmetry. apply unoptimised_means; [lia|].
  intros f0 b enter K. exact (proj1 (G _ _ _ K)).
Qed.

(* ---- arguments ---- *)

Lemma gens_app : forall lv tail us u (c : list (node N D)),
  gens lv tail PtcNone (us ++ [u]) c = gen lv tail PtcNone u (gens lv tail PtcNone us c).
Proof.
  induction us as [|u1 us IH]; intros u c; [reflexivity|].
  cbn [app]. destruct us as [|u2 us]; [reflexivity|].
  change (gens lv tail PtcNone (u1 :: (u2 :: us) ++ [u]) c)
    with (gens lv tail PtcNone ((u2 :: us) ++ [u]) (gen lv tail PtcNone u1 c)).
  rewrite IH. reflexivity.
Qed.
Lemma argument_void : forall by_ref us u, may_be_void u = true ->
  argument (N:=N) (D:=D) by_ref (us ++ [u]) = (us ++ [u]) ++ [UCheck by_ref].
Proof. intros by_ref us u H. unfold argument. rewrite rev_app_distr. cbn [rev app]. now rewrite H. Qed.
Lemma checked_argument : forall lv tail e inv by_ref us u c t t',
  lv < 2 -> may_be_void u = true -> ended c = false ->
  execs P e inv (gens lv tail PtcNone (argument by_ref (us ++ [u])) c) t = (t', Val SNext) ->
  exists r s v, cur t' = r :: s /\ read P (wd t') r = inl v /\ (by_ref = false -> r = Temp v).
Proof.
  intros lv tail e inv by_ref us u c t t' Hl Hu Ec H. rewrite argument_void in H by exact Hu. rewrite gens_app in H.
  set (c1 := gens lv tail PtcNone (us ++ [u]) c) in *.
  assert (E1 : ended c1 = false) by (apply gens_open; exact Ec).
  cbn [gen] in H. rewrite E1 in H. replace (2 <=? lv) with false in H by (symmetry; apply Z.leb_gt; lia).
  cbn [execs] in H. destruct (execs P e inv c1 t) as [t1 [[]| | |]]; try discriminate H.
  cbn [exec] in H. unfold with_top in H. destruct (cur t1) as [|r s] eqn:E2; [discriminate H|].
  cbn [length Nat.ltb Nat.leb firstn skipn top1] in H. unfold check_sem in H.
  destruct (read P (wd t1) r) as [v|x] eqn:E3; [|discriminate H].
  injection H as <-. exists (if by_ref then r else Temp v), s, v. rewrite cur_set_cur, wd_set_cur, wd_set_wd.
  repeat split; [|intros ->; reflexivity]. destruct by_ref; [exact E3|reflexivity].
Qed.
End Levels.
