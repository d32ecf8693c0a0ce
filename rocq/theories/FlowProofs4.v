(* What the specification gives, the machine without proper tail calls does. *)
From Verif Require Import Base FlowModel FlowSpec FlowProofs1 FlowProofs2.
From Coq Require Import Lia.

Scheme eval_m := Minimality for eval Sort Prop
  with call_m := Minimality for call Sort Prop
  with scope_m := Minimality for scope Sort Prop
  with unwind_m := Minimality for unwind Sort Prop
  with stmts_m := Minimality for stmts Sort Prop
  with stmt_m := Minimality for stmt_ Sort Prop
  with cond_m := Minimality for cond Sort Prop
  with find_m := Minimality for find Sort Prop
  with fall_m := Minimality for fall Sort Prop
  with each_m := Minimality for each Sort Prop
  with loop_m := Minimality for loop Sort Prop
  with holds_m := Minimality for holds Sort Prop
  with steps_m := Minimality for steps Sort Prop.

Section Proofs.

Context {W E R V X A F It : Type}.
Notation ops := (@ops W E R V X A F It).
Notation expr := (@expr W E R X A F).
Notation stmt := (@stmt W E R X A F It).
Notation label := (@label W E R X A F).
Notation result := (@result R).
Notation node := (@node W E R X A F It).
Notation out := (@out R X).
Notation mst := (@mst W E R X A F It).
Notation ctx := (@ctx W E R X A F It).
Notation res := (@res W E R X A F It).
Notation ref := (@ref W E R X A F It).
Notation job := (@job W E R V X A F It).
Notation clause_ := (@clause_ W E R X A F It).

(* ---- more fuel gives the same result ---- *)
Section Mono.
Variable ptcf : bool.
Variable body : F -> list stmt.
Variable o : ops.
Notation run := (@run W E R V X A F It ptcf body o).

Definition le_res (a b : res) : Prop := a = Fuel \/ a = b.
Lemma le_refl : forall a, le_res a a.
Proof. right; reflexivity. Qed.
Lemma le_seq : forall a b c f g, le_res a b -> (forall m, le_res (f m) (g m)) ->
  le_res (seq a c f) (seq b c g).
Proof.
  intros a b c f g [-> | ->] H; [left; reflexivity|].
  destruct b; simpl; try apply le_refl. apply H.
Qed.
Lemma le_seq_next : forall a b c f g, le_res a b -> (forall m, le_res (f m) (g m)) ->
  le_res (seq_next a c f) (seq_next b c g).
Proof.
  intros a b c f g H1 H2. apply le_seq; [assumption|]. intros m.
  destruct (is_next (stat m)); [apply H2|apply le_refl].
Qed.
Lemma le_deref : forall m c r f g, (forall v, le_res (f v) (g v)) ->
  le_res (deref o m c r f) (deref o m c r g).
Proof.
  intros m c [| |r|p] f g H; simpl; try apply le_refl.
  destruct (value o (world m) r); [apply H|apply le_refl].
Qed.
Lemma le_top : forall m c f g, (forall v, le_res (f v) (g v)) ->
  le_res (with_top o m c f) (with_top o m c g).
Proof. intros m c f g H. unfold with_top. destruct (stk m); [apply le_refl|apply le_deref; assumption]. Qed.
Lemma le_after : forall k c m f g, (forall m, le_res (f m) (g m)) ->
  le_res (after_body k c m f) (after_body k c m g).
Proof.
  intros k c m f g H. unfold after_body. destruct (is_continue k (stat m)); [apply H|].
  destruct (is_next (stat m)); [apply H|apply le_refl].
Qed.

Ltac step IHn :=
  first
    [ apply le_refl
    | apply IHn
    | apply le_seq_next; [|intros ?]
    | apply le_seq; [|intros ?]
    | apply le_top; intros ?
    | apply le_deref; intros ?
    | apply le_after; intros ?
    | match goal with
      | |- le_res (match FlowModel.run _ _ _ ?a ?j ?m with _ => _ end)
                  (match FlowModel.run _ _ _ ?b ?j ?m with _ => _ end) =>
          let H := fresh in
          destruct (IHn j m) as [H|H]; rewrite H; [left; reflexivity|];
          destruct (FlowModel.run _ _ _ b j m)
      | |- le_res (match ?a with _ => _ end) (match ?b with _ => _ end) =>
          lazymatch a with
          | b => destruct a
          | _ => let H := fresh in
                 assert (H : le_res a b);
                 [|destruct H as [H|H]; rewrite H; [left; reflexivity|]; destruct b]
          end
      end ].

Lemma run_mono : forall n k j m, (n <= k)%nat -> le_res (run n j m) (run k j m).
Proof.
  induction n as [|n IHn]; intros k j m Hk; [left; reflexivity|].
  destruct k as [|k]; [lia|].
  assert (IH' : forall j m, le_res (run n j m) (run k j m)) by (intros; apply IHn; lia).
  clear IHn. destruct j; cbn [FlowModel.run].
  all: try (destruct x; cbn [FlowModel.run]).
  all: repeat step IH'.
Qed.
End Mono.

(* ---- completeness ---- *)
Variable body : F -> list stmt.
Variable o : ops.
Notation gen := (@gen W E R X A F It false).
Notation code := (@code W E R X A F It false).
Notation frag := (@frag W E R X A F It false).
Notation run := (@run W E R V X A F It false body o).
Notation eval := (@eval W E R V X A F It o body).
Notation call := (@call W E R V X A F It o body).
Notation scope := (@scope W E R V X A F It o body).
Notation unwind := (@unwind W E R V X A F It o body).
Notation stmts := (@stmts W E R V X A F It o body).
Notation stmt_ := (@stmt_ W E R V X A F It o body).
Notation cond := (@cond W E R V X A F It o body).
Notation find := (@find W E R V X A F It o body).
Notation fall := (@fall W E R V X A F It o body).
Notation each := (@each W E R V X A F It o body).
Notation loop := (@loop W E R V X A F It o body).
Notation read := (@read W E R V X A F It o).
Notation returned := (@returned W E R V X A F It o).
Notation finish := (@finish W E R V X A F It o).
Notation mdef := (@mdef W E R X A F It false).
Notation ref_of := (@ref_of W E R X A F It).
Notation matches := (@matches W E R X A F It).
Notation Leave := (@Leave W E R V X A F It false body o).
Notation gexp := (@gen_expr W E R X A F It false ptc_none).

Definition runs (j : job) (m : mst) (z : res) : Prop :=
  exists n0, forall n, (n0 <= n)%nat -> run n j m = z.
Definition left_ (c : ctx) (z z' : res) : Prop :=
  exists n0, forall n, (n0 <= n)%nat -> Leave n c z = z'.

Lemma runs_of : forall n j m z, run n j m = z -> z <> Fuel -> runs j m z.
Proof.
  intros n j m z H Hz. exists n. intros k Hk.
  destruct (run_mono false body o n k j m Hk) as [Hf|He]; congruence.
Qed.
Lemma runs_some : forall j m z, runs j m z -> exists n, run n j m = z.
Proof. intros j m z [n H]. exists n. apply H. lia. Qed.

(* unfold one step of the machine and use what is known about the others *)
Ltac use n :=
  match goal with
  | H : forall n, (_ <= n)%nat -> run n ?j ?m = ?z |- context [run n ?j' ?m'] =>
      let Q := fresh in
      assert (Q : run n j' m' = z) by (exact (H n ltac:(lia)));
      rewrite Q; clear Q
  | H : forall n, (_ <= n)%nat -> Leave n ?c ?z = ?z' |- _ => rewrite (H n) by lia
  end.
Ltac more :=
  repeat
    (cbn [seq seq_next is_next FlowProofs2.Leave set_stat set_stk set_world push
          world stat stk depth peak names dfr];
     match goal with
     | H : forall k, with_top _ ?m ?c k = _ |- context [with_top _ ?m ?c _] => rewrite H
     | |- context [with_top _ _ _ _] => unfold with_top
     | H : forall c f, after_body ?k c ?m f = _ |- context [after_body ?k _ ?m _] => rewrite H
     | H : Bool.eqb ?a ?b = _ |- context [Bool.eqb ?a ?b] => rewrite H
     | H : stat ?m = _ |- context [stat ?m] => rewrite H
     | H : stk ?m = _ |- context [stk ?m] => rewrite H
     | H : dfr ?c = _ |- context [dfr ?c] => rewrite H
     | H : names ?c = _ |- context [names ?c] => rewrite H
     | H : world ?c = _ |- context [world ?c] => rewrite H
     | H : forall k, deref _ ?m ?c ?r k = _ |- context [deref _ ?m ?c ?r _] => rewrite H
     end).
Ltac fuel :=
  unfold runs, left_ in *;
  let rec go acc :=
    match goal with
    | H : exists n0, forall n, (n0 <= n)%nat -> _ |- _ =>
        let k := fresh "K" in destruct H as [k H]; go (acc + k)%nat
    | _ => exists acc
    end in
  go 1%nat;
  let n := fresh "n" in let Hn := fresh "Hn" in
  intros n Hn; destruct n as [|n]; [lia|]; cbn [FlowModel.run];
  repeat (more; use n); more.

Lemma R_rod : forall cd c m z, runs (JSeq cd c) (set_stat m st_next) z -> runs (JRod cd c) m z.
Proof. intros. fuel. reflexivity. Qed.
Lemma R_nil : forall c m, runs (JSeq [] c) m (Go c m).
Proof. intros. fuel. reflexivity. Qed.
Lemma R_last : forall x c m z, runs (JNode x c) m z -> runs (JSeq [x] c) m z.
Proof.
  intros x c m z H. destruct H as [k H]. exists (S k). intros n Hn. destruct n as [|n]; [lia|].
  rewrite seq_single. apply H. lia.
Qed.
Lemma R_last_inv : forall x c m z, runs (JSeq [x] c) m z -> runs (JNode x c) m z.
Proof.
  intros x c m z H. destruct H as [k H]. exists k. intros n Hn.
  rewrite <- (H (S n)) by lia. rewrite seq_single. reflexivity.
Qed.
Lemma R_clear : forall l c m z, stat m = st_next ->
  runs (JSeq l c) (set_stk m []) z -> runs (JSeq (NClear :: l) c) m z.
Proof.
  intros l c m z Hm [k H]. exists (S (S k)). intros n Hn.
  destruct n as [|[|n]]; try lia. rewrite run_cons. cbn [FlowModel.run].
  replace (is_next (stat (set_stk m []))) with true by (cbn; rewrite Hm; reflexivity).
  apply (H (S n)). lia.
Qed.
Lemma R_expr : forall p x l c m c1 m1 z, stat m1 = st_next ->
  runs (JExpr p x c) m (Go c1 m1) -> runs (JSeq l c1) m1 z ->
  runs (JSeq (NExpr p x :: l) c) m z.
Proof.
  intros p x l c m c1 m1 z Hm [k H] [k' H']. exists (S (S (k + k'))). intros n Hn.
  destruct n as [|[|n]]; try lia. rewrite run_cons. cbn [FlowModel.run].
  rewrite (H n) by lia. rewrite Hm. cbn [is_next]. apply (H' (S n)). lia.
Qed.
Lemma R_expr_exn : forall p x l c m y c1 m1,
  runs (JExpr p x c) m (Exn y c1 m1) -> runs (JSeq (NExpr p x :: l) c) m (Exn y c1 m1).
Proof.
  intros p x l c m y c1 m1 [k H]. exists (S (S k)). intros n Hn.
  destruct n as [|[|n]]; try lia. rewrite run_cons. cbn [FlowModel.run].
  rewrite (H n) by lia. reflexivity.
Qed.
Lemma R_app : forall a b c m c1 m1 z, stat m = st_next -> stat m1 = st_next ->
  runs (JSeq a c) m (Go c1 m1) -> runs (JSeq b c1) m1 z -> runs (JSeq (a ++ b) c) m z.
Proof.
  intros a b c m c1 m1 z Hm H1 [k H] [k' H']. exists (k + k' + length a)%nat. intros n Hn.
  rewrite seq_app by assumption. rewrite (H n) by lia. rewrite H1. cbn [is_next]. apply H'. lia.
Qed.
Definition stops (z : res) : Prop :=
  match z with Go _ m => is_next (stat m) = false | Exn _ _ _ => True | _ => False end.
Lemma R_app_stop : forall a b c m z, stat m = st_next -> stops z ->
  runs (JSeq a c) m z -> runs (JSeq (a ++ b) c) m z.
Proof.
  intros a b c m z Hm H1 [k H]. exists k. intros n Hn.
  rewrite seq_app by assumption. rewrite (H n) by lia. destruct z; simpl in H1; try contradiction.
  - rewrite H1. reflexivity.
  - reflexivity.
Qed.
Lemma R_block : forall cd c m z z', runs (JRod cd (mk_ctx (names c) [])) m z -> left_ c z z' ->
  runs (JBlock cd c) m z'.
Proof.
  intros cd c m z z' [k H] [k' H']. exists (S (k + k')). intros n Hn. destruct n as [|n]; [lia|].
  cbn [FlowModel.run]. rewrite (H n) by lia. apply (H' n). lia.
Qed.

(* ---- outcomes ---- *)
Definition O (r : out) (z : res) (c : ctx) (m : mst) : Prop :=
  match r with
  | OThrow x => z = Exn x c m
  | _ => z = Go c m /\ matches r m
  end.
Lemma O_next : forall z c m, O ONext z c m -> z = Go c m /\ stat m = st_next.
Proof. intros z c m H. exact H. Qed.
Lemma O_stops : forall r z c m, O r z c m -> r <> ONext -> stops z.
Proof.
  intros [| | |[|r]|] z c m H Hr; simpl in H; try congruence.
  - destruct H as [-> H]. simpl. rewrite H. reflexivity.
  - destruct H as [-> H]. simpl. rewrite H. reflexivity.
  - destruct H as [-> [H|[H _]]]; simpl; rewrite H; reflexivity.
  - destruct H as [-> [H _]]. simpl. rewrite H. reflexivity.
  - subst z. exact I.
Qed.

Definition T_seq (cd : list node) (e : E) (w : W) (e' : E) (new : list (E * expr)) (w' : W)
    (r : out) : Prop :=
  forall c m, names c = e -> world m = w -> stat m = st_next ->
  exists c' m' z, runs (JSeq cd c) m z /\ O r z c' m' /\ world m' = w'
    /\ dfr c' = map mdef new ++ dfr c /\ names c' = e'.
Definition T_job (j : ctx -> job) (e : E) (w w' : W) (r : out) : Prop :=
  forall c m, names c = e -> world m = w -> stat m = st_next ->
  exists m' z, runs (j c) m z /\ O r z c m' /\ world m' = w'.

Definition P_eval (e : E) (x : expr) (w w' : W) (rr : result + X) : Prop :=
  forall c m, names c = e -> world m = w -> stat m = st_next ->
  exists m', world m' = w' /\
    match rr with
    | inl r => runs (JExpr ptc_none x c) m (Go c m') /\ stat m' = st_next
               /\ stk m' = ref_of r :: stk m
    | inr y => runs (JExpr ptc_none x c) m (Exn y c m')
    end.
Definition P_call (f : F) (a : A) (w w' : W) (rr : result + X) : Prop :=
  forall c m, world m = w ->
  exists m', world m' = w' /\
    match rr with
    | inl r => runs (JInvoke f a c) m (Go c m') /\ stk m' = [ref_of r]
    | inr y => runs (JInvoke f a c) m (Exn y c m')
    end.
Definition P_unwind (ds : list (E * expr)) (r : out) (w w' : W) (r' : out) : Prop :=
  (ds = [] -> r' = r /\ w' = w) /\
  forall c m, dfr c = map mdef ds -> world m = w ->
    (forall x, r = OThrow x -> exists x' c' m', r' = OThrow x'
        /\ runs (JExitExn x c) m (Exn x' c' m') /\ world m' = w')
    /\ (forall saved s,
         (exists x' c' m', r' = OThrow x' /\ runs (JExitLoop c saved s) m (Exn x' c' m')
                           /\ world m' = w')
         \/ (r' = r /\ exists c' m', runs (JExitLoop c saved s) m (Go c' m') /\ world m' = w'
               /\ stat m' = s
               /\ match saved with Some r0 => exists t, stk m' = r0 :: t | None => True end)).
Definition P_scope (e : E) (l : list stmt) (w w' : W) (r : out) : Prop :=
  exists e' ds w1 r0, (forall q, T_seq (code q l) e w e' ds w1 r0) /\ P_unwind ds r0 w1 w' r
    /\ (forallb is_scopeless l = true -> e' = e /\ ds = [] /\ w1 = w' /\ r0 = r).
Definition P_stmts (e : E) (ds : list (E * expr)) (l : list stmt) (w : W) (e' : E)
    (ds' : list (E * expr)) (w' : W) (r : out) : Prop :=
  exists new, ds' = new ++ ds /\ forall q, T_seq (code q l) e w e' new w' r.
Definition P_stmt (e : E) (ds : list (E * expr)) (s : stmt) (w : W) (e' : E)
    (ds' : list (E * expr)) (w' : W) (r : out) : Prop :=
  exists new, ds' = new ++ ds /\ forall q, T_seq (frag q s) e w e' new w' r.
Definition P_cond (e : E) (x : expr) (w w' : W) (rv : V + X) : Prop :=
  forall c m, names c = e -> world m = w -> stat m = st_next ->
  exists m', world m' = w' /\
    match rv with
    | inl v => runs (JExpr ptc_none x c) m (Go c m') /\ stat m' = st_next
               /\ exists r, stk m' = r :: stk m /\ forall k, deref o m' c r k = k v
    | inr y => runs (JExpr ptc_none x c) m (Exn y c m')
               \/ (runs (JExpr ptc_none x c) m (Go c m') /\ stat m' = st_next
                   /\ exists r, stk m' = r :: stk m /\ forall k, deref o m' c r k = Exn y c m')
    end.
Definition gcl (c : clause_) : @clause W E R X A F It :=
  let '(lb, skip, b) := c in
  match lb with
  | LDefault => (clause_default, [], skip, code ptc_none b)
  | LCase x => (clause_case, gexp (Some x), skip, code ptc_none b)
  | LEach lc uc lo up =>
      (clause_each lc uc, gexp (Some lo) ++ [NExpr ptc_none up], skip, code ptc_none b)
  end.
Definition P_find (e : E) (v : V) (k : nat) (d : option nat) (rest : list clause_) (w w' : W)
    (r : option nat + X) : Prop :=
  forall cl c m, names c = e -> world m = w -> stat m = st_next ->
  exists m', world m' = w' /\
    match r with
    | inl None => stat m' = st_next /\ runs (JFind v k d (map gcl rest) cl c) m (Go c m')
    | inl (Some t) => stat m' = st_next /\
        forall z, (forall i, runs (JFind v i (Some t) [] cl c) m' z) ->
                  runs (JFind v k d (map gcl rest) cl c) m z
    | inr y => runs (JFind v k d (map gcl rest) cl c) m (Exn y c m')
    end.
Definition P_fall (e : E) (ds : list (E * expr)) (bs : list (list stmt)) (w : W) (e' : E)
    (ds' : list (E * expr)) (w' : W) (r : out) : Prop :=
  exists new, ds' = new ++ ds /\
  forall cl r1 c m, map snd cl = bs -> leaves_switch r r1 ->
    names c = e -> world m = w -> stat m = st_next ->
    exists c' m' z, runs (JClauses 0 (map gcl cl) c) m z /\ O r1 z c' m' /\ world m' = w'
      /\ dfr c' = map mdef new ++ dfr c.
Definition P_each (l : list It) (item : It -> E -> W -> W * (E + X)) (b cc : list stmt)
    (e0 e : E) (w w' : W) (r : out) : Prop :=
  forall q outer c m, names outer = e0 -> names c = e -> world m = w -> stat m = st_next ->
  exists c' m' z, runs (JForEach l item (code ptc_none b) (code q cc) outer c) m z
    /\ O r z c' m' /\ world m' = w' /\ dfr c' = dfr c.
Definition P_loop (cn sp : option expr) (b cc : list stmt) (e0 e : E) (w w' : W) (r : out) : Prop :=
  forall q outer c m, names outer = e0 -> names c = e -> world m = w -> stat m = st_next ->
  exists m' z, runs (JFor (gexp cn) (gexp sp) (code ptc_none b) (code q cc) outer c) m z
    /\ O r z c m' /\ world m' = w'.
Definition P_holds (cn : option expr) (e : E) (w w' : W) : Prop :=
  forall c m, names c = e -> world m = w ->
  exists m', runs (JRod (gexp cn) c) m (Go c m') /\ world m' = w' /\ stat m' = st_next
    /\ forall K1 K2 : res,
         match stk m' with
         | [] => K1
         | r :: _ => deref o m' c r (fun v => if test o v then K1 else K2)
         end = K1.
Definition P_steps (sp : option expr) (e : E) (w w' : W) : Prop :=
  forall c m, names c = e -> world m = w ->
  exists m', runs (JRod (gexp sp) c) m (Go c m') /\ world m' = w' /\ stat m' = st_next.

(* ---- lemmas ---- *)
Lemma rod_eval : forall e x w w' rr, P_eval e x w w' rr ->
  forall c m, names c = e -> world m = w ->
  exists m', world m' = w' /\
    match rr with
    | inl r => runs (JRod (gexp (Some x)) c) m (Go c m') /\ stat m' = st_next
               /\ stk m' = [ref_of r]
    | inr y => runs (JRod (gexp (Some x)) c) m (Exn y c m')
    end.
Proof.
  intros e x w w' rr H c m Hc Hm.
  destruct (H c (set_stk (set_stat m st_next) []) Hc Hm eq_refl) as [m' [Hw Hr]].
  exists m'. split; [assumption|]. destruct rr as [r|y].
  - destruct Hr as [H1 [H2 H3]]. split; [|split; assumption].
    apply R_rod. apply R_clear; [reflexivity|]. eapply R_expr; [exact H2|exact H1|apply R_nil].
  - apply R_rod. apply R_clear; [reflexivity|]. apply R_expr_exn. assumption.
Qed.
Lemma rod_cond : forall e x w w' rv, P_cond e x w w' rv ->
  forall c m, names c = e -> world m = w ->
  exists m', world m' = w' /\
    match rv with
    | inl v => runs (JRod (gexp (Some x)) c) m (Go c m') /\ stat m' = st_next
               /\ exists r, stk m' = [r] /\ forall k, deref o m' c r k = k v
    | inr y => runs (JRod (gexp (Some x)) c) m (Exn y c m')
               \/ (runs (JRod (gexp (Some x)) c) m (Go c m') /\ stat m' = st_next
                   /\ exists r, stk m' = [r] /\ forall k, deref o m' c r k = Exn y c m')
    end.
Proof.
  intros e x w w' rr H c m Hc Hm.
  destruct (H c (set_stk (set_stat m st_next) []) Hc Hm eq_refl) as [m' [Hw Hr]].
  exists m'. split; [assumption|]. destruct rr as [r|y].
  - destruct Hr as [H1 [H2 H3]]. split; [|split; assumption].
    apply R_rod. apply R_clear; [reflexivity|]. eapply R_expr; [exact H2|exact H1|apply R_nil].
  - destruct Hr as [Hr|[H1 [H2 H3]]]; [left|right].
    + apply R_rod. apply R_clear; [reflexivity|]. apply R_expr_exn. assumption.
    + split; [|split; assumption].
      apply R_rod. apply R_clear; [reflexivity|]. eapply R_expr; [exact H2|exact H1|apply R_nil].
Qed.

Lemma exit_T : forall ds r w w' r', P_unwind ds r w w' r' ->
  forall c m, dfr c = map mdef ds -> world m = w -> matches r m ->
  exists c' m' z, runs (JExit c) m z /\ O r' z c' m' /\ world m' = w'.
Proof.
  intros ds r w w' r' [Hn Hu] c m Hd Hm Hr.
  assert (Hnt : forall x, r <> OThrow x) by (intros x ->; exact Hr).
  destruct ds as [|d0 ds].
  - destruct (Hn eq_refl) as [-> ->]. exists c, m, (Go c m). split; [|split; [|assumption]].
    + cbn [map] in Hd. fuel. reflexivity.
    + destruct r; simpl; auto. exact (False_ind _ Hr).
  - assert (Hg : exists saved m1, world m1 = w
        /\ (forall n, run (S n) (JExit c) m = run n (JExitLoop c saved (stat m)) m1)
        /\ forall m', stat m' = stat m ->
             match saved with Some r0 => exists t, stk m' = r0 :: t | None => True end -> matches r m').
    { cbn [map] in Hd.
      destruct (stat m) eqn:Es.
      - exists None, m. split; [assumption|]. split; [intros n; cbn [FlowModel.run]; rewrite Hd, Es; reflexivity|].
        intros m' H1 _. destruct r as [| | |[|r]|]; simpl in Hr |- *; try congruence.
        + destruct Hr as [Hr|[Hr _]]; congruence.
        + destruct Hr as [Hr _]; congruence.
      - exists None, m. split; [assumption|]. split; [intros n; cbn [FlowModel.run]; rewrite Hd, Es; reflexivity|].
        intros m' H1 _. destruct r as [| | |[|r]|]; simpl in Hr |- *; try congruence.
        + left; congruence.
        + destruct Hr as [Hr _]; congruence.
      - destruct r as [| | |[|r]|]; simpl in Hr; try congruence; try contradiction.
        + destruct Hr as [Hr|[_ [s Hs]]]; [congruence|].
          exists (Some RVoid), (set_stk m (RBad :: s)). split; [assumption|].
          split; [intros n; cbn [FlowModel.run]; rewrite Hd, Es, Hs; reflexivity|].
          intros m' H1 H2. simpl. right. split; assumption.
        + destruct Hr as [_ [s Hs]].
          exists (Some (RVal r)), (set_stk m (RBad :: s)). split; [assumption|].
          split; [intros n; cbn [FlowModel.run]; rewrite Hd, Es, Hs; reflexivity|].
          intros m' H1 H2. simpl. split; assumption.
      - exists None, m. split; [assumption|]. split; [intros n; cbn [FlowModel.run]; rewrite Hd, Es; reflexivity|].
        intros m' H1 _. destruct r as [| | |[|r]|]; simpl in Hr |- *; try congruence.
        + destruct Hr as [Hr|[Hr _]]; congruence.
        + destruct Hr as [Hr _]; congruence.
      - exists None, m. split; [assumption|]. split; [intros n; cbn [FlowModel.run]; rewrite Hd, Es; reflexivity|].
        intros m' H1 _. destruct r as [| | |[|r]|]; simpl in Hr |- *; try congruence.
        + destruct Hr as [Hr|[Hr _]]; congruence.
        + destruct Hr as [Hr _]; congruence. }
    destruct Hg as [saved [m1 [Hw1 [Hrun Hmatch]]]].
    destruct (Hu c m1 Hd Hw1) as [_ Hl]. destruct (Hl saved (stat m)) as [[x' [c' [m' [-> [[k Hk] Hw]]]]]|[-> [c' [m' [[k Hk] [Hw [Hs1 Hs2]]]]]]].
    + exists c', m', (Exn x' c' m'). split; [|split; [reflexivity|assumption]].
      exists (S k). intros n Hle. destruct n as [|n]; [lia|]. rewrite Hrun. apply Hk. lia.
    + exists c', m', (Go c' m'). split; [|split; [|assumption]].
      * exists (S k). intros n Hle. destruct n as [|n]; [lia|]. rewrite Hrun. apply Hk. lia.
      * specialize (Hmatch m' Hs1 Hs2). destruct r; simpl; auto. exact (False_ind _ (Hnt _ eq_refl)).
Qed.

Lemma leave_T : forall ds r w w' r' c1 m1 z, P_unwind ds r w w' r' -> O r z c1 m1 ->
  dfr c1 = map mdef ds -> world m1 = w ->
  forall c, exists m' z', left_ c z z' /\ O r' z' c m' /\ world m' = w'.
Proof.
  intros ds r w w' r' c1 m1 z Hu Ho Hd Hm c.
  destruct r as [|t|t|v|x].
  5:{ simpl in Ho. subst z. destruct Hu as [_ Hu]. destruct (Hu c1 m1 Hd Hm) as [Hx _].
      destruct (Hx x eq_refl) as [x' [c' [m' [-> [Hr Hw]]]]].
      exists m', (Exn x' c m'). split; [|split; [reflexivity|assumption]].
      destruct Hr as [k Hk]. exists k. intros n Hn. cbn [FlowProofs2.Leave]. rewrite (Hk n) by lia. reflexivity. }
  all: destruct Ho as [-> Ho];
    destruct (exit_T _ _ _ _ _ Hu c1 m1 Hd Hm Ho) as [c' [m' [z [[k Hk] [Hz Hw]]]]];
    exists m', (seq z c (Go c)); (split; [exists k; intros n Hn; cbn [FlowProofs2.Leave]; rewrite (Hk n) by lia; reflexivity|]);
    (split; [|assumption]); destruct r'; simpl in Hz; first [subst z | destruct Hz as [-> Hz]]; simpl; auto.
Qed.

Lemma block_T : forall e l w w' r, P_scope e l w w' r ->
  forall q c m, names c = e -> world m = w ->
  exists m' z, runs (JBlock (code q l) c) m z /\ O r z c m' /\ world m' = w'.
Proof.
  intros e l w w' r [e' [ds [w1 [r0 [Hs [Hu _]]]]]] q c m Hc Hm.
  destruct (Hs q (mk_ctx (names c) []) (set_stat m st_next) Hc Hm eq_refl) as [c1 [m1 [z [Hz [Ho [Hw [Hd _]]]]]]].
  cbn [dfr] in Hd. rewrite app_nil_r in Hd.
  destruct (leave_T _ _ _ _ _ _ _ _ Hu Ho Hd Hw c) as [m' [z' [Hl [Ho' Hw']]]].
  exists m', z'. split; [|split; assumption].
  eapply R_block; [apply R_rod; exact Hz|exact Hl].
Qed.

Lemma ctx_eq : forall (c c' : ctx), names c' = names c -> dfr c' = dfr c -> c' = c.
Proof. intros [e d] [e' d'] H1 H2; simpl in *; congruence. Qed.

Lemma code_ret : forall l, code ptc_void (l ++ [SReturn true None])
  = code ptc_void l ++ if back_terminator (code ptc_void l) then [] else [NReturn false true].
Proof.
  induction l as [|s l IH].
  - reflexivity.
  - change ((s :: l) ++ [SReturn true None]) with (s :: (l ++ [SReturn true None])).
    rewrite !code_cons, IH.
    replace (nextq ptc_void (l ++ [SReturn true None])) with (nextq ptc_void l)
      by (destruct l; reflexivity).
    destruct (back_terminator (frag (nextq ptc_void l) s)) eqn:Eb.
    + rewrite !app_nil_r. rewrite Eb. rewrite app_nil_r. reflexivity.
    + rewrite app_assoc. f_equal.
      destruct (code ptc_void l) as [|y r] eqn:Ec.
      * rewrite app_nil_r. rewrite Eb. reflexivity.
      * rewrite back_app by discriminate. reflexivity.
Qed.

Lemma frag_block : forall q l, frag q (SBlock l) = if flat (SBlock l) then code q l else [NBlock (code q l)].
Proof. reflexivity. Qed.

(* a statement whose code is one node that leaves the context as it is *)
Lemma node_T : forall x e w w' r, T_job (JNode x) e w w' r -> T_seq [x] e w e [] w' r.
Proof.
  intros x e w w' r H c m Hc Hm Hs. destruct (H c m Hc Hm Hs) as [m' [z [H1 [H2 H3]]]].
  exists c, m', z. split; [apply R_last; assumption|]. auto.
Qed.
(* a node after a condition *)
Lemma cond_node : forall x nd e w w1 w2 v r, P_cond e x w w1 (inl v) ->
  (forall c m, names c = e -> world m = w1 -> stat m = st_next ->
     (forall k, with_top o m c k = k v) ->
     exists m' z, runs (JNode nd c) m z /\ O r z c m' /\ world m' = w2) ->
  T_seq (NClear :: [NExpr ptc_none x; nd]) e w e [] w2 r.
Proof.
  intros x nd e w w1 w2 v r Hx Hn c m Hc Hm Hs.
  destruct (Hx c (set_stk m []) Hc Hm Hs) as [m1 [Hw [Hr [Hs1 [r1 [Hk Hd]]]]]].
  destruct (Hn c m1 Hc Hw Hs1) as [m' [z [H1 [H2 H3]]]].
  { intros k. unfold with_top. rewrite Hk. apply Hd. }
  exists c, m', z. split; [|auto].
  apply R_clear; [assumption|]. eapply R_expr; [exact Hs1|exact Hr|]. apply R_last. assumption.
Qed.
Lemma cond_throw : forall x nd e w w1 y, P_cond e x w w1 (inr y) ->
  (forall c m, (forall k, with_top o m c k = Exn y c m) -> runs (JNode nd c) m (Exn y c m)) ->
  T_seq (NClear :: [NExpr ptc_none x; nd]) e w e [] w1 (OThrow y).
Proof.
  intros x nd e w w1 y Hx Hn c m Hc Hm Hs.
  destruct (Hx c (set_stk m []) Hc Hm Hs) as [m1 [Hw Hr]].
  exists c, m1, (Exn y c m1). split; [|split; [reflexivity|auto]].
  apply R_clear; [assumption|]. destruct Hr as [Hr|[Hr [Hs1 [r1 [Hk Hd]]]]].
  - apply R_expr_exn. assumption.
  - eapply R_expr; [exact Hs1|exact Hr|]. apply R_last. apply Hn.
    intros k. unfold with_top. rewrite Hk. apply Hd.
Qed.

Lemma after_goes_on : forall k r m, goes_on k r -> matches r m -> forall c f,
  after_body k c m f = f (set_stat m st_next) \/ (stat m = st_next /\ after_body k c m f = f m).
Proof.
  intros k r m Hg Hm c f. unfold after_body. destruct Hg as [|t Ht]; simpl in Hm; rewrite Hm; cbn.
  - right. auto.
  - left. destruct Ht as [-> | ->]; [reflexivity|]. destruct k; reflexivity.
Qed.
Lemma meant_break : forall k t, (target_eqb t TNone || target_eqb t k) = true <-> meant k t.
Proof.
  intros k t. unfold meant. split.
  - destruct t, k; simpl; intros H; try discriminate; auto.
  - intros [-> | ->]; [reflexivity|]. destruct k; reflexivity.
Qed.
Lemma not_meant : forall k t, ~ meant k t -> (target_eqb t TNone || target_eqb t k) = false.
Proof. intros k t H. apply not_true_is_false. intros Ht. apply H. apply meant_break. assumption. Qed.
Lemma after_leaves : forall k r r' z c m, leaves k r r' -> O r z c m -> forall c1,
  exists m1, world m1 = world m /\ forall f,
    O r' (seq z c1 (fun m => after_body k c1 m f)) c1 m1.
Proof.
  intros k r r' z c m Hl Ho c1. destruct Hl as [t Ht|t Ht|t Ht|v|x]; simpl in Ho.
  - destruct Ho as [-> Ho]. exists (set_stat m st_next). split; [reflexivity|]. intros f.
    simpl. unfold after_body. rewrite Ho. simpl. apply meant_break in Ht. rewrite Ht. split; reflexivity.
  - destruct Ho as [-> Ho]. exists m. split; [reflexivity|]. intros f.
    simpl. unfold after_body. rewrite Ho. simpl. apply not_meant in Ht. rewrite Ht. split; [reflexivity|first [exact Ho|reflexivity]].
  - destruct Ho as [-> Ho]. exists m. split; [reflexivity|]. intros f.
    simpl. unfold after_body. rewrite Ho. simpl. apply not_meant in Ht. rewrite Ht. split; [reflexivity|first [exact Ho|reflexivity]].
  - destruct Ho as [-> Ho]. exists m. split; [reflexivity|]. intros f. simpl.
    split; [|assumption]. unfold after_body. destruct v as [|r].
    + destruct Ho as [-> |[-> _]]; reflexivity.
    + destruct Ho as [-> _]; reflexivity.
  - subst z. exists m. split; [reflexivity|]. intros f. reflexivity.
Qed.
Lemma goes_on_go : forall k r z c m, goes_on k r -> O r z c m -> z = Go c m /\ matches r m.
Proof. intros k r z c m Hg Ho. destruct Hg; exact Ho. Qed.

Lemma O_seq : forall r z c m, O r z c m -> O r (seq z c (Go c)) c m.
Proof. intros [] z c m H; simpl in *; first [subst z; reflexivity | destruct H as [-> H]; simpl; auto]. Qed.

Lemma in_interval_iff : forall lc uc lo up, in_interval lc uc lo up = true <-> within lc uc lo up.
Proof.
  intros lc uc lo up. unfold in_interval, within.
  destruct lc, uc, lo, up; simpl; split; intros H; try discriminate H; try reflexivity; intuition congruence.
Qed.

Definition res_of (r : out) (c : ctx) (m : mst) : res :=
  match r with OThrow x => Exn x c m | _ => Go c m end.
Lemma O_res : forall r z c m, O r z c m -> z = res_of r c m.
Proof. intros [] z c m H; simpl in *; first [assumption | destruct H; assumption]. Qed.
Lemma O_of : forall r c m, (forall x, r <> OThrow x) -> matches r m -> O r (res_of r c m) c m.
Proof. intros [] c m H1 H2; simpl; auto; exact (False_ind _ (H1 _ eq_refl)). Qed.

Lemma after_again : forall k r z c m, goes_on k r -> O r z c m ->
  z = Go c m /\ exists m2, world m2 = world m /\ stat m2 = st_next
    /\ forall c f, after_body k c m f = f m2.
Proof.
  intros k r z c m Hg Ho. destruct (goes_on_go _ _ _ _ _ Hg Ho) as [-> Hm]. split; [reflexivity|].
  destruct Hg as [|t Ht]; simpl in Hm.
  - exists m. split; [reflexivity|]. split; [assumption|]. intros c1 f. unfold after_body. rewrite Hm. reflexivity.
  - exists (set_stat m st_next). split; [reflexivity|]. split; [reflexivity|]. intros c1 f.
    unfold after_body. rewrite Hm. simpl. apply meant_break in Ht. rewrite Ht. reflexivity.
Qed.

Lemma again : forall q s x e ds w w' r, P_stmt e ds s w e ds w' r -> frag q s = [x] ->
  forall c m, names c = e -> world m = w -> stat m = st_next ->
  exists m' z, runs (JNode x c) m z /\ O r z c m' /\ world m' = w'.
Proof.
  intros q s x e ds w w' r [new [Hn Hq]] Hf c m Hc Hm Hs.
  assert (new = []) as ->.
  { apply (f_equal (@length _)) in Hn. rewrite app_length in Hn. destruct new; [reflexivity|simpl in Hn; lia]. }
  destruct (Hq q c m Hc Hm Hs) as [c' [m' [z [Hz [Ho [Hw [Hd He]]]]]]]. rewrite Hf in Hz.
  assert (c' = c) as -> by (apply ctx_eq; [congruence|exact Hd]).
  exists m', z. split; [apply R_last_inv; assumption|]. auto.
Qed.

Lemma unwind_nil_T : forall r w, P_unwind [] r w w r.
Proof.
  intros r w. split; [auto|]. intros c m Hd Hm. cbn [map] in Hd. split.
  - intros x ->. exists x, c, m. split; [reflexivity|]. split; [|assumption]. fuel. reflexivity.
  - intros saved s. right. split; [reflexivity|].
    exists c, (set_stat (match saved with Some r => push m r | None => m end) s).
    split; [fuel; reflexivity|]. destruct saved; cbn; split; try assumption; split; eauto.
Qed.
Lemma leave_nil : forall r z c1 m1, O r z c1 m1 -> dfr c1 = [] ->
  forall c, exists m' z', left_ c z z' /\ O r z' c m' /\ world m' = world m1.
Proof. intros r z c1 m1 Ho Hd c. exact (leave_T [] r _ _ r _ _ _ (unwind_nil_T r _) Ho Hd eq_refl c). Qed.
Lemma leave_exn : forall y c1 m1, dfr c1 = [] ->
  forall c, exists m' z', left_ c (Exn y c1 m1) z' /\ O (OThrow y) z' c m' /\ world m' = world m1.
Proof. intros y c1 m1 Hd. exact (leave_nil (OThrow y) _ c1 m1 eq_refl Hd). Qed.
Lemma O_seq2 : forall r z c c' m, O r z c m -> O r (seq z c' (Go c')) c' m.
Proof. intros [] z c c' m H; simpl in *; first [subst z; reflexivity | destruct H as [-> H]; simpl; auto]. Qed.
Lemma scope_T : forall e l w w' r, P_scope e l w w' r ->
  forall q c m, world m = w ->
  exists z1 m' z, runs (JRod (code q l) (mk_ctx e [])) m z1 /\ left_ c z1 z /\ O r z c m' /\ world m' = w'.
Proof.
  intros e l w w' r [e' [ds [w1 [r0 [Hs [Hu _]]]]]] q c m Hm.
  destruct (Hs q (mk_ctx e []) (set_stat m st_next) eq_refl Hm eq_refl) as [c1 [m1 [z [Hz [Ho [Hw [Hd _]]]]]]].
  cbn [dfr] in Hd. rewrite app_nil_r in Hd.
  destruct (leave_T _ _ _ _ _ _ _ _ Hu Ho Hd Hw c) as [m' [z' [Hl [Ho' Hw']]]].
  exists z, m', z'. split; [apply R_rod; assumption|]. auto.
Qed.

Lemma deref_read : forall w r v c m k, read w r = inl v -> world m = w -> deref o m c (ref_of r) k = k v.
Proof.
  intros w [|r] v c m k H Hm; simpl in *; [discriminate|]. rewrite Hm, H. reflexivity.
Qed.
Lemma deref_read_throw : forall w r y c m k, read w r = inr y -> world m = w ->
  deref o m c (ref_of r) k = Exn y c m.
Proof.
  intros w [|r] y c m k H Hm; simpl in *; [congruence|]. rewrite Hm, H. reflexivity.
Qed.
Lemma rod_two : forall e x y w w1 w2 rx rr, P_eval e x w w1 (inl rx) -> P_eval e y w1 w2 rr ->
  forall c m, names c = e -> world m = w ->
  exists m', world m' = w2 /\
    match rr with
    | inl ry => runs (JRod (gexp (Some x) ++ [NExpr ptc_none y]) c) m (Go c m') /\ stat m' = st_next
                /\ stk m' = [ref_of ry; ref_of rx]
    | inr z => runs (JRod (gexp (Some x) ++ [NExpr ptc_none y]) c) m (Exn z c m')
    end.
Proof.
  intros e x y w w1 w2 rx rr H1 H2 c m Hc Hm.
  destruct (H1 c (set_stk (set_stat m st_next) []) Hc Hm eq_refl) as [m1 [Hw1 [Hr1 [Hs1 Hk1]]]].
  destruct (H2 c m1 Hc Hw1 Hs1) as [m2 [Hw2 Hr2]]. exists m2. split; [assumption|].
  cbn [FlowModel.gen_expr rptc app]. destruct rr as [ry|z].
  - destruct Hr2 as [Hr2 [Hs2 Hk2]]. split; [|split; [assumption|rewrite Hk2, Hk1; reflexivity]].
    apply R_rod. apply R_clear; [reflexivity|]. eapply R_expr; [exact Hs1|exact Hr1|].
    eapply R_expr; [exact Hs2|exact Hr2|apply R_nil].
  - apply R_rod. apply R_clear; [reflexivity|]. eapply R_expr; [exact Hs1|exact Hr1|].
    apply R_expr_exn. exact Hr2.
Qed.
Lemma cmp_eqb_iff : forall a b, cmp_eqb a b = true <-> a = b.
Proof. intros [] []; split; intros H; try discriminate; reflexivity. Qed.
Lemma cmp_eqb_no : forall a b, a <> b -> cmp_eqb a b = false.
Proof. intros [] [] H; try reflexivity; exact (False_ind _ (H eq_refl)). Qed.
Lemma eqb_yes : forall a b, a = b -> Bool.eqb a b = true.
Proof. intros a b ->. apply Bool.eqb_reflx. Qed.
Lemma eqb_no : forall a b, a <> b -> Bool.eqb a b = false.
Proof. intros [] [] H; try reflexivity; exact (False_ind _ (H eq_refl)). Qed.
Lemma gcl_snd : forall lb sk b, exists ct lab, gcl (lb, sk, b) = (ct, lab, sk, code ptc_none b).
Proof. intros [] sk b; simpl; eauto. Qed.

(* what a function makes of the result of its body *)
Definition ret_of (c : ctx) (d : nat) (z : res) : res :=
  match z with
  | Exn x _ m' => Exn x c (mk_mst (world m') st_next [] d (peak m'))
  | Go _ m' =>
      let ret r := Go c (mk_mst (world m') st_next [r] d (peak m')) in
      match stat m' with
      | st_next | st_return_void => ret RVoid
      | st_return => match stk m' with r :: _ => ret r | [] => Bad end
      | st_break _ | st_continue _ =>
          Exn (stray o) c (mk_mst (world m') st_next [] d (peak m'))
      end
  | r => r
  end.

(* One node after another that is finished at once. *)
Lemma R_node : forall x l c m c1 m1 z, stat m1 = st_next ->
  runs (JNode x c) m (Go c1 m1) -> runs (JSeq l c1) m1 z -> runs (JSeq (x :: l) c) m z.
Proof.
  intros x l c m c1 m1 z Hm [k H] [k' H']. exists (S (k + k')). intros n Hn.
  destruct n as [|n]; [lia|]. rewrite run_cons. rewrite (H n) by lia. rewrite Hm. cbn [is_next].
  apply H'. lia.
Qed.

Ltac code_of_stmt :=
  unfold FlowProofs1.frag; cbn [FlowModel.gen back_terminator app FlowModel.gen_expr rptc];
  fold code.

(* where a loop or another statement is a node that runs a job *)
Lemma R_do : forall b neg cd co c m z, runs (JDoWhile b neg cd co c) m z -> runs (JNode (NDoWhile b neg cd co) c) m z.
Proof. intros. fuel. reflexivity. Qed.
Lemma R_do_inv : forall b neg cd co c m z, runs (JNode (NDoWhile b neg cd co) c) m z -> runs (JDoWhile b neg cd co c) m z.
Proof. intros * [k H]. exists k. intros n Hn. rewrite <- (H (S n)) by lia. reflexivity. Qed.
Lemma R_while : forall b neg cd co c m z, runs (JWhile neg cd b co c) m z -> runs (JNode (NWhile neg cd b co) c) m z.
Proof. intros. fuel. reflexivity. Qed.
Lemma R_while_inv : forall b neg cd co c m z, runs (JNode (NWhile neg cd b co) c) m z -> runs (JWhile neg cd b co c) m z.
Proof. intros * [k H]. exists k. intros n Hn. rewrite <- (H (S n)) by lia. reflexivity. Qed.
Ltac do2 := first [apply R_do | apply R_while]; fuel.

Theorem complete : forall f a w w' rr, call f a w w' rr -> P_call f a w w' rr.
Proof.
  apply (call_m W E R V X A F It o body P_eval P_call P_scope P_unwind P_stmts P_stmt P_cond
           P_find P_fall P_each P_loop P_holds P_steps).
  - (* ev_step *)
    intros e a w w' r H c m Hc Hm Hs. exists (push (set_world m w') (RVal r)).
    split; [reflexivity|]. split; [|split; [assumption|reflexivity]].
    fuel. rewrite H. reflexivity.
  - intros e a w w' x H c m Hc Hm Hs. exists (set_world m w').
    split; [reflexivity|]. fuel. rewrite H. reflexivity.
  - (* ev_call *)
    intros e p w w1 w2 f a r H Hcall IH c m Hc Hm Hs.
    destruct (IH c (set_world m w1) eq_refl) as [m' [Hw Hr]]. destruct r as [r|x].
    + destruct Hr as [Hr Hk]. exists (mk_mst (world m') (stat m) (ref_of r :: stk m) (depth m) (peak m')).
      split; [assumption|]. split; [|split; [assumption|reflexivity]].
      fuel. rewrite H. repeat (more; use n). more. reflexivity.
    + exists (mk_mst (world m') (stat m) (stk m) (depth m) (peak m')). split; [assumption|].
      fuel. rewrite H. repeat (more; use n). more. reflexivity.
  - intros e p w w1 x H c m Hc Hm Hs. exists (set_world m w1). split; [reflexivity|].
    fuel. rewrite H. reflexivity.
  - (* ev_then *)
    intros e e1 k w w1 w2 r1 r H1 IH1 H2 IH2 c m Hc Hm Hs.
    destruct (IH1 c m Hc Hm Hs) as [m1 [Hw1 [Hr1 [Hs1 Hk1]]]].
    destruct (IH2 c (set_stk m1 (stk m)) Hc Hw1 Hs1) as [m2 [Hw2 Hr2]].
    exists m2. split; [assumption|].
    assert (Hg : forall z, runs (JExpr ptc_none (k r1) c) (set_stk m1 (stk m)) z ->
              runs (JExpr ptc_none (EThen e1 k) c) m z).
    { intros z Hz. fuel. destruct r1; cbn [FlowProofs2.ref_of]; apply Hz; lia. }
    destruct r as [r|y].
    + destruct Hr2 as [Hr2 [Hs2 Hk2]]. split; [|split; assumption]. apply Hg. assumption.
    + apply Hg. assumption.
  - intros e e1 k w w1 x H1 IH1 c m Hc Hm Hs.
    destruct (IH1 c m Hc Hm Hs) as [m1 [Hw1 Hr1]]. exists m1. split; [assumption|]. fuel. reflexivity.
  - (* ev_catch_none *)
    intros e e1 k w w1 w2 r1 r H1 IH1 H2 IH2 c m Hc Hm Hs.
    destruct (IH1 c (set_stk m []) Hc Hm Hs) as [m1 [Hw1 [Hr1 [Hs1 Hk1]]]].
    destruct (IH2 c (set_stat (set_stk m1 (stk m)) st_next) Hc Hw1 eq_refl) as [m2 [Hw2 Hr2]].
    exists m2. split; [assumption|].
    assert (Hg : forall z, runs (JExpr ptc_none (k None) c) (set_stat (set_stk m1 (stk m)) st_next) z ->
              runs (JExpr ptc_none (ECatch e1 k) c) m z).
    { intros z Hz. destruct Hz as [k1 Hz]. destruct Hr1 as [k2 Hr1]. exists (S (k1 + k2)).
      intros n Hn. destruct n as [|n]; [lia|]. cbn [FlowModel.run]. rewrite (Hr1 n) by lia.
      apply Hz. lia. }
    destruct r as [r|y].
    + destruct Hr2 as [Hr2 [Hs2 Hk2]]. split; [|split; assumption]. apply Hg. assumption.
    + apply Hg. assumption.
  - (* ev_catch_some *)
    intros e e1 k w w1 w2 x r H1 IH1 H2 IH2 c m Hc Hm Hs.
    destruct (IH1 c (set_stk m []) Hc Hm Hs) as [m1 [Hw1 Hr1]].
    destruct (IH2 c (set_stat (set_stk m1 (stk m)) st_next) Hc Hw1 eq_refl) as [m2 [Hw2 Hr2]].
    exists m2. split; [assumption|].
    assert (Hg : forall z, runs (JExpr ptc_none (k (Some x)) c) (set_stat (set_stk m1 (stk m)) st_next) z ->
              runs (JExpr ptc_none (ECatch e1 k) c) m z).
    { intros z Hz. destruct Hz as [k1 Hz]. destruct Hr1 as [k2 Hr1]. exists (S (k1 + k2)).
      intros n Hn. destruct n as [|n]; [lia|]. cbn [FlowModel.run]. rewrite (Hr1 n) by lia.
      apply Hz. lia. }
    destruct r as [r|y].
    + destruct Hr2 as [Hr2 [Hs2 Hk2]]. split; [|split; assumption]. apply Hg. assumption.
    + apply Hg. assumption.
  - (* call_throw *)
    intros f a w w1 x H c m Hm.
    exists (mk_mst w1 st_next [] (depth m) (Nat.max (peak m) (S (depth m)))). split; [reflexivity|].
    assert (Hp : runs (JPtcInvoke f a c) m (Exn x c (mk_mst w1 st_next [] (depth m) (Nat.max (peak m) (S (depth m)))))).
    { fuel. rewrite H. reflexivity. }
    fuel. reflexivity.
  - (* call_body *)
    intros f a w w1 w2 e r H Hsc IH c m Hm.
    destruct IH as [e' [ds [wa [ra [Hq [Hu _]]]]]].
    set (m0 := @mk_mst W E R X A F It w1 st_next [] (S (depth m)) (Nat.max (peak m) (S (depth m)))).
    destruct (Hq ptc_void (mk_ctx e []) m0 eq_refl eq_refl eq_refl) as [c1 [m1 [z [Hz [Ho [Hw [Hd _]]]]]]].
    cbn [dfr] in Hd. rewrite app_nil_r in Hd.
    (* the code with the final `return;` *)
    assert (Hbody : exists m2 z2 ra2 r2, runs (JRod (code_of false body f) (mk_ctx e [])) m0 z2
              /\ O ra2 z2 c1 m2 /\ world m2 = wa /\ P_unwind ds ra2 wa w2 r2 /\ finish r2 = finish r
              /\ r2 <> ONext).
    { unfold code_of. change (gen_list gen ptc_void [] (body f ++ [SReturn true None])) with (code ptc_void (body f ++ [SReturn true None])).
      rewrite code_ret.
      assert (Hra : ra = ONext \/ ra <> ONext) by (destruct ra; [left; reflexivity|right; discriminate..]).
      destruct Hra as [-> |Hra].
      - destruct (O_next _ _ _ Ho) as [-> Hn].
        assert (Hb : back_terminator (code ptc_void (body f)) = false).
        { apply not_true_is_false. intros Hb. destruct (runs_some _ _ _ Hz) as [n Hz'].
          exact (terminator_seq _ _ _ _ _ _ _ _ _ Hb Hz' Hn). }
        rewrite Hb.
        exists (set_stat m1 st_return_void), (Go c1 (set_stat m1 st_return_void)), (OReturn Void),
               (match r with ONext => OReturn Void | r => r end).
        split; [|split; [split; [reflexivity|left; reflexivity]|split; [assumption|split; [|split; [destruct r; reflexivity|destruct r; discriminate]]]]].
        + apply R_rod. change (set_stat m0 st_next) with m0.
          eapply R_app; [reflexivity|exact Hn|exact Hz|]. apply R_last. fuel. reflexivity.
        + destruct Hu as [Hu1 Hu2]. split.
          * intros Hds. destruct (Hu1 Hds) as [-> ->]. split; reflexivity.
          * intros c2 m2 Hc2 Hm2. destruct (Hu2 c2 m2 Hc2 Hm2) as [_ Hl]. split; [intros x Hx; discriminate|].
            intros saved s. destruct (Hl saved s) as [[x' [c' [m' [-> Hx]]]]|[-> Hx]].
            -- left. exists x', c', m'. auto.
            -- right. auto.
      - exists m1, z, ra, r. split; [|split; [assumption|split; [assumption|split; [assumption|split; [reflexivity|]]]]].
        + apply R_rod. change (set_stat m0 st_next) with m0.
          apply R_app_stop; [reflexivity|eapply O_stops; eassumption|assumption].
        + intros ->. destruct ds as [|d0 ds].
          * destruct Hu as [Hu _]. destruct (Hu eq_refl) as [Hu1 _]. congruence.
          * destruct Hu as [_ Hu]. destruct (Hu c1 m1 Hd Hw) as [_ Hl].
            destruct (Hl None st_next) as [[x' [c' [m' [Hx _]]]]|[Hx _]]; congruence. }
    destruct Hbody as [m2 [z2 [ra2 [r2 [Hz2 [Ho2 [Hw2 [Hu2 [Hfin Hnn]]]]]]]]].
    destruct (leave_T _ _ _ _ _ _ _ _ Hu2 Ho2 Hd Hw2 c) as [m3 [z3 [Hl [Ho3 Hw3]]]].
    assert (Hptc : exists m', world m' = w2 /\ match finish r with
              | inl rr => runs (JPtcInvoke f a c) m (Go c m') /\ stk m' = [ref_of rr]
              | inr y => runs (JPtcInvoke f a c) m (Exn y c m')
              end).
    { rewrite <- Hfin. destruct Hz2 as [k2 Hz2]. destruct Hl as [k3 Hl].
      assert (Hrun : forall n, (k2 + k3 <= n)%nat ->
                run (S n) (JPtcInvoke f a c) m = ret_of c (depth m) z3).
      { intros n Hn.
        assert (Hlz : Leave n c (run n (JRod (code_of false body f) (mk_ctx e [])) m0) = z3).
        { rewrite (Hz2 n) by lia. apply Hl. lia. }
        rewrite <- Hlz. cbn [FlowModel.run]. rewrite Hm, H. fold m0.
        destruct (run n (JRod (code_of false body f) (mk_ctx e [])) m0) as [ca ma|x ca ma| |];
          cbn [FlowProofs2.Leave]; try reflexivity.
        - destruct (seq (run n (JExit ca) ma) c (Go c)); reflexivity.
        - destruct (seq (run n (JExitExn x ca) ma) c (Go c)); reflexivity. }
      destruct r2 as [|t|t|[|v]|x]; [congruence| | | | |]; simpl in Ho3; cbn [FlowSpec.finish].
      - destruct Ho3 as [-> Ho3]. exists (mk_mst (world m3) st_next [] (depth m) (peak m3)).
        split; [assumption|]. exists (S (k2 + k3)). intros n Hn. destruct n as [|n]; [lia|].
        rewrite Hrun by lia. cbn [ret_of]. rewrite Ho3. reflexivity.
      - destruct Ho3 as [-> Ho3]. exists (mk_mst (world m3) st_next [] (depth m) (peak m3)).
        split; [assumption|]. exists (S (k2 + k3)). intros n Hn. destruct n as [|n]; [lia|].
        rewrite Hrun by lia. cbn [ret_of]. rewrite Ho3. reflexivity.
      - destruct Ho3 as [-> Ho3]. exists (mk_mst (world m3) st_next [RVoid] (depth m) (peak m3)).
        split; [assumption|]. split; [|reflexivity]. exists (S (k2 + k3)). intros n Hn. destruct n as [|n]; [lia|].
        rewrite Hrun by lia. cbn [ret_of]. destruct Ho3 as [Ho3|[Ho3 [s Hk]]]; rewrite Ho3; [reflexivity|].
        rewrite Hk. reflexivity.
      - destruct Ho3 as [-> [Ho3 [s Hk]]]. exists (mk_mst (world m3) st_next [RVal v] (depth m) (peak m3)).
        split; [assumption|]. split; [|reflexivity]. exists (S (k2 + k3)). intros n Hn. destruct n as [|n]; [lia|].
        rewrite Hrun by lia. cbn [ret_of]. rewrite Ho3, Hk. reflexivity.
      - subst z3. exists (mk_mst (world m3) st_next [] (depth m) (peak m3)).
        split; [assumption|]. exists (S (k2 + k3)). intros n Hn. destruct n as [|n]; [lia|].
        rewrite Hrun by lia. reflexivity. }
    clear - Hptc. destruct Hptc as [m' [Hw Hp]]. exists m'. split; [assumption|].
    destruct (finish r) as [rr|y].
    + destruct Hp as [Hp Hk]. split; [|assumption]. fuel. destruct rr; reflexivity.
    + fuel. reflexivity.
  - (* sc *)
    intros e l w w1 w2 e' ds r r' H1 IH1 H2 IH2. destruct IH1 as [new [Hn Hq]].
    rewrite app_nil_r in Hn. subst new.
    exists e', ds, w1, r. split; [assumption|]. split; [assumption|]. intros Hsl.
    destruct (scopeless_stmts _ _ _ _ _ _ _ _ _ _ Hsl H1) as [-> [-> _]].
    inversion H2; subst. auto.
  - (* un_nil *)
    intros r w. split; [auto|]. intros c m Hd Hm. split.
    + intros x ->. exists x, c, m. split; [reflexivity|]. split; [|assumption]. cbn [map] in Hd. fuel. reflexivity.
    + intros saved s. right. split; [reflexivity|].
      exists c, (set_stat (match saved with Some r => push m r | None => m end) s).
      cbn [map] in Hd. split; [fuel; reflexivity|]. destruct saved; cbn; split; try assumption; split; eauto.
  - (* un_ok *)
    intros e x ds r w w1 w2 r1 r' H1 IH1 H2 IH2. split; [discriminate|]. intros c m Hd Hm.
    destruct (rod_eval _ _ _ _ _ IH1 (mk_ctx e []) m eq_refl Hm) as [m1 [Hw1 [Hr1 [Hs1 _]]]].
    destruct IH2 as [_ IH2]. destruct (IH2 (mk_ctx (names c) (map mdef ds)) m1 eq_refl Hw1) as [Ha Hb].
    cbn [map] in Hd. unfold FlowProofs2.mdef in Hd at 1. cbn [fst snd] in Hd. split.
    + intros y Hy. destruct (Ha y Hy) as [x' [c' [m' [Hx [Hr Hw]]]]].
      exists x', c', m'. split; [assumption|]. split; [|assumption]. fuel. reflexivity.
    + intros saved s. destruct (Hb saved s) as [[x' [c' [m' [Hx [Hr Hw]]]]]|[Hx [c' [m' [Hr Hw]]]]]; [left|right].
      * exists x', c', m'. split; [assumption|]. split; [|assumption]. fuel. reflexivity.
      * split; [assumption|]. exists c', m'. split; [|assumption]. fuel. reflexivity.
  - (* un_throw *)
    intros e x ds r w w1 w2 y r' H1 IH1 H2 IH2. split; [discriminate|]. intros c m Hd Hm.
    destruct (rod_eval _ _ _ _ _ IH1 (mk_ctx e []) m eq_refl Hm) as [m1 [Hw1 Hr1]].
    destruct IH2 as [_ IH2]. destruct (IH2 (mk_ctx (names c) (map mdef ds)) m1 eq_refl Hw1) as [Ha _].
    cbn [map] in Hd. unfold FlowProofs2.mdef in Hd at 1. cbn [fst snd] in Hd.
    destruct (Ha y eq_refl) as [x' [c' [m' [Hx [Hr Hw]]]]]. split.
    + intros y' Hy. exists x', c', m'. split; [assumption|]. split; [|assumption]. fuel. reflexivity.
    + intros saved s. left. exists x', c', m'. split; [assumption|]. split; [|assumption]. fuel. reflexivity.
  - (* ss_nil *)
    intros e ds w. exists []. split; [reflexivity|]. intros q c m Hc Hm Hs.
    exists c, m, (Go c m). split; [apply R_nil|]. split; [split; [reflexivity|exact Hs]|]. auto.
  - (* ss_next *)
    intros e ds s l w e1 ds1 w1 e2 ds2 w2 r H1 IH1 H2 IH2.
    destruct IH1 as [n1 [Hn1 Hq1]]. destruct IH2 as [n2 [Hn2 Hq2]]. exists (n2 ++ n1).
    split; [rewrite <- app_assoc, <- Hn1; assumption|]. intros q c m Hc Hm Hs.
    destruct (Hq1 (nextq q l) c m Hc Hm Hs) as [c1 [m1 [z1 [Hz1 [Ho1 [Hw1 [Hd1 He1]]]]]]].
    destruct (O_next _ _ _ Ho1) as [-> Hs1].
    destruct (Hq2 q c1 m1 He1 Hw1 Hs1) as [c2 [m2 [z2 [Hz2 [Ho2 [Hw2 [Hd2 He2]]]]]]].
    exists c2, m2, z2. split; [|split; [assumption|split; [assumption|split; [|assumption]]]].
    + rewrite code_cons.
      replace (back_terminator (frag (nextq q l) s)) with false.
      * eapply R_app; [exact Hs|exact Hs1|exact Hz1|exact Hz2].
      * symmetry. apply not_true_is_false. intros Hb. destruct (runs_some _ _ _ Hz1) as [n Hz'].
        exact (terminator_seq _ _ _ _ _ _ _ _ _ Hb Hz' Hs1).
    + rewrite Hd2, Hd1, map_app, app_assoc. reflexivity.
  - (* ss_stop *)
    intros e ds s l w e1 ds1 w1 r H1 IH1 Hr. destruct IH1 as [n1 [Hn1 Hq1]]. exists n1.
    split; [assumption|]. intros q c m Hc Hm Hs.
    destruct (Hq1 (nextq q l) c m Hc Hm Hs) as [c1 [m1 [z1 [Hz1 [Ho1 [Hw1 [Hd1 He1]]]]]]].
    exists c1, m1, z1. split; [|auto]. rewrite code_cons.
    apply R_app_stop; [exact Hs|eapply O_stops; eassumption|exact Hz1].
  - (* st_expr *)
    intros e ds x w w1 r H1 IH1. exists []. split; [reflexivity|]. intros q c m Hc Hm Hs. code_of_stmt.
    destruct (IH1 c (set_stk m []) Hc Hm Hs) as [m1 [Hw1 [Hr1 [Hs1 Hk1]]]].
    exists c, m1, (Go c m1). split; [|split; [split; [reflexivity|exact Hs1]|auto]].
    apply R_clear; [assumption|]. eapply R_expr; [exact Hs1|exact Hr1|apply R_nil].
  - intros e ds x w w1 y H1 IH1. exists []. split; [reflexivity|]. intros q c m Hc Hm Hs. code_of_stmt.
    destruct (IH1 c (set_stk m []) Hc Hm Hs) as [m1 [Hw1 Hr1]].
    exists c, m1, (Exn y c m1). split; [|split; [reflexivity|auto]].
    apply R_clear; [assumption|]. apply R_expr_exn. exact Hr1.
  - (* st_block *)
    intros e ds l w w1 r H1 IH1. exists []. split; [reflexivity|]. intros q. rewrite frag_block.
    destruct (flat (SBlock l)) eqn:Ef.
    + destruct (flat_scopeless _ Ef) as [l' [El Hsl]]. injection El as <-.
      destruct IH1 as [e' [dd [wa [ra [Hq [_ Hsc]]]]]]. destruct (Hsc Hsl) as [-> [-> [-> ->]]]. apply Hq.
    + apply node_T. intros c m Hc Hm Hs.
      destruct (block_T _ _ _ _ _ IH1 q c m Hc Hm) as [m' [z [Hr Ho]]].
      exists m', z. split; [|assumption]. fuel. reflexivity.
  - (* st_decl *)
    intros e ds d w w1 e1 H1. exists []. split; [reflexivity|]. intros q c m Hc Hm Hs. code_of_stmt.
    exists (mk_ctx e1 (dfr c)), (set_world m w1), (Go (mk_ctx e1 (dfr c)) (set_world m w1)).
    split; [|split; [split; [reflexivity|exact Hs]|auto]]. apply R_last. fuel. rewrite H1. reflexivity.
  - (* st_decl_init *)
    intros e ds d x i w w1 w2 w3 e1 e2 r H1 H2 IH2 H3. exists []. split; [reflexivity|].
    intros q c m Hc Hm Hs. code_of_stmt.
    destruct (IH2 (mk_ctx e1 (dfr c)) (set_world (set_stk m []) w1) eq_refl eq_refl Hs) as [m2 [Hw2 [Hr2 [Hs2 Hk2]]]].
    exists (mk_ctx e2 (dfr c)), (set_stk (set_world m2 w3) []), (Go (mk_ctx e2 (dfr c)) (set_stk (set_world m2 w3) [])).
    split; [|split; [split; [reflexivity|exact Hs2]|auto]].
    apply R_clear; [assumption|].
    apply R_node with (c1 := mk_ctx e1 (dfr c)) (m1 := set_world (set_stk m []) w1); [exact Hs| |].
    { fuel. rewrite H1. reflexivity. }
    eapply R_expr; [exact Hs2|exact Hr2|]. apply R_last. cbn [stk set_world set_stk] in Hk2.
    fuel. destruct r; cbn [FlowProofs2.ref_of]; rewrite H3; reflexivity.
  - (* st_decl_init_throw *)
    intros e ds d x i w w1 w2 w3 e1 r y H1 H2 IH2 H3. exists []. split; [reflexivity|].
    intros q c m Hc Hm Hs. code_of_stmt.
    destruct (IH2 (mk_ctx e1 (dfr c)) (set_world (set_stk m []) w1) eq_refl eq_refl Hs) as [m2 [Hw2 [Hr2 [Hs2 Hk2]]]].
    exists (mk_ctx e1 (dfr c)), (set_world m2 w3), (Exn y (mk_ctx e1 (dfr c)) (set_world m2 w3)).
    split; [|split; [reflexivity|auto]].
    apply R_clear; [assumption|].
    apply R_node with (c1 := mk_ctx e1 (dfr c)) (m1 := set_world (set_stk m []) w1); [exact Hs| |].
    { fuel. rewrite H1. reflexivity. }
    eapply R_expr; [exact Hs2|exact Hr2|]. apply R_last. cbn [stk set_world set_stk] in Hk2.
    fuel. destruct r; cbn [FlowProofs2.ref_of]; rewrite H3; reflexivity.
  - (* st_decl_throw *)
    intros e ds d x i w w1 w2 e1 y H1 H2 IH2. exists []. split; [reflexivity|].
    intros q c m Hc Hm Hs. code_of_stmt.
    destruct (IH2 (mk_ctx e1 (dfr c)) (set_world (set_stk m []) w1) eq_refl eq_refl Hs) as [m2 [Hw2 Hr2]].
    exists (mk_ctx e1 (dfr c)), m2, (Exn y (mk_ctx e1 (dfr c)) m2).
    split; [|split; [reflexivity|auto]].
    apply R_clear; [assumption|].
    apply R_node with (c1 := mk_ctx e1 (dfr c)) (m1 := set_world (set_stk m []) w1); [exact Hs| |].
    { fuel. rewrite H1. reflexivity. }
    apply R_expr_exn. exact Hr2.
  - (* st_if *)
    intros e ds neg x t f w w1 w2 v r H1 IH1 H2 IH2. exists []. split; [reflexivity|].
    intros q. code_of_stmt. eapply cond_node; [exact IH1|]. intros c m Hc Hm Hs Ht.
    destruct (block_T _ _ _ _ _ IH2 q c m Hc Hm) as [m' [z [Hr Ho]]].
    exists m', z. split; [|assumption].
    fuel. destruct (xorb (test o v) neg); apply Hr; lia.
  - intros e ds neg x t f w w1 y H1 IH1. exists []. split; [reflexivity|].
    intros q. code_of_stmt. eapply cond_throw; [exact IH1|]. intros c m Ht. fuel. reflexivity.
  - (* st_switch *)
    intros e ds x cl w w1 w2 w3 w4 v k e' ds' r r' r'' H1 IH1 H2 IH2 H3 IH3 Hl H4 IH4.
    exists []. split; [reflexivity|]. intros q. code_of_stmt. eapply cond_node; [exact IH1|].
    intros c m Hc Hm Hs Ht.
    change (map _ cl) with (map gcl cl).
    destruct (IH2 (map gcl cl) c m Hc Hm Hs) as [m1 [Hw1 [Hs1 Hf]]].
    destruct IH3 as [new [Hn Hcl]]. rewrite app_nil_r in Hn. subst new.
    assert (Hskip : forall cl k c m z,
              runs (JClauses 0 (map gcl (skipn k cl)) (mk_ctx (skipped k cl (names c)) (dfr c))) m z ->
              runs (JClauses k (map gcl cl) c) m z).
    { clear. induction cl as [|[[lb sk] b] cl IH]; intros k c m z Hz.
      - destruct k; simpl in Hz; [destruct c; assumption|].
        destruct Hz as [k' Hz]. exists (S k'). intros n Hn. rewrite <- (Hz n) by lia.
        destruct n as [|n]; [lia|]. destruct c; reflexivity.
      - destruct k as [|k]; [destruct c; exact Hz|].
        destruct (IH k (mk_ctx (sk (names c)) (dfr c)) m z Hz) as [k' Hk'].
        exists (S k'). intros n Hn. destruct n as [|n]; [lia|]. cbn [map].
        destruct lb; cbn [gcl FlowModel.run]; apply Hk'; lia. }
    destruct (Hcl (skipn k cl) r' (mk_ctx (skipped k cl (names c)) []) m1 eq_refl Hl) as [c2 [m2 [z2 [Hz2 [Ho2 [Hw2 Hd2]]]]]];
      [cbn; rewrite Hc; reflexivity|assumption|assumption|].
    cbn [dfr] in Hd2. rewrite app_nil_r in Hd2.
    destruct (leave_T _ _ _ _ _ _ _ _ IH4 Ho2 Hd2 Hw2 c) as [m3 [z3 [Hlv [Ho3 Hw3]]]].
    exists m3, z3. split; [|split; assumption].
    assert (Hgo : forall i, runs (JFind v i (Some k) [] (map gcl cl) c) m1 z3).
    { intros i. pose proof (Hskip cl k (mk_ctx (names c) []) m1 z2 Hz2) as [k1 Hk1].
      destruct Hlv as [k2 Hk2]. exists (S (k1 + k2)). intros n Hn. destruct n as [|n]; [lia|].
      cbn [FlowModel.run]. rewrite (Hk1 n) by lia. apply (Hk2 n). lia. }
    destruct (Hf z3 Hgo) as [k3 Hk3]. exists (S k3). intros n Hn. destruct n as [|n]; [lia|].
    cbn [FlowModel.run]. rewrite Ht. apply Hk3. lia.
  - (* st_switch_none *)
    intros e ds x cl w w1 w2 v H1 IH1 H2 IH2.
    exists []. split; [reflexivity|]. intros q. code_of_stmt. eapply cond_node; [exact IH1|].
    intros c m Hc Hm Hs Ht. change (map _ cl) with (map gcl cl).
    destruct (IH2 (map gcl cl) c m Hc Hm Hs) as [m1 [Hw1 [Hs1 [k1 Hf]]]].
    exists m1, (Go c m1). split; [|split; [split; [reflexivity|exact Hs1]|assumption]].
    exists (S k1). intros n Hn. destruct n as [|n]; [lia|].
    cbn [FlowModel.run]. rewrite Ht. apply Hf. lia.
  - (* st_switch_label *)
    intros e ds x cl w w1 w2 v y H1 IH1 H2 IH2.
    exists []. split; [reflexivity|]. intros q. code_of_stmt. eapply cond_node; [exact IH1|].
    intros c m Hc Hm Hs Ht. change (map _ cl) with (map gcl cl).
    destruct (IH2 (map gcl cl) c m Hc Hm Hs) as [m1 [Hw1 [k1 Hf]]].
    exists m1, (Exn y c m1). split; [|split; [reflexivity|assumption]].
    exists (S k1). intros n Hn. destruct n as [|n]; [lia|].
    cbn [FlowModel.run]. rewrite Ht. apply Hf. lia.
  - intros e ds x cl w w1 y H1 IH1. exists []. split; [reflexivity|].
    intros q. code_of_stmt. eapply cond_throw; [exact IH1|]. intros c m Ht. fuel. reflexivity.
  - (* st_do_leave *)
    intros e ds b neg x cc w w1 r r' H1 IH1 Hl. exists []. split; [reflexivity|]. intros q. code_of_stmt.
    apply node_T. intros c m Hc Hm Hs.
    destruct (block_T _ _ _ _ _ IH1 ptc_none c m Hc Hm) as [m1 [z1 [Hr1 [Ho1 Hw1]]]].
    destruct (after_leaves _ _ _ _ _ _ Hl Ho1 c) as [m2 [Hw2 Ho2]].
    exists m2, (res_of r' c m2). split; [|split; [rewrite <- (O_res _ _ _ _ (Ho2 (Go c))); apply Ho2|congruence]].
    do2. apply (O_res _ _ _ _ (Ho2 _)).
  - (* st_do_throw *)
    intros e ds b neg x cc w w1 w2 r y H1 IH1 Hg H2 IH2. exists []. split; [reflexivity|]. intros q. code_of_stmt.
    apply node_T. intros c m Hc Hm Hs.
    destruct (block_T _ _ _ _ _ IH1 ptc_none c m Hc Hm) as [m1 [z1 [Hr1 [Ho1 Hw1]]]].
    destruct (after_again _ _ _ _ _ Hg Ho1) as [-> [m2 [Hw2 [Hs2 Ha]]]]. rewrite <- Hw1, <- Hw2 in IH2.
    destruct (rod_cond _ _ _ _ _ IH2 c m2 Hc eq_refl) as [m3 [Hw3 Hr3]].
    exists m3, (Exn y c m3). split; [|split; [reflexivity|assumption]].
    destruct Hr3 as [Hr3|[Hr3 [Hs3 [r3 [Hk3 Hd3]]]]]; do2; reflexivity.
  - (* st_do_end *)
    intros e ds b neg x cc w w1 w2 w3 v r r' H1 IH1 Hg H2 IH2 Ht H3 IH3. exists []. split; [reflexivity|]. intros q. code_of_stmt.
    apply node_T. intros c m Hc Hm Hs.
    destruct (block_T _ _ _ _ _ IH1 ptc_none c m Hc Hm) as [m1 [z1 [Hr1 [Ho1 Hw1]]]].
    destruct (after_again _ _ _ _ _ Hg Ho1) as [-> [m2 [Hw2 [Hs2 Ha]]]]. rewrite <- Hw1, <- Hw2 in IH2.
    destruct (rod_cond _ _ _ _ _ IH2 c m2 Hc eq_refl) as [m3 [Hw3 [Hr3 [Hs3 [r3 [Hk3 Hd3]]]]]].
    destruct (block_T _ _ _ _ _ IH3 q c m3 Hc Hw3) as [m4 [z4 [Hr4 [Ho4 Hw4]]]].
    apply eqb_yes in Ht.
    exists m4, (seq z4 c (Go c)). split; [|split; [apply O_seq; assumption|assumption]].
    do2; reflexivity.
  - (* st_do_again *)
    intros e ds b neg x cc w w1 w2 w3 v r r' H1 IH1 Hg H2 IH2 Ht H3 IH3. exists []. split; [reflexivity|]. intros q. code_of_stmt.
    apply node_T. intros c m Hc Hm Hs.
    destruct (block_T _ _ _ _ _ IH1 ptc_none c m Hc Hm) as [m1 [z1 [Hr1 [Ho1 Hw1]]]].
    destruct (after_again _ _ _ _ _ Hg Ho1) as [-> [m2 [Hw2 [Hs2 Ha]]]]. rewrite <- Hw1, <- Hw2 in IH2.
    destruct (rod_cond _ _ _ _ _ IH2 c m2 Hc eq_refl) as [m3 [Hw3 [Hr3 [Hs3 [r3 [Hk3 Hd3]]]]]].
    destruct (again q _ _ _ _ _ _ _ IH3 eq_refl c m3 Hc Hw3 Hs3) as [m4 [z4 [Hr4 [Ho4 Hw4]]]].
    apply R_do_inv in Hr4. apply eqb_no in Ht.
    exists m4, z4. split; [|split; assumption].
    do2; reflexivity.
  - (* st_while_throw *)
    intros e ds neg x b cc w w1 y H1 IH1. exists []. split; [reflexivity|]. intros q. code_of_stmt.
    apply node_T. intros c m Hc Hm Hs.
    destruct (rod_cond _ _ _ _ _ IH1 c m Hc Hm) as [m3 [Hw3 Hr3]].
    exists m3, (Exn y c m3). split; [|split; [reflexivity|assumption]].
    destruct Hr3 as [Hr3|[Hr3 [Hs3 [r3 [Hk3 Hd3]]]]]; do2; reflexivity.
  - (* st_while_end *)
    intros e ds neg x b cc w w1 w2 v r H1 IH1 Ht H2 IH2. exists []. split; [reflexivity|]. intros q. code_of_stmt.
    apply node_T. intros c m Hc Hm Hs.
    destruct (rod_cond _ _ _ _ _ IH1 c m Hc Hm) as [m3 [Hw3 [Hr3 [Hs3 [r3 [Hk3 Hd3]]]]]].
    destruct (block_T _ _ _ _ _ IH2 q c m3 Hc Hw3) as [m4 [z4 [Hr4 [Ho4 Hw4]]]].
    apply eqb_yes in Ht.
    exists m4, (seq z4 c (Go c)). split; [|split; [apply O_seq; assumption|assumption]].
    do2; reflexivity.
  - (* st_while_leave *)
    intros e ds neg x b cc w w1 w2 v r r' H1 IH1 Ht H2 IH2 Hl. exists []. split; [reflexivity|]. intros q. code_of_stmt.
    apply node_T. intros c m Hc Hm Hs.
    destruct (rod_cond _ _ _ _ _ IH1 c m Hc Hm) as [m3 [Hw3 [Hr3 [Hs3 [r3 [Hk3 Hd3]]]]]].
    destruct (block_T _ _ _ _ _ IH2 ptc_none c m3 Hc Hw3) as [m4 [z4 [Hr4 [Ho4 Hw4]]]].
    destruct (after_leaves _ _ _ _ _ _ Hl Ho4 c) as [m2 [Hw2 Ho2]].
    apply eqb_no in Ht.
    exists m2, (res_of r' c m2). split; [|split; [rewrite <- (O_res _ _ _ _ (Ho2 (Go c))); apply Ho2|congruence]].
    do2. apply (O_res _ _ _ _ (Ho2 _)).
  - (* st_while_again *)
    intros e ds neg x b cc w w1 w2 w3 v r r' H1 IH1 Ht H2 IH2 Hg H3 IH3. exists []. split; [reflexivity|]. intros q. code_of_stmt.
    apply node_T. intros c m Hc Hm Hs.
    destruct (rod_cond _ _ _ _ _ IH1 c m Hc Hm) as [m3 [Hw3 [Hr3 [Hs3 [r3 [Hk3 Hd3]]]]]].
    destruct (block_T _ _ _ _ _ IH2 ptc_none c m3 Hc Hw3) as [m4 [z4 [Hr4 [Ho4 Hw4]]]].
    destruct (after_again _ _ _ _ _ Hg Ho4) as [-> [m2 [Hw2 [Hs2 Ha]]]].
    destruct (again q _ _ _ _ _ _ _ IH3 eq_refl c m2 Hc (eq_trans Hw2 Hw4) Hs2) as [m5 [z5 [Hr5 [Ho5 Hw5]]]].
    apply R_while_inv in Hr5. apply eqb_no in Ht.
    exists m5, z5. split; [|split; assumption].
    do2; reflexivity.
  - (* st_each_throw *)
    intros e ds nm x set item b cc w w1 y H1 IH1. exists []. split; [reflexivity|]. intros q. code_of_stmt.
    apply node_T. intros c m Hc Hm Hs. subst e.
    destruct (rod_eval _ _ _ _ _ IH1 (mk_ctx (nm (names c)) []) m eq_refl Hm) as [m1 [Hw1 Hr1]].
    destruct (leave_exn y (mk_ctx (nm (names c)) []) m1 eq_refl c) as [m2 [z2 [Hl2 [Ho2 Hw2]]]].
    exists m2, z2. split; [|split; [exact Ho2|rewrite Hw2; exact Hw1]].
    fuel. apply Hl2. lia.
  - (* st_each_read *)
    intros e ds nm x set item b cc w w1 r y H1 IH1 Hrd. exists []. split; [reflexivity|]. intros q. code_of_stmt.
    apply node_T. intros c m Hc Hm Hs. subst e.
    destruct (rod_eval _ _ _ _ _ IH1 (mk_ctx (nm (names c)) []) m eq_refl Hm) as [m1 [Hw1 [Hr1 [Hs1 Hk1]]]].
    destruct r as [|r]; cbn [FlowSpec.read FlowProofs2.ref_of] in Hrd, Hk1.
    + injection Hrd as <-.
      destruct (leave_exn (void_used o) (mk_ctx (nm (names c)) []) m1 eq_refl c) as [m2 [z2 [Hl2 [Ho2 Hw2]]]].
      exists m2, z2. split; [|split; [exact Ho2|rewrite Hw2; exact Hw1]].
      fuel. apply Hl2. lia.
    + destruct (leave_exn y (mk_ctx (set r (nm (names c))) []) (set_stk m1 [RBad]) eq_refl c) as [m2 [z2 [Hl2 [Ho2 Hw2]]]].
      exists m2, z2. split; [|split; [exact Ho2|rewrite Hw2; exact Hw1]].
      fuel. cbn [deref world set_stk]. rewrite ?Hw1, Hrd. apply Hl2. lia.
  - (* st_each_range *)
    intros e ds nm x set item b cc w w1 r v y H1 IH1 Hrd Hrg. exists []. split; [reflexivity|]. intros q. code_of_stmt.
    apply node_T. intros c m Hc Hm Hs. subst e.
    destruct (rod_eval _ _ _ _ _ IH1 (mk_ctx (nm (names c)) []) m eq_refl Hm) as [m1 [Hw1 [Hr1 [Hs1 Hk1]]]].
    cbn [FlowProofs2.ref_of] in Hk1.
    destruct (leave_exn y (mk_ctx (set r (nm (names c))) []) (set_stk m1 [RBad]) eq_refl c) as [m2 [z2 [Hl2 [Ho2 Hw2]]]].
    exists m2, z2. split; [|split; [exact Ho2|rewrite Hw2; exact Hw1]].
    fuel. cbn [deref world set_stk]. rewrite ?Hw1, Hrd, Hrg. apply Hl2. lia.
  - (* st_each_null *)
    intros e ds nm x set item b cc w w1 r v H1 IH1 Hrd Hrg. exists []. split; [reflexivity|]. intros q. code_of_stmt.
    apply node_T. intros c m Hc Hm Hs. subst e.
    destruct (rod_eval _ _ _ _ _ IH1 (mk_ctx (nm (names c)) []) m eq_refl Hm) as [m1 [Hw1 [Hr1 [Hs1 Hk1]]]].
    cbn [FlowProofs2.ref_of] in Hk1.
    destruct (leave_nil ONext (Go (mk_ctx (set r (nm (names c))) []) (set_stk m1 [RBad]))
                (mk_ctx (set r (nm (names c))) []) (set_stk m1 [RBad])
                (conj eq_refl Hs1) eq_refl c) as [m2 [z2 [Hl2 [Ho2 Hw2]]]].
    exists m2, z2. split; [|split; [exact Ho2|rewrite Hw2; exact Hw1]].
    fuel. cbn [deref world set_stk]. rewrite ?Hw1, Hrd, Hrg. apply Hl2. lia.
  - (* st_each *)
    intros e ds nm x set item b cc w w1 w2 r v l r' H1 IH1 Hrd Hrg H2 IH2. exists []. split; [reflexivity|]. intros q. code_of_stmt.
    apply node_T. intros c m Hc Hm Hs. subst e.
    destruct (rod_eval _ _ _ _ _ IH1 (mk_ctx (nm (names c)) []) m eq_refl Hm) as [m1 [Hw1 [Hr1 [Hs1 Hk1]]]].
    cbn [FlowProofs2.ref_of] in Hk1.
    destruct (IH2 q c (mk_ctx (set r (nm (names c))) []) (set_stk m1 [RBad]) eq_refl eq_refl Hw1 Hs1)
      as [c2 [m2 [z2 [Hr2 [Ho2 [Hw2 Hd2]]]]]].
    destruct (leave_nil _ _ _ _ Ho2 Hd2 c) as [m3 [z3 [Hl3 [Ho3 Hw3]]]].
   
    exists m3, z3. split; [|split; [exact Ho3|congruence]].
    destruct Hl3 as [k3 Hl3]. destruct Hr2 as [k2 Hr2]. destruct Hr1 as [k1 Hr1].
    exists (S (k1 + k2 + k3)). intros n Hn. destruct n as [|n]; [lia|].
    unfold FlowProofs1.code in *. cbn [FlowModel.run].
    rewrite (Hr1 n) by lia. cbn [seq_next seq]. rewrite Hs1. cbn [is_next]. rewrite Hk1.
    cbn [deref world set_stk names]. rewrite ?Hw1, Hrd, Hrg.
    cbn [set_stk names] in Hr2. rewrite (Hr2 n) by lia. apply Hl3. lia.
  - (* st_for *)
    intros e ds i cn sp b cc w w1 w2 e1 r H1 IH1 H2 IH2. exists []. split; [reflexivity|]. intros q. code_of_stmt.
    apply node_T. intros c m Hc Hm Hs.
    destruct IH1 as [new [Hnew Hq]]. rewrite app_nil_r in Hnew. subst new.
    destruct (Hq ptc_none (mk_ctx (names c) []) (set_stat m st_next) Hc Hm eq_refl) as [c1 [m1 [z1 [Hr1 [Ho1 [Hw1 [Hd1 He1]]]]]]].
    destruct (O_next _ _ _ Ho1) as [-> Hs1]. cbn [map app dfr] in Hd1.
    destruct (IH2 q c c1 m1 Hc He1 Hw1 Hs1) as [m2 [z2 [Hr2 [Ho2 Hw2]]]].
    destruct (leave_nil _ _ _ _ Ho2 Hd1 c) as [m3 [z3 [Hl3 [Ho3 Hw3]]]].
    exists m3, z3. split; [|split; [exact Ho3|congruence]].
    apply R_rod in Hr1.
    destruct Hl3 as [k3 Hl3]. destruct Hr2 as [k2 Hr2]. destruct Hr1 as [k1 Hr1].
    exists (S (k1 + k2 + k3)). intros n Hn. destruct n as [|n]; [lia|].
    unfold FlowProofs1.code in *. cbn [FlowModel.run].
    rewrite (Hr1 n) by lia. rewrite Hs1. cbn [is_next]. rewrite (Hr2 n) by lia. apply Hl3. lia.
  - (* st_for_throw *)
    intros e ds i cn sp b cc w w1 e1 y H1 IH1. exists []. split; [reflexivity|]. intros q. code_of_stmt.
    apply node_T. intros c m Hc Hm Hs.
    destruct IH1 as [new [Hnew Hq]]. rewrite app_nil_r in Hnew. subst new.
    destruct (Hq ptc_none (mk_ctx (names c) []) (set_stat m st_next) Hc Hm eq_refl) as [c1 [m1 [z1 [Hr1 [Ho1 [Hw1 [Hd1 He1]]]]]]].
    cbn [map app dfr] in Hd1.
    destruct (leave_nil _ _ _ _ Ho1 Hd1 c) as [m3 [z3 [Hl3 [Ho3 Hw3]]]].
    exists m3, z3. split; [|split; [exact Ho3|congruence]].
    apply R_rod in Hr1. simpl in Ho1. subst z1.
    destruct Hl3 as [k3 Hl3]. destruct Hr1 as [k1 Hr1].
    exists (S (k1 + k3)). intros n Hn. destruct n as [|n]; [lia|].
    unfold FlowProofs1.code in *. cbn [FlowModel.run].
    rewrite (Hr1 n) by lia. apply Hl3. lia.
  - (* st_try *)
    intros e ds t caught cc w w1 r H1 IH1 Hnt. exists []. split; [reflexivity|]. intros q. code_of_stmt.
    apply node_T. intros c m Hc Hm Hs.
    destruct (block_T _ _ _ _ _ IH1 ptc_none c m Hc Hm) as [m1 [z1 [Hr1 [Ho1 Hw1]]]].
    exists m1, z1. split; [|split; assumption].
    destruct r as [|u|u|[|r]|y]; simpl in Ho1; try (destruct Ho1 as [-> Ho1]).
    + fuel. reflexivity.
    + fuel. reflexivity.
    + fuel. reflexivity.
    + destruct Ho1 as [Ho1|[Ho1 [s Hk]]]; fuel; reflexivity.
    + destruct Ho1 as [Ho1 [s Hk]]; fuel; reflexivity.
    + exact (False_ind _ (Hnt _ eq_refl)).
  - (* st_try_catch *)
    intros e ds t caught cc w w1 w2 w3 x e1 r H1 IH1 Hcg H2 IH2. exists []. split; [reflexivity|]. intros q. code_of_stmt.
    apply node_T. intros c m Hc Hm Hs.
    destruct (block_T _ _ _ _ _ IH1 ptc_none c m Hc Hm) as [m1 [z1 [Hr1 [Ho1 Hw1]]]].
    simpl in Ho1. subst z1.
    destruct (scope_T _ _ _ _ _ IH2 q c (set_world m1 w2) eq_refl) as [z2 [m3 [z3 [Hr2 [Hl3 [Ho3 Hw3]]]]]].
    exists m3, z3. split; [|split; assumption].
    destruct Hl3 as [k3 Hl3]. destruct Hr2 as [k2 Hr2]. destruct Hr1 as [k1 Hr1].
    exists (S (k1 + k2 + k3)). intros n Hn. destruct n as [|n]; [lia|].
    unfold FlowProofs1.code in *. cbn [FlowModel.run].
    rewrite (Hr1 n) by lia. cbn [seq]. rewrite Hc, Hw1, Hcg. rewrite (Hr2 n) by lia. apply Hl3. lia.
  - (* st_break_ *)
    intros e ds t w. exists []. split; [reflexivity|]. intros q. code_of_stmt.
    apply node_T. intros c m Hc Hm Hs. exists (set_stat m (st_break t)), (Go c (set_stat m (st_break t))).
    split; [fuel; reflexivity|]. split; [split; reflexivity|assumption].
  - intros e ds t w. exists []. split; [reflexivity|]. intros q. code_of_stmt.
    apply node_T. intros c m Hc Hm Hs. exists (set_stat m (st_continue t)), (Go c (set_stat m (st_continue t))).
    split; [fuel; reflexivity|]. split; [split; reflexivity|assumption].
  - (* st_throw *)
    intros e ds x w w1 v H1 IH1. exists []. split; [reflexivity|]. intros q. code_of_stmt.
    eapply cond_node; [exact IH1|]. intros c m Hc Hm Hs Ht. exists m, (Exn (throwing o v) c m).
    split; [fuel; reflexivity|]. split; [reflexivity|assumption].
  - intros e ds x w w1 y H1 IH1. exists []. split; [reflexivity|]. intros q. code_of_stmt.
    eapply cond_throw; [exact IH1|]. intros c m Ht. fuel. reflexivity.
  - (* st_return_void_ *)
    intros e ds by_ref w. exists []. split; [reflexivity|]. intros q. code_of_stmt.
    apply node_T. intros c m Hc Hm Hs. exists (set_stat m st_return_void), (Go c (set_stat m st_return_void)).
    split; [fuel; reflexivity|]. split; [split; [reflexivity|left; reflexivity]|assumption].
  - (* st_return_ *)
    intros e ds by_ref x w w1 r H1 IH1. exists []. split; [reflexivity|]. intros q c m Hc Hm Hs.
    destruct (IH1 c (set_stk m []) Hc Hm Hs) as [m1 [Hw1 [Hr1 [Hs1 Hk1]]]]. cbn [stk set_stk] in Hk1.
    assert (Hgo : forall z, runs (JNode (NReturn by_ref false) c) m1 z ->
              runs (JSeq (frag q (SReturn by_ref (Some x))) c) m z).
    { intros z Hz. code_of_stmt. apply R_clear; [assumption|].
      eapply R_expr; [exact Hs1|exact Hr1|]. apply R_last. assumption. }
    destruct r as [|r]; cbn [FlowProofs2.ref_of FlowSpec.returned] in Hk1 |- *.
    + exists c, (set_stat m1 st_return), (Go c (set_stat m1 st_return)).
      split; [apply Hgo; fuel; reflexivity|]. split; [|auto]. split; [reflexivity|].
      right. split; [reflexivity|]. exists []. exact Hk1.
    + rewrite <- Hw1. destruct (value o (world m1) r) as [v|y] eqn:Ev.
      * destruct by_ref.
        -- exists c, (set_stat m1 st_return), (Go c (set_stat m1 st_return)).
           split; [apply Hgo; fuel; cbn [deref]; rewrite Ev; reflexivity|]. split; [|auto].
           split; [reflexivity|]. split; [reflexivity|]. exists []. exact Hk1.
        -- exists c, (set_stat (set_stk m1 [RVal (temp o v)]) st_return), (Go c (set_stat (set_stk m1 [RVal (temp o v)]) st_return)).
           split; [apply Hgo; fuel; cbn [deref]; rewrite Ev; reflexivity|]. split; [|auto].
           split; [reflexivity|]. split; [reflexivity|]. exists []. reflexivity.
      * exists c, m1, (Exn y c m1).
        split; [apply Hgo; fuel; cbn [deref]; rewrite Ev; reflexivity|]. split; [reflexivity|auto].
  - (* st_return_throw *)
    intros e ds by_ref x w w1 y H1 IH1. exists []. split; [reflexivity|]. intros q c m Hc Hm Hs. code_of_stmt.
    destruct (IH1 c (set_stk m []) Hc Hm Hs) as [m1 [Hw1 Hr1]].
    exists c, m1, (Exn y c m1). split; [|split; [reflexivity|auto]].
    apply R_clear; [assumption|]. apply R_expr_exn. assumption.
  - (* st_assert *)
    intros e ds x y w w1 v H1 IH1. exists []. split; [reflexivity|]. intros q. code_of_stmt.
    eapply cond_node; [exact IH1|]. intros c m Hc Hm Hs Ht.
    exists m, (if test o v then Go c m else Exn y c m). split; [fuel; reflexivity|].
    destruct (test o v); (split; [|assumption]); [split; [reflexivity|exact Hs]|reflexivity].
  - intros e ds x y w w1 z H1 IH1. exists []. split; [reflexivity|]. intros q. code_of_stmt.
    eapply cond_throw; [exact IH1|]. intros c m Ht. fuel. reflexivity.
  - (* st_defer *)
    intros e ds x w. exists [(e, x)]. split; [reflexivity|]. intros q c m Hc Hm Hs. code_of_stmt.
    exists (mk_ctx (names c) ((names c, gexp (Some x)) :: dfr c)), m, (Go (mk_ctx (names c) ((names c, gexp (Some x)) :: dfr c)) m).
    split; [apply R_last; fuel; reflexivity|]. split; [split; [reflexivity|exact Hs]|]. split; [assumption|].
    split; [|assumption]. cbn. rewrite Hc. reflexivity.
  - (* co_ok *)
    intros e x w w1 r H1 IH1 c m Hc Hm Hs. destruct (IH1 c m Hc Hm Hs) as [m1 [Hw1 [Hr1 [Hs1 Hk1]]]].
    exists m1. split; [assumption|]. destruct (read w1 r) as [v|y] eqn:Er.
    + split; [assumption|]. split; [assumption|]. exists (ref_of r). split; [assumption|].
      intros k. eapply deref_read; eassumption.
    + right. split; [assumption|]. split; [assumption|]. exists (ref_of r). split; [assumption|].
      intros k. eapply deref_read_throw; eassumption.
  - intros e x w w1 y H1 IH1 c m Hc Hm Hs. destruct (IH1 c m Hc Hm Hs) as [m1 [Hw1 Hr1]].
    exists m1. split; [assumption|]. left. assumption.
  - (* fi_nil *)
    intros e v k d w cl c m Hc Hm Hs. exists m. split; [assumption|]. destruct d as [t|].
    + split; [assumption|]. intros z Hz. apply Hz.
    + split; [assumption|]. fuel. reflexivity.
  - (* fi_default *)
    intros e v k d skip b rest w w1 r H1 IH1 cl c m Hc Hm Hs. destruct (IH1 cl c m Hc Hm Hs) as [m1 [Hw1 Hr1]].
    exists m1. split; [assumption|].
    assert (Hg : forall z, runs (JFind v (S k) (Some k) (map gcl rest) cl c) m z ->
                  runs (JFind v k d (map gcl ((LDefault, skip, b) :: rest)) cl c) m z).
    { intros z Hz. cbn [map gcl]. fuel. reflexivity. }
    destruct r as [[t|]|y].
    + destruct Hr1 as [Hs1 Hr1]. split; [assumption|]. auto.
    + destruct Hr1 as [Hs1 Hr1]. split; [assumption|]. auto.
    + auto.
  - (* fi_case *)
    intros e v k d x skip b rest w w1 a H1 IH1 Hcmp cl c m Hc Hm Hs.
    destruct (rod_cond _ _ _ _ _ IH1 c m Hc Hm) as [m1 [Hw1 [Hr1 [Hs1 [r1 [Hk1 Hd1]]]]]].
    exists m1. split; [assumption|]. split; [assumption|]. intros z Hz. specialize (Hz k).
    apply cmp_eqb_iff in Hcmp. cbn [map gcl]. fuel. rewrite Hcmp. first [reflexivity|apply Hz; lia].
  - (* fi_case_no *)
    intros e v k d x skip b rest w w1 w2 a r H1 IH1 Hcmp H2 IH2 cl c m Hc Hm Hs.
    destruct (rod_cond _ _ _ _ _ IH1 c m Hc Hm) as [m1 [Hw1 [Hr1 [Hs1 [r1 [Hk1 Hd1]]]]]].
    destruct (IH2 cl c m1 Hc Hw1 Hs1) as [m2 [Hw2 Hr2]]. exists m2. split; [assumption|].
    apply cmp_eqb_no in Hcmp.
    assert (Hg : forall z, runs (JFind v (S k) d (map gcl rest) cl c) m1 z ->
                  runs (JFind v k d (map gcl ((LCase x, skip, b) :: rest)) cl c) m z).
    { intros z Hz. cbn [map gcl]. clear Hr2. fuel. rewrite Hcmp. first [reflexivity|apply Hz; lia]. }
    destruct r as [[t|]|y].
    + destruct Hr2 as [Hs2 Hr2]. split; [assumption|]. auto.
    + destruct Hr2 as [Hs2 Hr2]. split; [assumption|]. auto.
    + auto.
  - (* fi_case_throw *)
    intros e v k d x skip b rest w w1 y H1 IH1 cl c m Hc Hm Hs.
    destruct (rod_cond _ _ _ _ _ IH1 c m Hc Hm) as [m1 [Hw1 Hr1]].
    exists m1. split; [assumption|]. cbn [map gcl].
    destruct Hr1 as [Hr1|[Hr1 [Hs1 [r1 [Hk1 Hd1]]]]]; fuel; reflexivity.
  - (* fi_each *)
    intros e v k d lc uc x y skip b rest w w1 w2 rx ry lo up H1 IH1 H2 IH2 Hlo Hup Hin cl c m Hc Hm Hs.
    destruct (rod_two _ _ _ _ _ _ _ _ IH1 IH2 c m Hc Hm) as [m1 [Hw1 [Hr1 [Hs1 Hk1]]]].
    exists m1. split; [assumption|]. split; [assumption|]. intros z Hz. specialize (Hz k).
    apply in_interval_iff in Hin. cbn [map gcl].
    pose proof (fun k => deref_read _ _ _ c m1 k Hlo Hw1) as Hd1.
    pose proof (fun k => deref_read _ _ _ c m1 k Hup Hw1) as Hd2.
    fuel. rewrite Hin. first [reflexivity|apply Hz; lia].
  - (* fi_each_no *)
    intros e v k d lc uc x y skip b rest w w1 w2 w3 rx ry lo up r H1 IH1 H2 IH2 Hlo Hup Hin H3 IH3 cl c m Hc Hm Hs.
    destruct (rod_two _ _ _ _ _ _ _ _ IH1 IH2 c m Hc Hm) as [m1 [Hw1 [Hr1 [Hs1 Hk1]]]].
    destruct (IH3 cl c m1 Hc Hw1 Hs1) as [m2 [Hw2 Hr2]]. exists m2. split; [assumption|].
    pose proof (fun k => deref_read _ _ _ c m1 k Hlo Hw1) as Hd1.
    pose proof (fun k => deref_read _ _ _ c m1 k Hup Hw1) as Hd2.
    assert (Hin' : in_interval lc uc (compare o v lo) (compare o v up) = false).
    { apply not_true_is_false. intros Ht. apply Hin. apply in_interval_iff. assumption. }
    assert (Hg : forall z, runs (JFind v (S k) d (map gcl rest) cl c) m1 z ->
                  runs (JFind v k d (map gcl ((LEach lc uc x y, skip, b) :: rest)) cl c) m z).
    { intros z Hz. cbn [map gcl]. clear Hr2. fuel. rewrite Hin'. first [reflexivity|apply Hz; lia]. }
    destruct r as [[t|]|z].
    + destruct Hr2 as [Hs2 Hr2]. split; [assumption|]. auto.
    + destruct Hr2 as [Hs2 Hr2]. split; [assumption|]. auto.
    + auto.
  - (* fi_each_throw1 *)
    intros e v k d lc uc x y skip b rest w w1 z H1 IH1 cl c m Hc Hm Hs.
    destruct (IH1 c (set_stk (set_stat m st_next) []) Hc Hm eq_refl) as [m1 [Hw1 Hr1]].
    exists m1. split; [assumption|]. cbn [map gcl].
    assert (Hrod : runs (JRod (gexp (Some x) ++ [NExpr ptc_none y]) c) m (Exn z c m1)).
    { apply R_rod. apply R_clear; [reflexivity|]. apply R_expr_exn. assumption. }
    clear Hr1. fuel. reflexivity.
  - (* fi_each_throw2 *)
    intros e v k d lc uc x y skip b rest w w1 w2 rx z H1 IH1 H2 IH2 cl c m Hc Hm Hs.
    destruct (rod_two _ _ _ _ _ _ _ _ IH1 IH2 c m Hc Hm) as [m1 [Hw1 Hr1]].
    exists m1. split; [assumption|]. cbn [map gcl]. fuel. reflexivity.
  - (* fi_each_read1 *)
    intros e v k d lc uc x y skip b rest w w1 w2 rx ry z H1 IH1 H2 IH2 Hlo cl c m Hc Hm Hs.
    destruct (rod_two _ _ _ _ _ _ _ _ IH1 IH2 c m Hc Hm) as [m1 [Hw1 [Hr1 [Hs1 Hk1]]]].
    exists m1. split; [assumption|]. cbn [map gcl].
    pose proof (fun k => deref_read_throw _ _ _ c m1 k Hlo Hw1) as Hd1.
    fuel. reflexivity.
  - (* fi_each_read2 *)
    intros e v k d lc uc x y skip b rest w w1 w2 rx ry lo z H1 IH1 H2 IH2 Hlo Hup cl c m Hc Hm Hs.
    destruct (rod_two _ _ _ _ _ _ _ _ IH1 IH2 c m Hc Hm) as [m1 [Hw1 [Hr1 [Hs1 Hk1]]]].
    exists m1. split; [assumption|]. cbn [map gcl].
    pose proof (fun k => deref_read _ _ _ c m1 k Hlo Hw1) as Hd1.
    pose proof (fun k => deref_read_throw _ _ _ c m1 k Hup Hw1) as Hd2.
    fuel. reflexivity.
  - (* fa_nil *)
    intros e ds w. exists []. split; [reflexivity|]. intros cl r1 c m Hcl Hl Hc Hm Hs.
    destruct cl; [|discriminate]. inversion Hl; subst. exists c, m, (Go c m).
    split; [fuel; reflexivity|]. split; [split; [reflexivity|exact Hs]|]. split; reflexivity.
  - (* fa_next *)
    intros e ds b bs w e1 ds1 w1 e2 ds2 w2 r H1 IH1 H2 IH2.
    destruct IH1 as [n1 [Hn1 Hq1]]. destruct IH2 as [n2 [Hn2 Hq2]]. exists (n2 ++ n1).
    split; [rewrite <- app_assoc, <- Hn1; assumption|]. intros cl r1 c m Hcl Hl Hc Hm Hs.
    destruct cl as [|[[lb sk] b'] cl]; [discriminate|]. injection Hcl as -> Hcl.
    destruct (Hq1 ptc_none c (set_stat m st_next) Hc Hm eq_refl) as [c1 [m1 [z1 [Hz1 [Ho1 [Hw1 [Hd1 He1]]]]]]].
    destruct (O_next _ _ _ Ho1) as [-> Hs1]. apply R_rod in Hz1.
    destruct (Hq2 cl r1 c1 m1 Hcl Hl He1 Hw1 Hs1) as [c2 [m2 [z2 [Hz2 [Ho2 [Hw2 Hd2]]]]]].
    exists c2, m2, z2. split; [|split; [assumption|split; [assumption|]]].
    + cbn [map]. destruct (gcl_snd lb sk b) as [ct [lab ->]]. fuel. reflexivity.
    + rewrite Hd2, Hd1, map_app, app_assoc. reflexivity.
  - (* fa_stop *)
    intros e ds b bs w e1 ds1 w1 r H1 IH1 Hr. destruct IH1 as [n1 [Hn1 Hq1]]. exists n1.
    split; [assumption|]. intros cl r1 c m Hcl Hl Hc Hm Hs.
    destruct cl as [|[[lb sk] b'] cl]; [discriminate|]. injection Hcl as -> Hcl.
    destruct (Hq1 ptc_none c (set_stat m st_next) Hc Hm eq_refl) as [c1 [m1 [z1 [Hz1 [Ho1 [Hw1 [Hd1 He1]]]]]]].
    apply R_rod in Hz1.
    assert (Hx : exists m2 z2, world m2 = w1 /\ O r1 z2 c1 m2 /\
              z2 = match z1 with
                   | Go c' m' => if is_next (stat m') then Fuel
                                 else Go c' (if is_break TSwitch (stat m') then set_stat m' st_next else m')
                   | z => z
                   end).
    { destruct Hl as [|t Ht|t Ht|t|v|x]; simpl in Ho1.
      - congruence.
      - destruct Ho1 as [-> Ho1]. exists (set_stat m1 st_next), (Go c1 (set_stat m1 st_next)).
        split; [assumption|]. split; [split; reflexivity|]. rewrite Ho1. simpl.
        apply meant_break in Ht. rewrite Ht. reflexivity.
      - destruct Ho1 as [-> Ho1]. exists m1, (Go c1 m1).
        split; [assumption|]. split; [split; [reflexivity|assumption]|]. rewrite Ho1. simpl.
        apply not_meant in Ht. rewrite Ht. reflexivity.
      - destruct Ho1 as [-> Ho1]. exists m1, (Go c1 m1).
        split; [assumption|]. split; [split; [reflexivity|assumption]|]. rewrite Ho1. reflexivity.
      - destruct Ho1 as [-> Ho1]. exists m1, (Go c1 m1).
        split; [assumption|]. split; [split; [reflexivity|assumption]|]. destruct v as [|v].
        + destruct Ho1 as [Ho1|[Ho1 _]]; rewrite Ho1; reflexivity.
        + destruct Ho1 as [Ho1 _]; rewrite Ho1; reflexivity.
      - subst z1. exists m1, (Exn x c1 m1). split; [assumption|]. split; reflexivity. }
    destruct Hx as [m2 [z2 [Hw2 [Ho2 Hz2]]]].
    exists c1, m2, z2. split; [|split; [assumption|split; [assumption|assumption]]].
    cbn [map]. destruct (gcl_snd lb sk b) as [ct [lab ->]].
    pose proof (O_stops _ _ _ _ Ho1 Hr) as Hst.
    destruct Hz1 as [k1 Hz1]. exists (S k1). intros n Hn. destruct n as [|n]; [lia|].
    unfold FlowProofs1.code in *. cbn [FlowModel.run].
    rewrite (Hz1 n) by lia. rewrite Hz2. destruct z1 as [c3 m3| | |]; simpl in Hst; try contradiction; [|reflexivity].
    rewrite Hst. reflexivity.
  - (* ea_end *)
    intros item b cc e0 e w w1 r H1 IH1 q outer c m Hout Hc Hm Hs.
    destruct (block_T _ _ _ _ _ IH1 q outer m Hout Hm) as [m1 [z1 [Hr1 [Ho1 Hw1]]]].
    exists c, m1, (seq z1 c (Go c)). split; [|split; [eapply O_seq2; eassumption|split; [assumption|reflexivity]]].
    fuel. reflexivity.
  - (* ea_throw *)
    intros x l item b cc e0 e w w1 y H1 q outer c m Hout Hc Hm Hs.
    exists c, (set_world m w1), (Exn y c (set_world m w1)).
    split; [|split; [reflexivity|split; reflexivity]]. fuel. rewrite H1. reflexivity.
  - (* ea_leave *)
    intros x l item b cc e0 e w w1 w2 e1 r r' H1 H2 IH2 Hl q outer c m Hout Hc Hm Hs.
    destruct (block_T _ _ _ _ _ IH2 ptc_none (mk_ctx e1 (dfr c)) (set_world m w1) eq_refl eq_refl) as [m1 [z1 [Hr1 [Ho1 Hw1]]]].
    destruct (after_leaves _ _ _ _ _ _ Hl Ho1 (mk_ctx e1 (dfr c))) as [m2 [Hw2 Ho2]].
    exists (mk_ctx e1 (dfr c)), m2, (res_of r' (mk_ctx e1 (dfr c)) m2).
    split; [|split; [rewrite <- (O_res _ _ _ _ (Ho2 (Go c))); apply Ho2|split; [congruence|reflexivity]]].
    destruct Hr1 as [k1 Hr1]. exists (S k1). intros n Hn. destruct n as [|n]; [lia|].
    unfold FlowProofs1.code in *. cbn [FlowModel.run].
    rewrite Hc, Hm, H1. rewrite (Hr1 n) by lia. apply (O_res _ _ _ _ (Ho2 _)).
  - (* ea_again *)
    intros x l item b cc e0 e w w1 w2 w3 e1 r r' H1 H2 IH2 Hg H3 IH3 q outer c m Hout Hc Hm Hs.
    destruct (block_T _ _ _ _ _ IH2 ptc_none (mk_ctx e1 (dfr c)) (set_world m w1) eq_refl eq_refl) as [m1 [z1 [Hr1 [Ho1 Hw1]]]].
    destruct (after_again _ _ _ _ _ Hg Ho1) as [-> [m2 [Hw2 [Hs2 Ha]]]].
    destruct (IH3 q outer (mk_ctx e1 (dfr c)) m2 Hout eq_refl (eq_trans Hw2 Hw1) Hs2) as [c3 [m3 [z3 [Hr3 [Ho3 [Hw3 Hd3]]]]]].
    exists c3, m3, z3. split; [|split; [assumption|split; [assumption|exact Hd3]]].
    destruct Hr1 as [k1 Hr1]. destruct Hr3 as [k3 Hr3].
    exists (S (k1 + k3)). intros n Hn. destruct n as [|n]; [lia|].
    unfold FlowProofs1.code in *. cbn [FlowModel.run].
    rewrite Hc, Hm, H1. rewrite (Hr1 n) by lia. cbn [seq]. rewrite Ha. apply Hr3. lia.
  - (* lo_throw *)
    intros x sp b cc e0 e w w1 y H1 IH1 q outer c m Hout Hc Hm Hs.
    destruct (rod_cond _ _ _ _ _ IH1 c m Hc Hm) as [m1 [Hw1 Hr1]].
    exists m1, (Exn y c m1). split; [|split; [reflexivity|assumption]].
    destruct Hr1 as [Hr1|[Hr1 [Hs1 [r1 [Hk1 Hd1]]]]]; fuel; reflexivity.
  - (* lo_end *)
    intros x sp b cc e0 e w w1 w2 v r H1 IH1 Ht H2 IH2 q outer c m Hout Hc Hm Hs.
    destruct (rod_cond _ _ _ _ _ IH1 c m Hc Hm) as [m1 [Hw1 [Hr1 [Hs1 [r1 [Hk1 Hd1]]]]]].
    destruct (block_T _ _ _ _ _ IH2 q outer m1 Hout Hw1) as [m2 [z2 [Hr2 [Ho2 Hw2]]]].
    exists m2, (seq z2 c (Go c)). split; [|split; [eapply O_seq2; eassumption|assumption]].
    fuel. rewrite Ht. reflexivity.
  - (* lo_leave *)
    intros cn sp b cc e0 e w w1 w2 r r' H1 IH1 H2 IH2 Hl q outer c m Hout Hc Hm Hs.
    destruct (IH1 c m Hc Hm) as [m1 [Hr1 [Hw1 [Hs1 Hh]]]].
    destruct (block_T _ _ _ _ _ IH2 ptc_none c m1 Hc Hw1) as [m2 [z2 [Hr2 [Ho2 Hw2]]]].
    destruct (after_leaves _ _ _ _ _ _ Hl Ho2 c) as [m3 [Hw3 Ho3]].
    exists m3, (res_of r' c m3).
    split; [|split; [rewrite <- (O_res _ _ _ _ (Ho3 (Go c))); apply Ho3|congruence]].
    destruct Hr1 as [k1 Hr1]. destruct Hr2 as [k2 Hr2].
    exists (S (k1 + k2)). intros n Hn. destruct n as [|n]; [lia|].
    unfold FlowProofs1.code in *. cbn [FlowModel.run].
    rewrite (Hr1 n) by lia. cbn [seq_next seq]. rewrite Hs1. cbn [is_next]. rewrite Hh.
    rewrite (Hr2 n) by lia. apply (O_res _ _ _ _ (Ho3 _)).
  - (* lo_step *)
    intros cn x b cc e0 e w w1 w2 w3 r y H1 IH1 H2 IH2 Hg H3 IH3 q outer c m Hout Hc Hm Hs.
    destruct (IH1 c m Hc Hm) as [m1 [Hr1 [Hw1 [Hs1 Hh]]]].
    destruct (block_T _ _ _ _ _ IH2 ptc_none c m1 Hc Hw1) as [m2 [z2 [Hr2 [Ho2 Hw2]]]].
    destruct (after_again _ _ _ _ _ Hg Ho2) as [-> [m3 [Hw3 [Hs3 Ha]]]].
    destruct (rod_eval _ _ _ _ _ IH3 c m3 Hc (eq_trans Hw3 Hw2)) as [m4 [Hw4 Hr4]].
    exists m4, (Exn y c m4). split; [|split; [reflexivity|assumption]].
    destruct Hr1 as [k1 Hr1]. destruct Hr2 as [k2 Hr2]. destruct Hr4 as [k4 Hr4].
    exists (S (k1 + k2 + k4)). intros n Hn. destruct n as [|n]; [lia|].
    unfold FlowProofs1.code in *. cbn [FlowModel.run].
    rewrite (Hr1 n) by lia. cbn [seq_next seq]. rewrite Hs1. cbn [is_next]. rewrite Hh.
    rewrite (Hr2 n) by lia. cbn [seq]. rewrite Ha. rewrite (Hr4 n) by lia. reflexivity.
  - (* lo_again *)
    intros cn sp b cc e0 e w w1 w2 w3 w4 r r' H1 IH1 H2 IH2 Hg H3 IH3 H4 IH4 q outer c m Hout Hc Hm Hs.
    destruct (IH1 c m Hc Hm) as [m1 [Hr1 [Hw1 [Hs1 Hh]]]].
    destruct (block_T _ _ _ _ _ IH2 ptc_none c m1 Hc Hw1) as [m2 [z2 [Hr2 [Ho2 Hw2]]]].
    destruct (after_again _ _ _ _ _ Hg Ho2) as [-> [m3 [Hw3 [Hs3 Ha]]]].
    destruct (IH3 c m3 Hc (eq_trans Hw3 Hw2)) as [m4 [Hr4 [Hw4 Hs4]]].
    destruct (IH4 q outer c m4 Hout Hc Hw4 Hs4) as [m5 [z5 [Hr5 [Ho5 Hw5]]]].
    exists m5, z5. split; [|split; assumption].
    destruct Hr1 as [k1 Hr1]. destruct Hr2 as [k2 Hr2]. destruct Hr4 as [k4 Hr4]. destruct Hr5 as [k5 Hr5].
    exists (S (k1 + k2 + k4 + k5)). intros n Hn. destruct n as [|n]; [lia|].
    unfold FlowProofs1.code in *. cbn [FlowModel.run].
    rewrite (Hr1 n) by lia. cbn [seq_next seq]. rewrite Hs1. cbn [is_next]. rewrite Hh.
    rewrite (Hr2 n) by lia. cbn [seq]. rewrite Ha. rewrite (Hr4 n) by lia. cbn [seq_next seq]. rewrite Hs4. cbn [is_next].
    apply Hr5. lia.
  - (* ho_none *)
    intros e w c m Hc Hm. exists (set_stk (set_stat m st_next) []).
    split; [|split; [assumption|split; reflexivity]].
    apply R_rod. apply R_clear; [reflexivity|]. apply R_nil.
  - (* ho_some *)
    intros e x w w1 v H1 IH1 Ht c m Hc Hm.
    destruct (rod_cond _ _ _ _ _ IH1 c m Hc Hm) as [m1 [Hw1 [Hr1 [Hs1 [r1 [Hk1 Hd1]]]]]].
    exists m1. split; [assumption|]. split; [assumption|]. split; [assumption|]. intros K1 K2.
    rewrite Hk1, Hd1, Ht. reflexivity.
  - (* sp_none *)
    intros e w c m Hc Hm. exists (set_stk (set_stat m st_next) []).
    split; [|split; [assumption|reflexivity]].
    apply R_rod. apply R_clear; [reflexivity|]. apply R_nil.
  - (* sp_some *)
    intros e x w w1 r H1 IH1 c m Hc Hm.
    destruct (rod_eval _ _ _ _ _ IH1 c m Hc Hm) as [m1 [Hw1 [Hr1 [Hs1 _]]]].
    exists m1. auto.
Qed.

End Proofs.
