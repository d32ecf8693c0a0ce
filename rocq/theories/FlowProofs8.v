(* The theorems about control flow in the form in which FlowProps.v states
   them. *)
From Verif Require Import Base FlowModel FlowSpec FlowProofs1 FlowProofs2 FlowProofs3 FlowProofs4
  FlowProofs5 FlowProofs6 FlowProofs7.
From Coq Require Import Lia.

Section Proofs.

Context {W E R V X A F It : Type}.
Notation ops := (@ops W E R V X A F It).
Notation stmt := (@stmt W E R X A F It).
Notation mst := (@mst W E R X A F It).
Notation ctx := (@ctx W E R X A F It).
Notation res := (@res W E R X A F It).
Notation ref := (@ref W E R X A F It).
Notation out := (@out R X).
Variable body : F -> list stmt.
Variable o : ops.
Notation call := (@call W E R V X A F It o body).
Notation scope := (@scope W E R V X A F It o body).
Notation stmts := (@stmts W E R V X A F It o body).
Notation evaluated := (@evaluated W E R V X A F It o body).

Lemma off : forall P : Prop, false = true -> P.
Proof. discriminate. Qed.

Theorem sound : (forall f, forallb (accepted scope_plain) (body f) = true) ->
  forall n f a c m,
  match run false body o n (JInvoke f a c) m with
  | Fuel => True
  | Bad => False
  | Go _ m' => exists r, stk m' = [ref_of r] /\ call f a (world m) (world m') (inl r)
  | Exn x _ m' => call f a (world m) (world m') (inr x)
  end.
Proof.
  intros Hacc n f a c m.
  exact (h_invoke _ _ _ _ _ (all_ok false body o ptc_void (off _) (off _) Hacc (off _) n) f a c m).
Qed.

Theorem completed : forall f a w w' rr, call f a w w' rr -> forall c m, world m = w ->
  exists m' n0, world m' = w' /\
    match rr with
    | inl r => stk m' = [ref_of r] /\ forall n, (n0 <= n)%nat -> run false body o n (JInvoke f a c) m = Go c m'
    | inr y => forall n, (n0 <= n)%nat -> run false body o n (JInvoke f a c) m = Exn y c m'
    end.
Proof.
  intros f a w w' rr H c m Hm. destruct (complete _ _ _ _ _ _ _ H c m Hm) as [m' [Hw Hr]].
  destruct rr as [r|y].
  - destruct Hr as [[n0 Hr] Hs]. exists m', n0. auto.
  - destruct Hr as [n0 Hr]. exists m', n0. auto.
Qed.

Lemma ref_of_inj : forall r r' : @result R, @ref_of W E R X A F It r = ref_of r' -> r = r'.
Proof. intros [|r] [|r'] H; simpl in H; congruence. Qed.

Theorem deterministic : inhabited ctx -> forall f a w w1 w2 r1 r2,
  call f a w w1 r1 -> call f a w w2 r2 -> w1 = w2 /\ r1 = r2.
Proof.
  intros [c] f a w w1 w2 r1 r2 H1 H2.
  set (m := @mk_mst W E R X A F It w st_next [] 0 0).
  destruct (completed _ _ _ _ _ H1 c m eq_refl) as [m1 [n1 [Hw1 Hr1]]].
  destruct (completed _ _ _ _ _ H2 c m eq_refl) as [m2 [n2 [Hw2 Hr2]]].
  destruct r1 as [r1|y1], r2 as [r2|y2].
  - destruct Hr1 as [Hs1 Hr1], Hr2 as [Hs2 Hr2].
    specialize (Hr1 (n1 + n2)%nat ltac:(lia)). specialize (Hr2 (n1 + n2)%nat ltac:(lia)).
    rewrite Hr1 in Hr2. injection Hr2 as <-. rewrite Hs1 in Hs2. injection Hs2 as Hs2.
    apply ref_of_inj in Hs2. split; [congruence|f_equal; assumption].
  - destruct Hr1 as [Hs1 Hr1].
    specialize (Hr1 (n1 + n2)%nat ltac:(lia)). specialize (Hr2 (n1 + n2)%nat ltac:(lia)). congruence.
  - destruct Hr2 as [Hs2 Hr2].
    specialize (Hr1 (n1 + n2)%nat ltac:(lia)). specialize (Hr2 (n1 + n2)%nat ltac:(lia)). congruence.
  - specialize (Hr1 (n1 + n2)%nat ltac:(lia)). specialize (Hr2 (n1 + n2)%nat ltac:(lia)).
    rewrite Hr1 in Hr2. injection Hr2 as <- <-. split; [congruence|reflexivity].
Qed.

Theorem block : (forall f, forallb (accepted scope_plain) (body f) = true) ->
  forall n fl q l c m, forallb (accepted fl) l = true -> q = ptc_none \/ q = ptc_void ->
  match run false body o n (JBlock (gen_list (gen false) q [] l) c) m with
  | Fuel => True
  | Bad => False
  | Go c' m' => c' = c /\ exists e' ds w1 r,
      stmts (names c) [] l (world m) e' ds w1 r /\ evaluated ds w1 (world m') [] /\ matches r m'
  | Exn x c' m' => c' = c /\ exists e' ds w1 r xs,
      stmts (names c) [] l (world m) e' ds w1 r /\ evaluated ds w1 (world m') xs
      /\ last (map (@OThrow R X) xs) r = OThrow x
  end.
Proof.
  intros Hacc n fl q l c m Hl Hq.
  pose proof (h_block _ _ _ _ _ (all_ok false body o ptc_void (off _) (off _) Hacc (off _) n) q l c m) as H.
  assert (Hok : ok false ptc_void q l).
  { split; [split; [exists fl; assumption|assumption]|discriminate]. }
  assert (Hone : one false l) by (intros Hf; discriminate Hf).
  specialize (H Hok Hone). unfold FlowProofs1.code in H.
  destruct (run false body o n (JBlock (gen_list (gen false) q [] l) c) m) as [c' m'|x c' m'| |]; try exact H.
  - destruct H as [-> [[r [H1 H2]]|[ov [_ [Hf _]]]]]; [|discriminate]. split; [reflexivity|].
    apply scope_evaluated in H1. destruct H1 as [e' [ds [w1 [r0 [xs [Ha [Hb ->]]]]]]].
    destruct xs as [|x xs].
    + exists e', ds, w1, r0. split; [assumption|]. split; [assumption|exact H2].
    + exfalso. rewrite last_map in H2. clear - H2. revert x H2. induction xs as [|y xs IH]; intros x H2.
      * exact H2.
      * rewrite last_map in H2. exact (IH _ H2).
  - destruct H as [-> H]. split; [reflexivity|].
    apply scope_evaluated in H. destruct H as [e' [ds [w1 [r0 [xs [Ha [Hb Hx]]]]]]].
    exists e', ds, w1, r0, xs. auto.
Qed.

Theorem tail_calls : (forall f, forallb (accepted scope_plain) (body f) = true) ->
  forall md, md = ptc_by_val \/ md = ptc_void ->
  (forall w v, value o w (temp o v) = inl v) ->
  (forall f, harmless md (body f) = true) ->
  forall n f a c m,
  match run true body o n (JInvoke f a c) m with
  | Fuel => True
  | Bad => False
  | Go _ m' => exists m1 n0, world m1 = world m' /\ stk m1 = stk m' /\
      forall n, (n0 <= n)%nat -> run false body o n (JInvoke f a c) m = Go c m1
  | Exn x _ m' => exists m1 n0, world m1 = world m' /\
      forall n, (n0 <= n)%nat -> run false body o n (JInvoke f a c) m = Exn x c m1
  end.
Proof.
  intros Hacc md Hmd Htemp Hharm n f a c m.
  pose proof (h_invoke _ _ _ _ _ (all_ok true body o md (fun _ => Hmd) (fun _ => Htemp) Hacc (fun _ => Hharm) n) f a c m) as H.
  destruct (run true body o n (JInvoke f a c) m) as [c' m'|x c' m'| |]; try exact H.
  - destruct H as [r [Hs H]]. destruct (completed _ _ _ _ _ H c m eq_refl) as [m1 [n0 [Hw [Hs1 Hr]]]].
    exists m1, n0. split; [assumption|]. split; [congruence|assumption].
  - destruct (completed _ _ _ _ _ H c m eq_refl) as [m1 [n0 [Hw Hr]]]. exists m1, n0. auto.
Qed.

End Proofs.
