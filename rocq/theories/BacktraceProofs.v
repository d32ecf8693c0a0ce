From Verif Require Import Base Text Monad FmtModel FmtSpec FmtProofs1 BacktraceModel BacktraceSpec.
Local Open Scope Z_scope.

Lemma dec_length k : forall n, length (dec k n) = k.
Proof. induction k as [|k IH]; intros n; cbn [dec]; [reflexivity|]. rewrite app_length, IH. cbn. lia. Qed.
Lemma decimal_mono a b t u : a <= b -> decimal a t -> decimal b u -> (length t <= length u)%nat.
Proof.
  intros L (k & -> & _ & K) (m & -> & M & _). rewrite !dec_length. destruct (Nat.eq_dec k 0) as [->|N]; [lia|]. specialize (K N).
  assert (10 ^ Z.of_nat k < 10 ^ Z.of_nat (S m)) by lia. apply Z.pow_lt_mono_r_iff in H; lia.
Qed.
Lemma decimal_20 v t : 0 <= v < 2 ^ 64 -> decimal v t -> (length t <= 20)%nat.
Proof.
  intros B (k & -> & _ & K). rewrite dec_length. destruct (Nat.le_gt_cases (S k) 20) as [|G]; [assumption|]. exfalso.
  specialize (K ltac:(lia)). assert (10 ^ 20 <= 10 ^ Z.of_nat k) by (apply Z.pow_le_mono_r; lia). assert (2 ^ 64 < 10 ^ 20) by reflexivity. lia.
Qed.
Lemma shown_ok v : Z.of_nat (length v) < 2 ^ 63 -> exists t, shown v = Ok t /\ abridged v t.
Proof.
  intros B. unfold shown. destruct (Z.ltb_spec 80 (Z.of_nat (length v))) as [L|L]; [|exists v; split; [reflexivity|left; auto]].
  assert (2 ^ 63 < 2 ^ 64) by reflexivity.
  destruct (put_DU_1 (Z.of_nat (length v) - 60)) as (n & E & D); [lia|]. rewrite E. cbn [obind]. eexists. split; [reflexivity|]. right.
  exists (firstn 60 v), (skipn 60 v), n. split; [symmetry; apply firstn_skipn|]. rewrite firstn_length, skipn_length. split; [lia|]. split; [lia|].
  split; [|reflexivity]. now replace (Z.of_nat (length v - 60)) with (Z.of_nat (length v) - 60) by lia.
Qed.
Lemma firstn_repeat {X} (x : X) j : forall i u, (i <= j)%nat -> firstn i (repeat x j ++ u) = repeat x i.
Proof. induction j as [|j IH]; intros [|i] u L; cbn; try reflexivity; try lia. f_equal. apply IH. lia. Qed.
Lemma lines_ok w N n0 : decimal N n0 -> w = length n0 -> N < 2 ^ 63 -> forall fs k j (u : bytes),
  Forall (fun f => Z.of_nat (length (fvalue f)) < 2 ^ 63) fs -> 0 <= k -> k + Z.of_nat (length fs) = N ->
  (j + length u)%nat = w -> (forall t, decimal (k + 1) t -> (length u <= length t)%nat) ->
  exists l, lines (repeat 32 j ++ u) k fs = Ok l /\ all_lines w (k + 1) fs l.
Proof.
  intros D0 W B. assert (2 ^ 63 < 2 ^ 64) by reflexivity.
  induction fs as [|f fs IH]; intros k j u F K E J U; cbn [lines]; [exists []; split; [reflexivity|constructor]|].
  cbn [length] in E. destruct (put_DU_1 (k + 1)) as (n & -> & D); [lia|]. cbn [obind].
  pose proof (decimal_mono (k + 1) N n n0 ltac:(lia) D D0) as LN. pose proof (U n D) as LU.
  unfold copy_backward. rewrite app_length, repeat_length, J. destruct (Nat.leb_spec (length n) w); [|lia]. cbn [obind].
  rewrite firstn_repeat by lia. destruct (shown_ok (fvalue f) (Forall_inv F)) as (v & -> & A). cbn [obind].
  destruct (IH (k + 1) (w - length n)%nat n (Forall_inv_tail F) ltac:(lia) ltac:(lia) ltac:(lia)) as (l & -> & AL).
  { intros t T. apply (decimal_mono (k + 1) (k + 1 + 1)); [lia|exact D|exact T]. }
  cbn [obind]. eexists. split; [reflexivity|].
  match goal with |- all_lines _ _ _ ?x => replace x with (([10] ++ str "  " ++ (repeat 32 (w - length n) ++ n) ++ str ") " ++ ftype f ++ str " at '" ++ sloc f ++ str "': " ++ v) ++ l) by (rewrite <- !app_assoc; reflexivity) end.
  constructor; [|exact AL]. exists (w - length n)%nat, n, v. repeat split; auto. lia.
Qed.
Lemma message_ok e : fits e -> exists m, message e = Ok m /\ says e m.
Proof.
  intros [B F]. unfold message. assert (2 ^ 63 < 2 ^ 64) by reflexivity. destruct (put_DU_1 (Z.of_nat (length (frames e)))) as (n & -> & D); [lia|]. cbn [obind].
  pose proof (decimal_20 (Z.of_nat (length (frames e))) n ltac:(lia) D). destruct (Nat.leb_spec (length n + 1) 24); [|lia].
  destruct (lines_ok (length n) _ n D eq_refl B (frames e) 0 (length n) [] F ltac:(lia) ltac:(lia) ltac:(cbn; lia) ltac:(cbn; lia)) as (l & E & A).
  rewrite app_nil_r in E. rewrite E. cbn [obind]. eexists. split; [reflexivity|]. exists n, l. auto.
Qed.

(* order *)
Lemma inner_ok ps : forall e a b, Forall (fun p => exists f, p = Inner f) ps -> frames e = a ++ b -> frame_ins e = length a ->
  exists e', push_all e ps = Ok e' /\ thrown e' = thrown e /\ frames e' = (a ++ map the_frame ps) ++ b /\ frame_ins e' = length (a ++ map the_frame ps).
Proof.
  induction ps as [|p ps IH]; intros e a b P F I; cbn [push_all map]; [exists e; rewrite app_nil_r; auto|].
  destruct (Forall_inv P) as (f & ->). cbn [push_frame]. unfold insert_frame. rewrite F, I, app_length. destruct (Nat.leb_spec (length a) (length a + length b)); [|lia]. cbn [obind].
  rewrite firstn_app, skipn_app, Nat.sub_diag, firstn_all, skipn_all. cbn [firstn skipn app]. rewrite app_nil_r.
  destruct (IH (Error (thrown e) (a ++ f :: b) (length a + 1)) (a ++ [f]) b (Forall_inv_tail P)) as (e' & E & T & F' & I').
  { cbn [frames]. now rewrite <- app_assoc. } { cbn [frame_ins]. now rewrite app_length. }
  exists e'. split; [exact E|]. split; [exact T|]. change (a ++ the_frame (Inner f) :: map the_frame ps) with (a ++ [f] ++ map the_frame ps).
  rewrite app_assoc. split; [exact F'|exact I'].
Qed.
Lemma end_ok ps : forall e, frame_ins e = length (frames e) -> exists e', push_all e ps = Ok e' /\ thrown e' = thrown e /\ frames e' = frames e ++ map the_frame ps.
Proof.
  induction ps as [|p ps IH]; intros e I; cbn [push_all map]; [exists e; rewrite app_nil_r; auto|].
  assert (H : exists e1, push_frame e p = Ok e1 /\ thrown e1 = thrown e /\ frames e1 = frames e ++ [the_frame p] /\ frame_ins e1 = length (frames e1)).
  { destruct p as [f|f]; cbn [push_frame the_frame]; unfold insert_frame; rewrite I, Nat.leb_refl, firstn_all, skipn_all; cbn [obind frames frame_ins thrown];
      eexists; (split; [reflexivity|]); cbn [frames frame_ins thrown]; rewrite ?app_length; auto. }
  destruct H as (e1 & -> & T1 & F1 & I1). cbn [obind]. destruct (IH e1 I1) as (e' & E & T & F'). exists e'. rewrite T1 in T. rewrite F1, <- app_assoc in F'. auto.
Qed.
Lemma push_app ps : forall e qs, push_all e (ps ++ qs) = obind (push_all e ps) (fun e => push_all e qs).
Proof. induction ps as [|p ps IH]; intros e qs; cbn [push_all app]; [reflexivity|]. destruct (push_frame e p); cbn [obind]; auto. Qed.
Lemma split_inner ps : Forall (fun p => exists f, p = Inner f) ps \/ exists a f b, ps = a ++ Outer f :: b /\ Forall (fun p => exists f, p = Inner f) a.
Proof.
  induction ps as [|[f|f] ps IH]; [left; constructor| |right; exists [], f, ps; auto].
  destruct IH as [F|(a & g & b & -> & F)]; [left; constructor; eauto|right; exists (Inner f :: a), g, b; split; [reflexivity|constructor; eauto]].
Qed.
Lemma order_ok t nested f ps : exists e0 e, create t nested f = Ok e0 /\ push_all e0 ps = Ok e /\ thrown e = t /\
  ordered (match nested with Some n => frames n | None => [] end) (Inner f :: ps) (frames e).
Proof.
  set (ns := match nested with Some n => frames n | None => [] end). unfold create, insert_frame. cbn [frames frame_ins]. fold ns. cbn [Nat.leb firstn skipn app thrown Nat.add].
  eexists. enough (H : exists e, push_all (Error t (f :: ns) 1) ps = Ok e /\ thrown e = t /\ ordered ns (Inner f :: ps) (frames e)) by (destruct H as (e & H); exists e; split; [reflexivity|exact H]).
  destruct (split_inner ps) as [F|(a & g & b & -> & F)].
  - destruct (inner_ok ps (Error t (f :: ns) 1) [f] ns F eq_refl eq_refl) as (e & E & T & Fr & _). exists e. split; [exact E|]. split; [exact T|]. rewrite Fr.
    apply (O_open ns (Inner f :: ps)). constructor; eauto.
  - destruct (inner_ok a (Error t (f :: ns) 1) [f] ns F eq_refl eq_refl) as (e1 & E1 & T1 & F1 & I1).
    rewrite push_app, E1. cbn [obind push_all push_frame]. unfold insert_frame. rewrite F1, I1.
    remember ([f] ++ map the_frame a) as x eqn:X. replace (length x <=? length (x ++ ns))%nat with true by (rewrite app_length; symmetry; apply Nat.leb_le; lia).
    rewrite firstn_app, skipn_app, Nat.sub_diag, firstn_all, skipn_all. cbn [firstn skipn obind frames thrown]. rewrite app_nil_r, app_nil_l.
    set (e2 := Error _ _ _). destruct (end_ok b e2 eq_refl) as (e & E & T & Fr). exists e. split; [exact E|]. split; [rewrite T; exact T1|]. rewrite Fr. unfold e2. cbn [frames].
    rewrite X, <- app_assoc. apply (O_closed ns (Inner f :: a) g b). constructor; eauto.
Qed.
Lemma inner_prefix a : forall b f g c d, Forall (fun p => exists f, p = Inner f) a -> Forall (fun p => exists f, p = Inner f) b ->
  a ++ Outer f :: c = b ++ Outer g :: d -> a = b /\ f = g /\ c = d.
Proof.
  induction a as [|x a IH]; intros [|y b] f g c d A B E; cbn in E; inversion E; subst.
  - auto.
  - destruct (Forall_inv B) as (? & [=]).
  - destruct (Forall_inv A) as (? & [=]).
  - destruct (IH b f g c d (Forall_inv_tail A) (Forall_inv_tail B) H1) as (-> & -> & ->). auto.
Qed.
Lemma ordered_unique ns ps a b : ordered ns ps a -> ordered ns ps b -> a = b.
Proof.
  intros [qs Q|qs f rs Q] B; inversion B as [xs X E1 E2|xs g ys X E1 E2]; subst; auto.
  - apply Forall_app in Q. destruct Q as [_ Q]. destruct (Forall_inv Q) as (? & [=]).
  - apply Forall_app in X. destruct X as [_ X]. destruct (Forall_inv X) as (? & [=]).
  - destruct (inner_prefix _ _ _ _ _ _ X Q E1) as (-> & -> & ->). auto.
Qed.
