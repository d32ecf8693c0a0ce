From Verif Require Import Base Lists SortModel SortSpec.

Lemma split_two {A : Type} bs (l : list A) : (0 < bs)%nat -> (bs < length l)%nat ->
  let b0 := firstn bs l in let l1 := skipn bs l in
  let n1 := Nat.min (length l1) bs in
  let b1 := firstn n1 l1 in let l2 := skipn n1 l1 in
  l = b0 ++ b1 ++ l2 /\ length b0 = bs /\ length b1 = n1 /\ (0 < n1 <= bs)%nat /\ (length l2 < length l)%nat /\
  (l2 <> [] -> length b1 = bs).
Proof.
  intros Hb Hl b0 l1 n1 b1 l2.
  assert (L1 : length l1 = (length l - bs)%nat) by (unfold l1; rewrite skipn_length; lia).
  assert (N1 : (0 < n1 <= bs)%nat) by (unfold n1; lia).
  assert (B1 : length b1 = n1) by (unfold b1; rewrite firstn_length; lia).
  assert (L2 : length l2 = (length l1 - n1)%nat) by (unfold l2; rewrite skipn_length; lia).
  repeat split; try lia.
  - unfold b1, l2. rewrite firstn_skipn. unfold b0, l1. rewrite firstn_skipn. reflexivity.
  - unfold b0. rewrite firstn_length. lia.
  - intros N. destruct l2; [contradiction|]. cbn [length] in L2. unfold n1 in *. lia.
Qed.

(* ---- arbitrary comparators ---- *)
Section Any.
Context {A St : Type}.
Variable comp : St -> A -> A -> St * option compare.

(* r: no UB; a normal result contains `all` except for some dropped elements *)
Definition good (u : bool) (all : list A) (r : St * outcome (list A)) : Prop :=
  match snd r with
  | UB => False
  | Throw => True
  | Ok out => exists d, Permutation (out ++ d) all /\ (u = false -> d = [])
  end.

Lemma output_element_good u st out x : good u (x :: out) (output_element comp u st out x).
Proof.
  unfold output_element. destruct u; [|exists []; rewrite app_nil_r; auto].
  destruct out as [|p out]; [exists []; cbn; split; [reflexivity|auto]|].
  destruct (comp st p x) as [st' [[]|]]; cbn.
  - exists []; rewrite app_nil_r; auto.
  - exists [x]. split; [|discriminate]. cbn. rewrite <- Permutation_middle, app_nil_r. constructor 3.
  - exists []; rewrite app_nil_r; auto.
  - auto.
  - auto.
Qed.

Lemma good_cont u all' d (r : St * outcome (list A)) : (u = false -> d = []) ->
  (exists all2, good u all2 r /\ Permutation (all2 ++ d) all') -> good u all' r.
Proof.
  intros D (all2 & G & P2).
  destruct r as [st2 [out2| |]]; cbn in *; auto.
  destruct G as (d2 & P3 & D2). exists (d2 ++ d). split.
  - rewrite app_assoc, P3. exact P2.
  - intros E. rewrite (D E), (D2 E). reflexivity.
Qed.
Ltac gstep L := 
  let G := fresh "G" in pose proof L as G;
  match type of G with good _ _ ?r => destruct r as [st' [out'| |]]; unfold good in G; cbn in G; cbv beta iota; [|exact I|exact G] end;
  let P := fresh "P" in let D := fresh "D" in
  destruct G as (d & P & D); apply (good_cont _ _ d); [exact D|].

Lemma output_all_good u l : forall st out, good u (l ++ out) (output_all comp u st out l).
Proof.
  induction l as [|x t IH]; intros st out; cbn [output_all].
  - exists []. rewrite app_nil_r; auto.
  - gstep (output_element_good u st out x). exists (t ++ out'). split; [apply IH|].
    rewrite <- app_assoc, P. cbn. rewrite Permutation_middle. reflexivity.
Qed.

Lemma merge_two_good u fuel : forall st out b0 b1, b0 <> [] -> b1 <> [] ->
  (length b0 + length b1 <= fuel)%nat ->
  good u (b0 ++ b1 ++ out) (merge_two comp u fuel st out b0 b1).
Proof.
  induction fuel as [|fuel IH]; intros st out b0 b1 N0 N1 HF.
  - destruct b0; [contradiction|cbn in HF; lia].
  - destruct b0 as [|x t0]; [contradiction|]. destruct b1 as [|y t1]; [contradiction|].
    cbn [merge_two]. destruct (comp st x y) as [st1 [[]|]]; cbn [length] in HF; try exact I.
    3:{ gstep (output_element_good u st1 out y). destruct t1 as [|y' t1].
        - exists ((x :: t0) ++ out'). split; [apply output_all_good|].
          rewrite <- app_assoc, P. cbn. reflexivity.
        - exists ((x :: t0) ++ (y' :: t1) ++ out'). split; [apply IH; try discriminate; cbn [length] in *; lia|].
          rewrite <- !app_assoc, P. cbn. apply perm_skip. apply Permutation_app_head.
          apply Permutation_sym. apply (Permutation_middle (y' :: t1)). }
    all: gstep (output_element_good u st1 out x); destruct t0 as [|x' t0].
    1,3: exists ((y :: t1) ++ out'); split; [apply output_all_good|]; rewrite <- app_assoc, P;
         apply Permutation_sym; exact (Permutation_middle (y :: t1) out x).
    all: exists ((x' :: t0) ++ (y :: t1) ++ out'); split; [apply IH; try discriminate; cbn [length] in *; lia|].
    all: rewrite <- !app_assoc, P;
         pose proof (Permutation_middle ((x' :: t0) ++ (y :: t1)) out x) as PM;
         rewrite <- !app_assoc in PM; exact (Permutation_sym PM).
Qed.

Lemma merge_pairs_good u bs fuel : (0 < bs)%nat -> forall st out l, (length l < fuel)%nat ->
  good u (l ++ out) (merge_pairs comp u bs fuel st out l).
Proof.
  intros Hb. induction fuel as [|fuel IH]; intros st out l HF; [lia|].
  cbn [merge_pairs]. destruct (Nat.ltb_spec bs (length l)) as [L|G]; [|apply output_all_good].
  pose proof (split_two bs l Hb L) as S. cbv zeta in S. cbv zeta.
  set (b0 := firstn bs l) in *. set (l1 := skipn bs l) in *.
  set (n1 := Nat.min (length l1) bs) in *. set (b1 := firstn n1 l1) in *. set (l2 := skipn n1 l1) in *.
  destruct S as (E & B0 & B1 & N1 & L2 & _).
  assert (X0 : b0 <> []) by (intros Z0; rewrite Z0 in B0; cbn in B0; lia).
  assert (X1 : b1 <> []) by (intros Z1; rewrite Z1 in B1; cbn in B1; lia).
  gstep (merge_two_good u (length b0 + length b1) st out b0 b1 X0 X1 (le_n _)).
  - exists (l2 ++ out'). split; [apply IH; lia|].
    rewrite <- app_assoc, P. rewrite E at 1. rewrite <- !app_assoc.
    rewrite (Permutation_app_comm b1 (l2 ++ out)). rewrite <- app_assoc.
    rewrite app_assoc, (Permutation_app_comm l2 b0), <- app_assoc.
    apply Permutation_app_head. apply Permutation_app_head. apply Permutation_app_comm.
Qed.
Lemma merge_blocks_good u bs st l : (0 < bs)%nat -> good u l (merge_blocks comp u bs st l).
Proof.
  intros Hb. unfold merge_blocks.
  pose proof (merge_pairs_good u bs (S (length l)) Hb st [] l ltac:(lia)) as G.
  rewrite app_nil_r in G.
  destruct (merge_pairs comp u bs (S (length l)) st [] l) as [st' [out| |]]; cbn in *; auto.
  destruct G as (d & P & D). exists d. split; auto. rewrite <- Permutation_rev. exact P.
Qed.

Lemma sort_loop_good fuel : forall bs st l, (0 < bs)%nat -> (length l <= bs + fuel)%nat ->
  good false l (sort_loop comp fuel bs st l).
Proof.
  induction fuel as [|fuel IH]; intros bs st l Hb HF; cbn [sort_loop].
  - destruct (Nat.ltb_spec bs (length l)); [lia|]. exists []. rewrite app_nil_r; auto.
  - destruct (Nat.ltb_spec bs (length l)); [|exists []; rewrite app_nil_r; auto].
    gstep (merge_blocks_good false bs st l Hb). rewrite (D eq_refl), app_nil_r in *. exists out'.
    split; [|rewrite app_nil_r; auto]. apply IH; [lia|].
    rewrite (Permutation_length P). lia.
Qed.
Lemma usort_loop_good fuel : forall bs st l, (0 < bs)%nat -> (length l <= bs + fuel)%nat ->
  good true l (usort_loop comp fuel bs st l).
Proof.
  induction fuel as [|fuel IH]; intros bs st l Hb HF; cbn [usort_loop].
  - destruct (Nat.ltb_spec (bs * 2) (length l)); [lia|]. apply merge_blocks_good; auto.
  - destruct (Nat.ltb_spec (bs * 2) (length l)); [|apply merge_blocks_good; auto].
    pose proof (merge_blocks_good false bs st l Hb) as G.
    destruct (merge_blocks comp false bs st l) as [st' [out| |]]; cbn in G |- *; auto.
    destruct G as (d & P & D). rewrite (D eq_refl), app_nil_r in P.
    pose proof (IH (bs * 2)%nat st' out ltac:(lia) ltac:(rewrite (Permutation_length P); lia)) as G.
    unfold good in *. destruct (snd (usort_loop comp fuel (bs * 2) st' out)); auto.
    destruct G as (d2 & P2 & D2). exists d2. split; auto. rewrite P2. exact P.
Qed.
Lemma sort_any st l : match snd (array_sort comp st l) with
  | Ok out => Permutation l out | Throw => True | UB => False end.
Proof.
  unfold array_sort. destruct (Nat.leb_spec (length l) 1); [cbn; reflexivity|].
  pose proof (sort_loop_good (length l) 1 st l ltac:(lia) ltac:(lia)) as G. unfold good in G.
  destruct (snd _); auto. destruct G as (d & P & D). rewrite (D eq_refl), app_nil_r in P.
  symmetry. exact P.
Qed.
Lemma usort_any st l : match snd (array_usort comp st l) with
  | Ok out => exists dropped, Permutation l (out ++ dropped) | Throw => True | UB => False end.
Proof.
  unfold array_usort. destruct (Nat.leb_spec (length l) 1); [cbn; exists []; rewrite app_nil_r; reflexivity|].
  pose proof (usort_loop_good (length l) 1 st l ltac:(lia) ltac:(lia)) as G. unfold good in G.
  destruct (snd _); auto. destruct G as (d & P & D). exists d. symmetry. exact P.
Qed.
End Any.

(* ---- consistent comparators ---- *)
Section Pure.
Context {A St : Type}.
Variable c : A -> A -> compare.
Hypothesis TP : total_preorder c.
Notation comp := (pure (St := St) c).
Notation le := (not_after c).

Lemma c_refl x : c x x = Equal.
Proof.
  pose proof (tp_flip c TP x x) as F. pose proof (tp_total c TP x x). destruct (c x x); cbn in F; congruence.
Qed.
Lemma le_refl x : le x x. Proof. unfold not_after. rewrite c_refl. discriminate. Qed.
Lemma le_trans x y z : le x y -> le y z -> le x z. Proof. apply (tp_trans c TP). Qed.
Lemma gt_le x y : c x y = Greater -> le y x.
Proof. intros H. unfold not_after. rewrite (tp_flip c TP x y), H. discriminate. Qed.
Lemma le_not_gt x y : c x y <> Greater <-> le x y. Proof. reflexivity. Qed.
Lemma eq_sym x y : c x y = Equal -> c y x = Equal.
Proof. intros H. rewrite (tp_flip c TP x y), H. reflexivity. Qed.
Lemma eq_le x y : c x y = Equal -> le x y. Proof. unfold not_after. intros ->. discriminate. Qed.
Lemma le_antisym x y : le x y -> le y x -> c x y = Equal.
Proof.
  unfold not_after. intros H1 H2. rewrite (tp_flip c TP x y) in H2.
  pose proof (tp_total c TP x y). destruct (c x y); cbn in *; congruence.
Qed.
Lemma eq_trans_ x y z : c x y = Equal -> c y z = Equal -> c x z = Equal.
Proof.
  intros H1 H2. apply le_antisym; [eapply le_trans; apply eq_le; eauto|].
  eapply le_trans; apply eq_le; eauto using eq_sym.
Qed.
Lemma lt_le x y : c x y = Less -> le x y. Proof. unfold not_after. intros ->. discriminate. Qed.
Lemma same_gt x y z : c y z = Greater -> same c x y = true -> same c x z = false.
Proof.
  unfold same. intros H E. destruct (c x y) eqn:Exy; try discriminate.
  destruct (c x z) eqn:Exz; try reflexivity. exfalso.
  assert (c y z = Equal) by (eapply eq_trans_; eauto using eq_sym). congruence.
Qed.

(* functional reference for merging two blocks *)
Fixpoint merge (a : list A) : list A -> list A :=
  match a with
  | [] => fun b => b
  | x :: a' =>
    fix merge_b (b : list A) : list A :=
      match b with
      | [] => x :: a'
      | y :: b' => if cmp_eqb (c x y) Greater then y :: merge_b b' else x :: merge a' b
      end
  end.
Lemma merge_nil_r a : merge a [] = a. Proof. destruct a; reflexivity. Qed.
Lemma merge_cons x a y b :
  merge (x :: a) (y :: b) = if cmp_eqb (c x y) Greater then y :: merge (x :: a) b else x :: merge a (y :: b).
Proof. reflexivity. Qed.

Lemma merge_two_pure u fuel : forall st out b0 b1, b0 <> [] -> b1 <> [] ->
  (length b0 + length b1 <= fuel)%nat ->
  merge_two comp u fuel st out b0 b1 = output_all comp u st out (merge b0 b1).
Proof.
  induction fuel as [|fuel IH]; intros st out b0 b1 N0 N1 HF.
  - destruct b0; [contradiction|cbn in HF; lia].
  - destruct b0 as [|x t0]; [contradiction|]. destruct b1 as [|y t1]; [contradiction|].
    cbn [merge_two]. unfold pure at 1. rewrite merge_cons.
    pose proof (tp_total c TP x y). cbn [length] in HF.
    destruct (c x y) eqn:E; cbn [cmp_eqb]; try congruence; cbn [output_all].
    3:{ destruct (output_element comp u st out y) as [st1 [out1| |]]; try reflexivity.
        destruct t1 as [|y' t1]; [rewrite merge_nil_r; reflexivity|].
        apply IH; try discriminate. cbn [length] in *; lia. }
    all: destruct (output_element comp u st out x) as [st1 [out1| |]]; try reflexivity;
         destruct t0 as [|x' t0]; [reflexivity|]; apply IH; try discriminate; cbn [length] in *; lia.
Qed.

Lemma output_all_app u a : forall st out b,
  output_all comp u st out (a ++ b) =
  match output_all comp u st out a with (st, Ok out) => output_all comp u st out b | r => r end.
Proof.
  induction a as [|x t IH]; intros st out b; cbn [output_all app]; [reflexivity|].
  destruct (output_element comp u st out x) as [st1 [out1| |]]; auto.
Qed.

(* functional reference for one pass over all pairs of blocks *)
Fixpoint pass (bs : nat) (fuel : nat) (l : list A) : list A :=
  match fuel with
  | O => l
  | S fuel =>
    if (bs <? length l)%nat then
      let l1 := skipn bs l in
      let n1 := Nat.min (length l1) bs in
      merge (firstn bs l) (firstn n1 l1) ++ pass bs fuel (skipn n1 l1)
    else l
  end.

Lemma merge_pairs_pure u bs fuel : (0 < bs)%nat -> forall st out l, (length l < fuel)%nat ->
  merge_pairs comp u bs fuel st out l = output_all comp u st out (pass bs fuel l).
Proof.
  intros Hb. induction fuel as [|fuel IH]; intros st out l HF; [lia|].
  cbn [merge_pairs pass]. destruct (Nat.ltb_spec bs (length l)) as [L|G]; [|reflexivity].
  pose proof (split_two bs l Hb L) as S. cbv zeta in S. cbv zeta.
  set (b0 := firstn bs l) in *. set (l1 := skipn bs l) in *.
  set (n1 := Nat.min (length l1) bs) in *. set (b1 := firstn n1 l1) in *. set (l2 := skipn n1 l1) in *.
  destruct S as (E & B0 & B1 & N1 & L2 & _).
  rewrite merge_two_pure; [|intros Z0; rewrite Z0 in B0; cbn in B0; lia|intros Z1; rewrite Z1 in B1; cbn in B1; lia|lia].
  rewrite output_all_app. destruct (output_all comp u st out (merge b0 b1)) as [st1 [out1| |]]; try reflexivity.
  apply IH. lia.
Qed.
Lemma output_all_false l : forall st out, output_all comp false st out l = (st, Ok (rev l ++ out)).
Proof.
  induction l as [|x t IH]; intros st out; cbn [output_all output_element rev]; [reflexivity|].
  rewrite IH, <- app_assoc. reflexivity.
Qed.
Lemma merge_blocks_pure bs st l : (0 < bs)%nat ->
  merge_blocks comp false bs st l = (st, Ok (pass bs (S (length l)) l)).
Proof.
  intros Hb. unfold merge_blocks. rewrite merge_pairs_pure by lia.
  rewrite output_all_false, app_nil_r, rev_involutive. reflexivity.
Qed.

(* merging *)
Lemma merge_perm a : forall b, Permutation (a ++ b) (merge a b).
Proof.
  induction a as [|x a IHa]; [reflexivity|]. induction b as [|y b IHb].
  - rewrite merge_nil_r, app_nil_r. reflexivity.
  - rewrite merge_cons. destruct (cmp_eqb (c x y) Greater).
    + rewrite <- IHb. symmetry. apply (Permutation_middle (x :: a)).
    + cbn [app]. apply perm_skip, IHa.
Qed.
Lemma merge_Forall (P : A -> Prop) a b : Forall P a -> Forall P b -> Forall P (merge a b).
Proof.
  intros Ha Hb. rewrite Forall_forall in *. intros x Hx.
  apply (Permutation_in _ (Permutation_sym (merge_perm a b))) in Hx. apply in_app_or in Hx. intuition.
Qed.
Lemma merge_sorted a : forall b, StronglySorted le a -> StronglySorted le b -> StronglySorted le (merge a b).
Proof.
  induction a as [|x a IHa]; [auto|]. induction b as [|y b IHb]; intros Ha Hb.
  - rewrite merge_nil_r. exact Ha.
  - rewrite merge_cons. inversion Ha as [|? ? Sa Fa]; subst. inversion Hb as [|? ? Sb Fb]; subst.
    destruct (c x y) eqn:E; cbn [cmp_eqb].
    3:{ constructor; [apply IHb; auto|]. pose proof (gt_le x y E) as L.
        apply merge_Forall; auto. constructor; auto.
        rewrite Forall_forall in *. intros z Hz. eapply le_trans; eauto. }
    all: assert (L : le x y) by (unfold not_after; rewrite E; discriminate).
    all: constructor; [apply IHa; auto|]; apply merge_Forall; auto; constructor; auto;
         rewrite Forall_forall in *; intros z Hz; eapply le_trans; eauto.
Qed.
Lemma filter_none (p : A -> bool) l : (forall x, In x l -> p x = false) -> filter p l = [].
Proof.
  induction l as [|x t IH]; intros H; cbn; [reflexivity|]. rewrite (H x) by (left; auto).
  apply IH. intros z Hz; apply H; right; auto.
Qed.
Lemma filter_cons_ (p : A -> bool) x l : filter p (x :: l) = if p x then x :: filter p l else filter p l.
Proof. reflexivity. Qed.
Lemma merge_filter z a : forall b, StronglySorted le a -> StronglySorted le b ->
  filter (same c z) (merge a b) = filter (same c z) a ++ filter (same c z) b.
Proof.
  induction a as [|x a IHa]; [reflexivity|]. induction b as [|y b IHb]; intros Ha Hb.
  - rewrite merge_nil_r, app_nil_r. reflexivity.
  - rewrite merge_cons. inversion Ha as [|? ? Sa Fa]; subst. inversion Hb as [|? ? Sb Fb]; subst.
    destruct (c x y) eqn:E; cbn [cmp_eqb].
    3:{ rewrite (filter_cons_ _ y), IHb, (filter_cons_ _ y) by auto. destruct (same c z y) eqn:Ey; [|reflexivity].
        (* nothing in x :: a is the same as z *)
        rewrite (filter_none _ (x :: a)); [reflexivity|]. intros w Hw.
        destruct (same c z w) eqn:Ew; auto. exfalso.
        assert (Lxw : le x w). { destruct Hw as [<-|Hw]; [apply le_refl|]. rewrite Forall_forall in Fa; auto. }
        unfold same in *. destruct (c z y) eqn:Ezy; try discriminate. destruct (c z w) eqn:Ezw; try discriminate.
        assert (Exy : le x y). { eapply le_trans; [exact Lxw|]. eapply le_trans; [apply eq_le, eq_sym; exact Ezw|apply eq_le; exact Ezy]. }
        apply Exy. exact E. }
    all: cbn [filter]; rewrite IHa by auto; cbn [filter]; destruct (same c z x); reflexivity.
Qed.

(* blocks *)
Inductive sorted_blocks (bs : nat) : list A -> Prop :=
| sb_last l : (length l <= bs)%nat -> StronglySorted le l -> sorted_blocks bs l
| sb_cons a l : length a = bs -> StronglySorted le a -> sorted_blocks bs l -> sorted_blocks bs (a ++ l).

Lemma sorted_blocks_one l : sorted_blocks 1 l.
Proof.
  induction l as [|x t IH]; [apply sb_last; [cbn; lia|constructor]|].
  change (x :: t) with ([x] ++ t). apply sb_cons; auto. repeat constructor.
Qed.
Lemma app_inj_len {B} (a b c' d : list B) : length a = length c' -> a ++ b = c' ++ d -> a = c' /\ b = d.
Proof.
  revert c'. induction a as [|x a IH]; intros [|y c'] L E; cbn in *; try discriminate; auto.
  injection E as -> E. injection L as L. destruct (IH c' L E); subst; auto.
Qed.
Lemma sorted_blocks_split bs b0 rest : (0 < bs)%nat -> length b0 = bs -> rest <> [] ->
  sorted_blocks bs (b0 ++ rest) -> StronglySorted le b0 /\ sorted_blocks bs rest.
Proof.
  intros Hb L N H. remember (b0 ++ rest) as l eqn:E. destruct H as [l HL HS|a l La Sa Sl].
  - exfalso. subst l. rewrite app_length in HL. destruct rest; [contradiction|cbn in HL; lia].
  - apply app_inj_len in E as [-> ->]; [auto|congruence].
Qed.
Lemma sorted_blocks_all bs l : (length l <= bs)%nat -> (0 < bs)%nat -> sorted_blocks bs l -> StronglySorted le l.
Proof.
  intros HL Hb H. destruct H as [l H1 H2|a l La Sa Sl]; auto.
  rewrite app_length in HL. destruct l; [rewrite app_nil_r; auto|cbn in HL; lia].
Qed.

Lemma pass_ok bs fuel : (0 < bs)%nat -> forall l, (length l < fuel)%nat -> sorted_blocks bs l ->
  Permutation l (pass bs fuel l) /\ sorted_blocks (bs * 2) (pass bs fuel l) /\
  forall z, filter (same c z) (pass bs fuel l) = filter (same c z) l.
Proof.
  intros Hb. induction fuel as [|fuel IH]; intros l HF HS; [lia|].
  cbn [pass]. destruct (Nat.ltb_spec bs (length l)) as [L|G].
  2:{ split; [reflexivity|]. split; [|reflexivity]. apply sb_last; [lia|].
      eapply sorted_blocks_all; eauto. }
  pose proof (split_two bs l Hb L) as S. cbv zeta in S. cbv zeta.
  set (b0 := firstn bs l) in *. set (l1 := skipn bs l) in *.
  set (n1 := Nat.min (length l1) bs) in *. set (b1 := firstn n1 l1) in *. set (l2 := skipn n1 l1) in *.
  destruct S as (E & B0 & B1 & N1 & L2 & F1).
  rewrite E in HS.
  assert (NB : b1 ++ l2 <> []). { intros Z0. apply (f_equal (@length A)) in Z0. rewrite app_length in Z0. cbn in Z0. lia. }
  apply sorted_blocks_split in HS as [S0 HS]; auto.
  assert (S1 : StronglySorted le b1 /\ (l2 <> [] -> sorted_blocks bs l2) ).
  { destruct l2 as [|w l2'] eqn:E2.
    - rewrite app_nil_r in HS. split; [|contradiction]. eapply sorted_blocks_all; [| |exact HS]; lia.
    - apply sorted_blocks_split in HS as [? ?]; auto; try discriminate; apply F1; discriminate. }
  destruct S1 as [S1 S2].
  assert (SM : StronglySorted le (merge b0 b1)) by (apply merge_sorted; auto).
  assert (LM : length (merge b0 b1) = (length b0 + length b1)%nat).
  { rewrite <- (Permutation_length (merge_perm b0 b1)), app_length. reflexivity. }
  destruct l2 as [|w l2'] eqn:E2.
  - assert (P0 : pass bs fuel [] = []) by (destruct fuel; reflexivity). rewrite P0, app_nil_r.
    rewrite E. rewrite app_nil_r. split; [apply merge_perm|]. split.
    + apply sb_last; [lia|exact SM].
    + intros z. rewrite merge_filter, filter_app by auto. reflexivity.
  - specialize (F1 ltac:(discriminate)). specialize (S2 ltac:(discriminate)).
    destruct (IH (w :: l2') ltac:(lia) S2) as (P & SB & FF).
    rewrite E. split; [|split].
    + rewrite app_assoc. rewrite (merge_perm b0 b1). apply Permutation_app_head. exact P.
    + apply sb_cons; auto. lia.
    + intros z. rewrite !filter_app, merge_filter, FF, <- app_assoc by auto. reflexivity.
Qed.

Lemma sort_loop_ok fuel : forall bs st l, (0 < bs)%nat -> (length l <= bs + fuel)%nat ->
  sorted_blocks bs l -> exists out, sort_loop comp fuel bs st l = (st, Ok out) /\ is_stable_sort c l out.
Proof.
  induction fuel as [|fuel IH]; intros bs st l Hb HF HS; cbn [sort_loop].
  - destruct (Nat.ltb_spec bs (length l)); [lia|]. exists l. split; [reflexivity|].
    split; [reflexivity|]. split; [|reflexivity]. eapply sorted_blocks_all; [| |exact HS]; lia.
  - destruct (Nat.ltb_spec bs (length l)).
    + rewrite merge_blocks_pure by auto.
      destruct (pass_ok bs (S (length l)) Hb l ltac:(lia) HS) as (P & SB & FF).
      set (temp := pass bs (S (length l)) l) in *.
      destruct (IH (bs * 2)%nat st temp) as (out & E & P2 & S2 & F2); auto; try lia.
      { rewrite <- (Permutation_length P). lia. }
      exists out. split; [exact E|]. split; [rewrite P; exact P2|]. split; [exact S2|].
      intros z. rewrite F2. apply FF.
    + exists l. split; [reflexivity|].
      split; [reflexivity|]. split; [|reflexivity]. eapply sorted_blocks_all; [| |exact HS]; lia.
Qed.
Lemma sort_ok st l : exists out, array_sort comp st l = (st, Ok out) /\ is_stable_sort c l out.
Proof.
  unfold array_sort. destruct (Nat.leb_spec (length l) 1).
  - exists l. split; [reflexivity|]. split; [reflexivity|]. split; [|reflexivity].
    destruct l as [|x [|y t]]; [constructor|repeat constructor|cbn in *; lia].
  - apply sort_loop_ok; try lia. apply sorted_blocks_one.
Qed.

(* usort *)
Fixpoint dedup_from (prev : A) (l : list A) : list A :=
  match l with
  | [] => []
  | x :: t => if same c prev x then dedup_from prev t else x :: dedup_from x t
  end.
Lemma output_all_true l : forall st p out,
  output_all comp true st (p :: out) l = (st, Ok (rev (dedup_from p l) ++ p :: out)).
Proof.
  induction l as [|x t IH]; intros st p out; cbn [output_all dedup_from rev]; [reflexivity|].
  unfold output_element, pure. unfold same. pose proof (tp_total c TP p x).
  destruct (c p x) eqn:E; cbn [cmp_eqb]; try congruence.
  - rewrite IH. cbn [rev]. rewrite <- app_assoc. reflexivity.
  - rewrite IH. reflexivity.
  - rewrite IH. cbn [rev]. rewrite <- app_assoc. reflexivity.
Qed.
Definition dedup (l : list A) : list A := match l with [] => [] | x :: t => x :: dedup_from x t end.
Lemma merge_blocks_true bs st l : (0 < bs)%nat ->
  merge_blocks comp true bs st l = (st, Ok (dedup (pass bs (S (length l)) l))).
Proof.
  intros Hb. unfold merge_blocks. rewrite merge_pairs_pure by lia.
  destruct (pass bs (S (length l)) l) as [|x t]; [reflexivity|].
  cbn [output_all output_element]. rewrite output_all_true. cbn [dedup].
  rewrite rev_app_distr. cbn [rev app]. rewrite rev_involutive. reflexivity.
Qed.
Lemma dedup_from_in p l x : In x (dedup_from p l) -> In x l.
Proof.
  revert p; induction l as [|y t IH]; intros p; cbn; auto.
  destruct (same c p y); [intros H; right; eauto|]. intros [->|H]; auto. right; eauto.
Qed.
Lemma lt_of_le x y z : c x y = Less -> le y z -> c x z = Less.
Proof.
  intros H1 H2. pose proof (tp_total c TP x z).
  assert (L : le x z) by (eapply le_trans; [apply lt_le|]; eauto).
  destruct (c x z) eqn:E; auto; try congruence; try (exfalso; apply L; exact E).
  exfalso. assert (H0 : le y x). { eapply le_trans; [exact H2|]. apply eq_le, eq_sym; exact E. }
  unfold not_after in *. rewrite (tp_flip c TP x y), H1 in H0. apply H0. reflexivity.
Qed.
Lemma dedup_from_ok l : forall p, StronglySorted le l -> Forall (le p) l ->
  Forall (before c p) (dedup_from p l) /\ StronglySorted (before c) (dedup_from p l) /\
  forall z, filter (same c z) (dedup_from p l) = if same c z p then [] else firstn 1 (filter (same c z) l).
Proof.
  induction l as [|x t IH]; intros p HS HF; cbn [dedup_from].
  - split; [constructor|]. split; [constructor|]. intros z. destruct (same c z p); reflexivity.
  - inversion HS as [|? ? St' Ft]; subst. inversion HF as [|? ? Lp Lt]; subst.
    destruct (same c p x) eqn:E.
    + destruct (IH p St' Lt) as (F1 & S1 & Z1). split; [exact F1|]. split; [exact S1|].
      intros z. rewrite Z1. destruct (same c z p) eqn:Ez; [reflexivity|].
      cbn [filter]. destruct (same c z x) eqn:Ezx; [|reflexivity]. exfalso.
      unfold same in *. destruct (c p x) eqn:E1; try discriminate. destruct (c z x) eqn:E2; try discriminate.
      rewrite (eq_trans_ z x p) in Ez; [discriminate|auto|apply eq_sym; auto].
    + destruct (IH x St' Ft) as (F1 & S1 & Z1).
      assert (LT : c p x = Less).
      { unfold same in E. pose proof (tp_total c TP p x). unfold not_after in Lp. destruct (c p x); cbn in E; congruence. }
      split; [|split].
      * constructor; [exact LT|]. rewrite Forall_forall in *. intros w Hw.
        unfold before. eapply lt_of_le; [exact LT|]. apply lt_le, F1, Hw.
      * constructor; auto.
      * intros z. cbn [filter]. rewrite Z1. destruct (same c z x) eqn:Ezx.
        -- destruct (same c z p) eqn:Ezp; [|reflexivity]. exfalso. unfold same in *.
           destruct (c z x) eqn:E1; try discriminate. destruct (c z p) eqn:E2; try discriminate.
           assert (c p x = Equal) by (eapply eq_trans_; [apply eq_sym; exact E2|exact E1]). congruence.
        -- destruct (same c z p) eqn:Ezp; [|reflexivity].
           rewrite filter_none; [reflexivity|]. intros w Hw.
           destruct (same c z w) eqn:Ezw; auto. exfalso. unfold same in *.
           destruct (c z p) eqn:E2; try discriminate. destruct (c z w) eqn:E3; try discriminate.
           assert (Epw : c p w = Equal) by (eapply eq_trans_; [apply eq_sym; exact E2|exact E3]).
           rewrite Forall_forall in Ft. rewrite (lt_of_le p x w LT (Ft w Hw)) in Epw. discriminate.
Qed.
Lemma dedup_ok l : StronglySorted le l -> is_unique_sort c l (dedup l).
Proof.
  destruct l as [|x t]; intros HS; [split; [constructor|reflexivity]|].
  inversion HS as [|? ? St' Ft]; subst. destruct (dedup_from_ok t x St' Ft) as (F1 & S1 & Z1).
  cbn [dedup]. split; [constructor; auto|]. intros z. cbn [filter]. rewrite Z1.
  destruct (same c z x); reflexivity.
Qed.
Lemma usort_loop_ok fuel : forall bs st l, (0 < bs)%nat -> (length l <= bs + fuel)%nat ->
  sorted_blocks bs l -> exists out, usort_loop comp fuel bs st l = (st, Ok out) /\ is_unique_sort c l out.
Proof.
  assert (FIN : forall bs st l, (0 < bs)%nat -> (length l <= bs * 2)%nat -> sorted_blocks bs l ->
     exists out, merge_blocks comp true bs st l = (st, Ok out) /\ is_unique_sort c l out).
  { intros bs st l Hb HL HS. rewrite merge_blocks_true by auto. eexists. split; [reflexivity|].
    destruct (pass_ok bs (S (length l)) Hb l ltac:(lia) HS) as (P & SB & FF).
    apply sorted_blocks_all in SB; [|rewrite <- (Permutation_length P); lia|lia].
    destruct (dedup_ok _ SB) as [D1 D2]. split; auto. intros z. rewrite D2, FF. reflexivity. }
  induction fuel as [|fuel IH]; intros bs st l Hb HF HS; cbn [usort_loop].
  - destruct (Nat.ltb_spec (bs * 2) (length l)); [lia|]. apply FIN; auto.
  - destruct (Nat.ltb_spec (bs * 2) (length l)); [|apply FIN; auto].
    rewrite merge_blocks_pure by auto.
    destruct (pass_ok bs (S (length l)) Hb l ltac:(lia) HS) as (P & SB & FF).
    set (temp := pass bs (S (length l)) l) in *.
    destruct (IH (bs * 2)%nat st temp) as (out & E & S2 & F2); auto; try lia.
    { rewrite <- (Permutation_length P). lia. }
    exists out. split; [exact E|]. split; [exact S2|]. intros z. rewrite F2, FF. reflexivity.
Qed.
Lemma usort_ok st l : exists out, array_usort comp st l = (st, Ok out) /\ is_unique_sort c l out.
Proof.
  unfold array_usort. destruct (Nat.leb_spec (length l) 1).
  - exists l. split; [reflexivity|]. destruct l as [|x [|y t]]; [split; [constructor|reflexivity]| |cbn in *; lia].
    split; [repeat constructor|]. intros z. cbn. destruct (same c z x); reflexivity.
  - apply usort_loop_ok; try lia. apply sorted_blocks_one.
Qed.
End Pure.

(* ---- failing comparisons ---- *)
Section Fail.
Context {A St : Type}.
Variable comp0 : St -> A -> A -> St * option compare.
Notation comp := (noting comp0).
Definition exact_fail (r : (St * bool) * outcome (list A)) : Prop :=
  match snd r with Ok _ => snd (fst r) = false | Throw => snd (fst r) = true | UB => True end.

Lemma output_element_fail u st out x : snd st = false -> exact_fail (output_element comp u st out x).
Proof.
  intros Hs. unfold output_element. destruct u; [|exact Hs]. destruct out as [|p out]; [exact Hs|].
  unfold noting. destruct (comp0 (fst st) p x) as [s [[]|]]; unfold exact_fail; cbn; rewrite Hs; reflexivity.
Qed.
Ltac fstep L := 
  let G := fresh "G" in pose proof L as G;
  match type of G with exact_fail ?r => destruct r as [st' [out'| |]]; unfold exact_fail in G; cbn in G; cbv beta iota; [|exact G|exact I] end.
Lemma output_all_fail u l : forall st out, snd st = false -> exact_fail (output_all comp u st out l).
Proof.
  induction l as [|x t IH]; intros st out Hs; cbn [output_all]; [exact Hs|].
  fstep (output_element_fail u st out x Hs). apply IH, G.
Qed.
Lemma merge_two_fail u fuel : forall st out b0 b1, snd st = false -> exact_fail (merge_two comp u fuel st out b0 b1).
Proof.
  induction fuel as [|fuel IH]; intros st out b0 b1 Hs; [exact I|].
  cbn [merge_two]. destruct b0 as [|x t0]; [exact I|]. destruct b1 as [|y t1]; [exact I|].
  unfold noting at 1. destruct (comp0 (fst st) x y) as [s [[]|]]; rewrite Hs; cbn [orb failed]; try reflexivity.
  3:{ fstep (output_element_fail u (s, false) out y eq_refl).
      destruct t1; [apply output_all_fail; exact G|apply IH; exact G]. }
  all: fstep (output_element_fail u (s, false) out x eq_refl); destruct t0; [apply output_all_fail; exact G|apply IH; exact G].
Qed.
Lemma merge_pairs_fail u bs fuel : forall st out l, snd st = false -> exact_fail (merge_pairs comp u bs fuel st out l).
Proof.
  induction fuel as [|fuel IH]; intros st out l Hs; [exact I|].
  cbn [merge_pairs]. destruct (bs <? length l)%nat; [|apply output_all_fail, Hs]. cbv zeta.
  fstep (merge_two_fail u (length (firstn bs l) + length (firstn (Nat.min (length (skipn bs l)) bs) (skipn bs l)))
     st out (firstn bs l) (firstn (Nat.min (length (skipn bs l)) bs) (skipn bs l)) Hs).
  apply IH, G.
Qed.
Lemma merge_blocks_fail u bs st l : snd st = false -> exact_fail (merge_blocks comp u bs st l).
Proof.
  intros Hs. unfold merge_blocks. fstep (merge_pairs_fail u bs (S (length l)) st [] l Hs). exact G.
Qed.
Lemma sort_loop_fail fuel : forall bs st l, snd st = false -> exact_fail (sort_loop comp fuel bs st l).
Proof.
  induction fuel as [|fuel IH]; intros bs st l Hs; cbn [sort_loop]; destruct (bs <? length l)%nat; try exact I; try exact Hs.
  fstep (merge_blocks_fail false bs st l Hs). apply IH, G.
Qed.
Lemma usort_loop_fail fuel : forall bs st l, snd st = false -> exact_fail (usort_loop comp fuel bs st l).
Proof.
  induction fuel as [|fuel IH]; intros bs st l Hs; cbn [usort_loop]; destruct (bs * 2 <? length l)%nat; try exact I;
    try (apply merge_blocks_fail; exact Hs).
  fstep (merge_blocks_fail false bs st l Hs). apply IH, G.
Qed.
Lemma sort_fail st l :
  match array_sort comp (st, false) l with (_, UB) => False | ((_, bad), r) => bad = true <-> r = Throw end /\
  match array_usort comp (st, false) l with (_, UB) => False | ((_, bad), r) => bad = true <-> r = Throw end.
Proof.
  split.
  - pose proof (sort_any comp (st, false) l) as N. unfold array_sort in *.
    destruct (length l <=? 1)%nat; [split; discriminate|].
    pose proof (sort_loop_fail (length l) 1 (st, false) l eq_refl) as F.
    destruct (sort_loop comp (length l) 1 (st, false) l) as [[s b] [o| |]]; cbn in *; subst; auto; split; auto; discriminate.
  - pose proof (usort_any comp (st, false) l) as N. unfold array_usort in *.
    destruct (length l <=? 1)%nat; [split; discriminate|].
    pose proof (usort_loop_fail (length l) 1 (st, false) l eq_refl) as F.
    destruct (usort_loop comp (length l) 1 (st, false) l) as [[s b] [o| |]]; cbn in *; subst; auto; split; auto; discriminate.
Qed.
End Fail.

Lemma ksort_ok {K V St : Type} (c : K -> K -> compare) : total_preorder c ->
  forall (st : St) (l : list (K * V)), exists out, array_ksort (pure c) st l = (st, Ok out) /\
    is_stable_sort (fun p q => c (fst p) (fst q)) l out.
Proof.
  intros TP st l. apply (sort_ok (fun p q : K * V => c (fst p) (fst q))).
  constructor; intros.
  - apply (tp_total c TP).
  - apply (tp_flip c TP).
  - eapply (tp_trans c TP); eauto.
Qed.
