From Verif Require Import Base XmemModel StackModel StackSpec.

Section Stack.
Variable A : Type.
Variable blank : A.
Variable alloc : nat -> nat.
Variable limit : nat.
Variable debug : bool.
Hypothesis alloc_ok : forall n, (n < limit)%nat -> (n <= alloc n)%nat /\ (N.of_nat (alloc n) < 2 ^ 31)%N.
Notation stack := (stack A).
Notation push := (push A blank alloc limit debug).
Notation run := (run A blank alloc limit debug).

Definition rep (s : stack) (l : list A) : Prop :=
  size A s = length l /\ (exists k, cells A s = map Some l ++ repeat None k) /\ (N.of_nat (length (cells A s)) < 2 ^ 31)%N.

Lemma set_app {X} (a b : list X) x y : set_nth (length a) x (a ++ y :: b) = a ++ x :: b.
Proof. induction a as [|z a IH]; cbn; [reflexivity|]. now rewrite IH. Qed.
Lemma nth_mid {X} (a b : list X) y : nth_error (a ++ y :: b) (length a) = Some y.
Proof. rewrite nth_error_app2 by lia. now rewrite Nat.sub_diag. Qed.
Lemma raws k : forallb (raw A) (repeat None k) = true.
Proof. induction k; [reflexivity|exact IHk]. Qed.
Lemma reallocate_ok s l n : rep s l -> (length l < n)%nat ->
  (do_reallocate A alloc limit s n = Throw /\ (limit <= n)%nat) \/
  exists s', do_reallocate A alloc limit s n = Ok s' /\ rep s' l /\ (length l < length (cells A s'))%nat.
Proof.
  intros (S & (k & C) & _) N. unfold do_reallocate. destruct (Nat.leb_spec limit n) as [|L]; [left; auto|right].
  rewrite S, C. destruct (Nat.ltb_spec n (length l)); [lia|].
  rewrite skipn_app, firstn_app, map_length, Nat.sub_diag. cbn [firstn skipn]. rewrite app_nil_r.
  rewrite skipn_all2 by (now rewrite map_length). rewrite firstn_all2 by (now rewrite map_length). cbn [app]. rewrite raws.
  destruct (alloc_ok n L) as [L1 L2].
  eexists. split; [reflexivity|]. unfold rep. cbn [cells size]. rewrite app_length, map_length, repeat_length. repeat split; [eauto| |lia].
  now replace (length l + (alloc n - length l))%nat with (alloc n) by lia.
Qed.
Lemma pos_lor p : forall q, (Pos.lor p q <= p + q)%positive /\ (p <= Pos.lor p q)%positive.
Proof. induction p as [p IH|p IH|]; intros [q|q|]; cbn [Pos.lor]; try (destruct (IH q)); lia. Qed.
Lemma lor_17 n : (N.of_nat n < 2 ^ 31)%N ->
  (N.to_nat (N.lor ((N.of_nat n * 2) mod 2 ^ 32) 17) <= n * 2 + 17 /\ n < N.to_nat (N.lor ((N.of_nat n * 2) mod 2 ^ 32) 17))%nat.
Proof.
  intros L. rewrite N.mod_small by (change (2 ^ 31)%N with 2147483648%N in L; change (2 ^ 32)%N with 4294967296%N; lia).
  destruct (N.of_nat n * 2)%N as [|p] eqn:P; [cbn; lia|]. cbn [N.lor]. destruct (pos_lor p 17). lia.
Qed.
Lemma set_length {X} k (x : X) : forall l, length (set_nth k x l) = length l.
Proof. induction k as [|k IH]; intros [|y l]; cbn; auto. Qed.
Lemma push_ok s l : rep s l -> (push s = Throw /\ (limit <= 2 * length l + 17)%nat) \/ exists s', push s = Ok s' /\ rep s' (l ++ [blank]).
Proof.
  intros R. unfold StackModel.push.
  assert (F : forall s', rep s' l -> (length l < length (cells A s'))%nat ->
    exists s'', match nth_error (cells A s') (size A s') with Some None => Ok (Stack A (set_nth (size A s') (Some blank) (cells A s')) (size A s' + 1)) | _ => UB end = Ok s''
      /\ rep s'' (l ++ [blank])).
  { intros s' (Z & (k & C) & B) L. rewrite Z. rewrite C in *. rewrite app_length, map_length, repeat_length in L. destruct k as [|k]; [lia|]. cbn [repeat] in *.
    rewrite <- (map_length (@Some A) l). rewrite nth_mid.
    eexists. split; [reflexivity|]. unfold rep. cbn [cells size]. rewrite set_length. split; [rewrite app_length, map_length; reflexivity|]. split; [|exact B].
    exists k. rewrite set_app, map_app, <- app_assoc. reflexivity. }
  unfold grow. assert (S := proj1 R). destruct debug.
  - rewrite S. destruct (reallocate_ok s l (length l + 1) R ltac:(lia)) as [[-> L]|(s' & -> & Z & K)]; [left; split; [reflexivity|lia]|right; now apply F].
  - unfold estor. destruct (Nat.leb_spec (length (cells A s)) (size A s)) as [L|L].
    + destruct R as (_ & (k & C) & B). assert (R : rep s l) by (repeat split; eauto).
      assert (E : length (cells A s) = length l) by (rewrite C, app_length, map_length in *; lia). rewrite E in B.
      rewrite S. destruct (lor_17 (length l) B) as (L1 & L2).
      destruct (reallocate_ok s l _ R L2) as [[-> L3]|(s' & -> & Z & K)]; [left; split; [reflexivity|lia]|right; now apply F].
    + right. apply F; [exact R|]. lia.
Qed.
Lemma destroy_ok n : forall s l, rep s l -> (n <= length l)%nat -> exists s', destroy_down A n s = Ok s' /\ rep s' (firstn (length l - n) l).
Proof.
  induction n as [|n IH]; intros s l R L; [exists s; rewrite Nat.sub_0_r, firstn_all; auto|].
  destruct R as (S & (k & C) & B). destruct (exists_last (l := l)) as (l' & a & ->); [intros ->; cbn in L; lia|].
  rewrite app_length in *. cbn [length] in *. cbn [destroy_down]. rewrite S. replace (length l' + 1 - 1)%nat with (length (map (@Some A) l')) by (rewrite map_length; lia).
  rewrite C, map_app, <- app_assoc. cbn [map app]. rewrite nth_mid, set_app.
  destruct (IH (Stack A (map Some l' ++ None :: repeat None k) (length (map (@Some A) l'))) l') as (s' & E & R').
  { split; [apply map_length|]. split; [now exists (Datatypes.S k)|]. cbn [cells]. rewrite C, !app_length, !map_length in B. rewrite !app_length, map_length. cbn [length] in *. rewrite app_length in B. cbn [length] in B. rewrite <- Nat.add_assoc in B. exact B. } { lia. }
  exists s'. split; [exact E|]. rewrite firstn_app. replace (length l' + 1 - Datatypes.S n - length l')%nat with 0%nat by lia. cbn [firstn]. rewrite app_nil_r.
  now replace (length l' + 1 - Datatypes.S n)%nat with (length l' - n)%nat by lia.
Qed.
Lemma cell_ok s l k : rep s l -> cell A s k = match nth_error l k with Some a => Ok a | None => UB end.
Proof.
  intros (S & (n & C) & _). unfold cell. rewrite C. destruct (Nat.lt_ge_cases k (length l)) as [L|L].
  - rewrite nth_error_app1 by (now rewrite map_length). rewrite nth_error_map. destruct (nth_error l k) eqn:E; [reflexivity|]. apply nth_error_None in E. lia.
  - rewrite nth_error_app2, map_length by (now rewrite map_length). apply nth_error_None in L. rewrite L.
    destruct (nth_error (repeat None n) (k - length l)) as [[a|]|] eqn:E; try reflexivity. apply nth_error_In, repeat_spec in E. discriminate E.
Qed.
Lemma set_replace k v : forall l n, (k < length l)%nat -> set_nth k (Some v) (map Some l ++ repeat None n) = map Some (replace A k v l) ++ repeat None n.
Proof.
  unfold replace. induction k as [|k IH]; intros [|x l] n L; cbn [length] in L; try lia; [reflexivity|]. cbn [map app set_nth firstn skipn]. f_equal. apply IH. lia.
Qed.
Lemma replace_length k v (l : list A) : (k < length l)%nat -> length (replace A k v l) = length l.
Proof. intros L. unfold replace. rewrite app_length, firstn_length. cbn [length]. rewrite skipn_length. lia. Qed.
Lemma assign_ok s l k v : rep s l -> (k < length l)%nat -> exists s', assign A s k v = Ok s' /\ rep s' (replace A k v l).
Proof.
  intros R L. unfold assign. rewrite (cell_ok s l k R). destruct (nth_error l k) eqn:E; [|apply nth_error_None in E; lia].
  destruct R as (S & (n & C) & B). eexists. split; [reflexivity|]. split; [|split].
  - cbn [size]. rewrite replace_length by exact L. exact S.
  - exists n. cbn [cells]. rewrite C. now apply set_replace.
  - cbn [cells]. now rewrite set_length.
Qed.
Lemma nth_rev (l : list A) i : (i < length l)%nat -> nth_error (rev l) i = nth_error l (length l - 1 - i).
Proof.
  intros L. destruct (nth_error l (length l - 1 - i)) as [a|] eqn:E; [|apply nth_error_None in E; lia].
  rewrite (nth_error_nth' (rev l) a) by (now rewrite rev_length). rewrite rev_nth by exact L. f_equal.
  apply nth_error_nth with (d := a) in E. rewrite <- E at 2. f_equal. lia.
Qed.
Lemma rev_replace (l : list A) i v : (i < length l)%nat -> rev (replace A i v (rev l)) = replace A (length l - 1 - i) v l.
Proof.
  intros L. unfold replace. rewrite rev_app_distr. cbn [rev]. rewrite firstn_rev, skipn_rev, !rev_involutive, <- app_assoc. cbn [app].
  replace (length l - Datatypes.S i)%nat with (length l - 1 - i)%nat by lia. f_equal. f_equal. f_equal. lia.
Qed.
Lemma run_ok cmds : forall s l out, rep s l ->
  match plays A blank l cmds out with
  | Some out' => run s cmds out = Ok out' \/ (run s cmds out = Throw /\ (limit <= 2 * (length l + length cmds) + 17)%nat)
  | None => run s cmds out = UB \/ (run s cmds out = Throw /\ (limit <= 2 * (length l + length cmds) + 17)%nat)
  end.
Proof.
  assert (W : forall (o : option (list (output A))) (r : outcome (list (output A))) a b, (a <= b)%nat ->
    match o with Some out' => r = Ok out' \/ (r = Throw /\ (limit <= 2 * a + 17)%nat) | None => r = UB \/ (r = Throw /\ (limit <= 2 * a + 17)%nat) end ->
    match o with Some out' => r = Ok out' \/ (r = Throw /\ (limit <= 2 * b + 17)%nat) | None => r = UB \/ (r = Throw /\ (limit <= 2 * b + 17)%nat) end).
  { intros [o|] r a b L [H|[H1 H2]]; auto; right; split; auto; lia. }
  induction cmds as [|c cmds IH]; intros s l out R.
  - left. cbn [StackModel.run]. unfold destructor. assert (S := proj1 R). rewrite S.
    destruct (destroy_ok (length l) s l R (le_n _)) as (s' & -> & _ & (k' & C') & _). rewrite Nat.sub_diag in C'. cbn in C'. rewrite C', raws. reflexivity.
  - assert (S := proj1 R). destruct c as [|n| |i v|i v|i|i|]; cbn [StackModel.run plays].
    + destruct (push_ok s l R) as [[-> L]|(s' & -> & R')].
      * destruct (plays A blank (l ++ [blank]) cmds out); right; (split; [reflexivity|lia]).
      * eapply W; [|exact (IH s' _ out R')]. rewrite app_length. cbn [length]. lia.
    + unfold pop. rewrite S. destruct (Nat.leb_spec n (length l)) as [L|L]; [|left; reflexivity].
      destruct (destroy_ok n s l R L) as (s' & -> & R'). eapply W; [|exact (IH s' _ out R')]. rewrite firstn_length. cbn [length]. lia.
    + unfold clear. rewrite S. destruct (destroy_ok (length l) s l R (le_n _)) as (s' & -> & R'). rewrite Nat.sub_diag in R'. cbn [firstn] in R'.
      eapply W; [|exact (IH s' _ out R')]. cbn [length]. lia.
    + unfold mut_top. rewrite S. destruct (Nat.ltb_spec i (length l)) as [L|L]; [|left; reflexivity].
      destruct (assign_ok s l (length l - 1 - i) v R ltac:(lia)) as (s' & -> & R'). rewrite rev_replace by exact L.
      eapply W; [|exact (IH s' _ out R')]. rewrite replace_length by lia. cbn [length]. lia.
    + unfold mut_bottom. rewrite S. destruct (Nat.ltb_spec i (length l)) as [L|L]; [|left; reflexivity].
      destruct (assign_ok s l i v R L) as (s' & -> & R').
      eapply W; [|exact (IH s' _ out R')]. rewrite replace_length by lia. cbn [length]. lia.
    + unfold top. rewrite S. destruct (Nat.ltb_spec i (length l)) as [L|L].
      * rewrite (cell_ok s l _ R), <- nth_rev by exact L. destruct (nth_error (rev l) i); [|left; reflexivity].
        eapply W; [|exact (IH s l _ R)]. cbn [length]. lia.
      * replace (nth_error (rev l) i) with (@None A) by (symmetry; apply nth_error_None; now rewrite rev_length). left. reflexivity.
    + unfold bottom. rewrite S. destruct (Nat.ltb_spec i (length l)) as [L|L].
      * rewrite (cell_ok s l _ R). destruct (nth_error l i); [|left; reflexivity].
        eapply W; [|exact (IH s l _ R)]. cbn [length]. lia.
      * replace (nth_error l i) with (@None A) by (symmetry; now apply nth_error_None). left. reflexivity.
    + rewrite S. eapply W; [|exact (IH s l _ R)]. cbn [length]. lia.
Qed.
Lemma empty_rep : rep (empty A) [].
Proof. split; [reflexivity|]. split; [exists O; reflexivity|]. reflexivity. Qed.
End Stack.

Lemma real_alloc_ok sz n : 2 <= sz -> (n < real_limit sz)%nat -> (n <= real_alloc sz n)%nat /\ (N.of_nat (real_alloc sz n) < 2 ^ 31)%N.
Proof.
  intros Z2 L. unfold real_limit in L. set (M := 0x7FFE0000) in L.
  assert (B : sz * Z.of_nat n < M).
  { pose proof (Z.mul_div_le M sz ltac:(lia)). assert (Z.of_nat n < M / sz) by lia. nia. }
  assert (F : forall r, sz * Z.of_nat n <= r <= 2 ^ 31 -> (n <= Z.to_nat (r / sz))%nat /\ (N.of_nat (Z.to_nat (r / sz)) < 2 ^ 31)%N).
  { intros r [L1 L2]. assert (Z.of_nat n <= r / sz) by (apply Z.div_le_lower_bound; lia).
    assert (r / sz <= 2 ^ 30). { apply Z.div_le_upper_bound; [lia|]. change (2 ^ 31) with (2 * 2 ^ 30) in L2. nia. }
    split; [lia|]. change (2 ^ 31)%N with 2147483648%N. change (2 ^ 30) with 1073741824 in *. lia. }
  unfold real_alloc, pool_for_size. destruct (Z.gtb_spec (sz * Z.of_nat n) 32) as [G|G]; [|apply F; split; [exact G|apply Z.leb_le; reflexivity]].
  unfold lzcnt64. destruct (Z.eqb_spec (sz * Z.of_nat n - 1) 0); [lia|].
  replace (64 - (63 - Z.log2 (sz * Z.of_nat n - 1))) with (Z.succ (Z.log2 (sz * Z.of_nat n - 1))) by lia.
  pose proof (Z.log2_spec (sz * Z.of_nat n - 1) ltac:(lia)) as [_ L1].
  assert (L2 : Z.log2 (sz * Z.of_nat n - 1) < 31). { apply Z.log2_lt_pow2; [lia|]. assert (M < 2 ^ 31) by reflexivity. lia. }
  destruct (Z.ltb_spec (Z.succ (Z.log2 (sz * Z.of_nat n - 1))) 64); [|lia].
  destruct (Z.leb_spec (sz * Z.of_nat n) (2 ^ Z.succ (Z.log2 (sz * Z.of_nat n - 1)))); [|lia].
  apply F. split; [assumption|]. apply Z.pow_le_mono_r; lia.
Qed.
Lemma real_ok (A : Type) (blank : A) sz debug cmds : 2 <= sz ->
  let r := real_run A blank sz debug cmds in
  let full := (real_limit sz <= 2 * length cmds + 17)%nat in
  match plays A blank [] cmds [] with
  | Some out => r = Ok out \/ (r = Throw /\ full)
  | None => r = UB \/ (r = Throw /\ full)
  end.
Proof.
  intros Z2. exact (run_ok A blank (real_alloc sz) (real_limit sz) debug (fun n => real_alloc_ok sz n Z2) cmds (empty A) [] [] (empty_rep A)).
Qed.
