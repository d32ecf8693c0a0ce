From Verif Require Import Base Monad Text SortModel ValueModel IntOpsModel SeqModel OperModel OperSpec.
From Coq Require Import Lia.

Section Items.
Context {A : Type} (z : A).
Implicit Types (v w l : list A).

Lemma size_app : forall v w, size (v ++ w) = size v + size w.
Proof. intros. unfold size. rewrite app_length. lia. Qed.
Lemma size_repeat : forall n, size (repeat z n) = Z.of_nat n.
Proof. intros. unfold size. now rewrite repeat_length. Qed.
Lemma item_out : forall v i, i < 0 \/ size v <= i -> item z v i = z.
Proof.
  intros v i H. unfold item, size in *. destruct (i <? 0) eqn:E; [reflexivity|]. apply Z.ltb_ge in E.
  apply nth_overflow. lia.
Qed.
Lemma item_app : forall v w i, 0 <= i -> item z (v ++ w) i = if i <? size v then item z v i else item z w (i - size v).
Proof.
  intros v w i H. unfold item, size. replace (i <? 0) with false by (symmetry; apply Z.ltb_ge; lia).
  destruct (i <? Z.of_nat (length v)) eqn:E.
  - apply Z.ltb_lt in E. apply app_nth1. lia.
  - apply Z.ltb_ge in E. replace (i - Z.of_nat (length v) <? 0) with false by (symmetry; apply Z.ltb_ge; lia).
    rewrite app_nth2 by lia. f_equal. lia.
Qed.
Lemma item_repeat : forall n i, item z (repeat z n) i = z.
Proof.
  intros n i. unfold item. destruct (i <? 0); [reflexivity|]. generalize (Z.to_nat i) as k.
  induction n as [|n IH]; intros [|k]; try reflexivity. apply IH.
Qed.
Lemma item_skipn : forall k v i, 0 <= i -> item z (skipn k v) i = item z v (i + Z.of_nat k).
Proof.
  intros k v i H. unfold item. replace (i <? 0) with false by (symmetry; apply Z.ltb_ge; lia).
  replace (i + Z.of_nat k <? 0) with false by (symmetry; apply Z.ltb_ge; lia).
  replace (Z.to_nat (i + Z.of_nat k)) with (k + Z.to_nat i)%nat by lia. generalize (Z.to_nat i) as j.
  clear H i. revert v. induction k as [|k IH]; intros v j; [reflexivity|]. destruct v; [destruct j; reflexivity|]. apply IH.
Qed.
Lemma item_firstn : forall k v i, i < Z.of_nat k -> item z (firstn k v) i = item z v i.
Proof.
  intros k v i H. unfold item. destruct (i <? 0) eqn:E; [reflexivity|]. apply Z.ltb_ge in E.
  assert (L : (Z.to_nat i < k)%nat) by lia. revert L. generalize (Z.to_nat i) as j.
  clear H E i. revert v. induction k as [|k IH]; intros v j L; [lia|]. destruct v; [reflexivity|]. destruct j; [reflexivity|].
  cbn. apply IH. lia.
Qed.

Lemma clamp_view : forall n v, 0 <= n -> Z.of_nat (clamp_len n v) = Z.min n (size v).
Proof. intros n v H. unfold clamp_len, zlen, size. lia. Qed.

Lemma sll_moved : forall v n, 0 <= n -> moved z v (seq_sll z v n) n.
Proof.
  intros v n H. unfold seq_sll. pose proof (clamp_view n v H) as K. set (k := clamp_len n v) in *. clearbody k.
  assert (S1 : size (skipn k v) = size v - Z.of_nat k) by (unfold size in *; rewrite skipn_length; lia).
  split; [rewrite size_app, size_repeat; lia|]. intros i Hi.
  rewrite item_app by lia. rewrite S1. destruct (i <? size v - Z.of_nat k) eqn:E.
  - apply Z.ltb_lt in E. rewrite item_skipn by lia. f_equal. lia.
  - apply Z.ltb_ge in E. rewrite item_repeat. symmetry. apply item_out. lia.
Qed.
Lemma srl_moved : forall v n, 0 <= n -> moved z v (seq_srl z v n) (- n).
Proof.
  intros v n H. unfold seq_srl. pose proof (clamp_view n v H) as K. set (k := clamp_len n v) in *. clearbody k.
  assert (S1 : size (firstn (length v - k) v) = size v - Z.of_nat k) by (unfold size in *; rewrite firstn_length; lia).
  split; [rewrite size_app, size_repeat; lia|]. intros i Hi.
  rewrite item_app by lia. rewrite size_repeat. destruct (i <? Z.of_nat k) eqn:E.
  - apply Z.ltb_lt in E. rewrite item_repeat. symmetry. apply item_out. lia.
  - apply Z.ltb_ge in E. rewrite item_firstn by (unfold size in *; lia). f_equal. lia.
Qed.
Lemma sla_lengthened : forall v n, 0 <= n -> lengthened z v (seq_sla z v n) n.
Proof.
  intros v n H. unfold seq_sla. split; [rewrite size_app, size_repeat; lia|]. intros i.
  destruct (Z.ltb_spec i 0); [now rewrite !item_out by lia|].
  rewrite item_app by lia. destruct (i <? size v) eqn:E; [reflexivity|]. apply Z.ltb_ge in E.
  rewrite item_repeat. symmetry. apply item_out. lia.
Qed.
Lemma sra_shortened : forall v n, 0 <= n -> shortened z v (seq_sra v n) n.
Proof.
  intros v n H. unfold seq_sra. pose proof (clamp_view n v H) as K. set (k := clamp_len n v) in *. clearbody k.
  assert (S1 : size (firstn (length v - k) v) = size v - Z.of_nat k) by (unfold size in *; rewrite firstn_length; lia).
  split; [rewrite S1; lia|]. intros i Hi. apply item_firstn. unfold size in *. lia.
Qed.
Lemma items_eq : forall v w, size v = size w -> (forall i, 0 <= i < size v -> item z v i = item z w i) -> v = w.
Proof.
  intros v w H K. apply (nth_ext v w z z); [unfold size in *; lia|]. intros n Hn.
  specialize (K (Z.of_nat n)). unfold item, size in K. replace (Z.of_nat n <? 0) with false in K by (symmetry; apply Z.ltb_ge; lia).
  rewrite Nat2Z.id in K. apply K. lia.
Qed.
Lemma sra_sla : forall v n, 0 <= n -> seq_sra (seq_sla z v n) n = v.
Proof.
  intros v n H. destruct (sla_lengthened v n H) as [A1 A2]. destruct (sra_shortened (seq_sla z v n) n H) as [B1 B2].
  assert (0 <= size v) by (unfold size; lia).
  apply items_eq; [lia|]. intros i Hi. rewrite B2, A2 by lia. reflexivity.
Qed.
Lemma sll_sum : forall v m n, 0 <= m -> 0 <= n -> seq_sll z (seq_sll z v m) n = seq_sll z v (m + n).
Proof.
  intros v m n Hm Hn. destruct (sll_moved v m Hm) as [A1 A2]. destruct (sll_moved (seq_sll z v m) n Hn) as [B1 B2].
  destruct (sll_moved v (m + n)) as [C1 C2]; [lia|].
  apply items_eq; [lia|]. intros i Hi. rewrite B2, C2 by lia.
  destruct (Z.ltb_spec (i + n) (size v)).
  - rewrite A2 by lia. f_equal. lia.
  - rewrite item_out by lia. symmetry. apply item_out. lia.
Qed.
Lemma srl_sum : forall v m n, 0 <= m -> 0 <= n -> seq_srl z (seq_srl z v m) n = seq_srl z v (m + n).
Proof.
  intros v m n Hm Hn. destruct (srl_moved v m Hm) as [A1 A2]. destruct (srl_moved (seq_srl z v m) n Hn) as [B1 B2].
  destruct (srl_moved v (m + n)) as [C1 C2]; [lia|].
  apply items_eq; [lia|]. intros i Hi. rewrite B2, C2 by lia.
  destruct (Z.ltb_spec (i + - n) 0).
  - rewrite item_out by lia. symmetry. apply item_out. lia.
  - rewrite A2 by lia. f_equal. lia.
Qed.
End Items.

(* ---- strings ---- *)

Lemma item_cons : forall A (z x : A) l i, item z (x :: l) i = if i =? 0 then x else item z l (i - 1).
Proof.
  intros A z x l i. unfold item. destruct (i =? 0) eqn:E.
  - apply Z.eqb_eq in E. subst. reflexivity.
  - apply Z.eqb_neq in E. destruct (i <? 0) eqn:E2.
    + apply Z.ltb_lt in E2. replace (i - 1 <? 0) with true by (symmetry; apply Z.ltb_lt; lia). reflexivity.
    + apply Z.ltb_ge in E2. replace (i - 1 <? 0) with false by (symmetry; apply Z.ltb_ge; lia).
      replace (Z.to_nat i) with (S (Z.to_nat (i - 1))) by lia. reflexivity.
Qed.
Lemma item_nil : forall A (z : A) i, item z [] i = z.
Proof. intros. unfold item. destruct (i <? 0); [reflexivity|]. destruct (Z.to_nat i); reflexivity. Qed.
Lemma size_cons : forall A (x : A) l, size (x :: l) = 1 + size l.
Proof. intros. unfold size. cbn [length]. lia. Qed.
Lemma size_pos : forall A (l : list A), 0 <= size l.
Proof. intros. unfold size. lia. Qed.

Lemma and_combined : forall v m, combined 0 Z.land (Z.min (size v) (size m)) v m (str_and v m).
Proof.
  induction v as [|x v IH]; intros m.
  - split; [pose proof (size_pos _ m); unfold size at 1 2; cbn; unfold size; lia|].
    intros i. cbn [str_and]. now rewrite !item_nil.
  - destruct m as [|y m].
    + split; [pose proof (size_pos _ (x :: v)); cbn [str_and]; unfold size in *; cbn in *; lia|].
      intros i. cbn [str_and]. rewrite !item_nil. now rewrite Z.land_0_r.
    + destruct (IH m) as [A B]. cbn [str_and]. split; [rewrite !size_cons; lia|].
      intros i. rewrite !item_cons. destruct (i =? 0); [reflexivity|apply B].
Qed.

Lemma mask_combined : forall f v m, (forall x, f x 0 = x) -> (length m <= length v)%nat ->
  combined 0 f (size v) v m (str_mask f v m).
Proof.
  intros f v m F0. revert v. induction m as [|y m IH]; intros v L.
  - replace (str_mask f v []) with v by (destruct v; reflexivity). split; [reflexivity|]. intros i. now rewrite item_nil, F0.
  - destruct v as [|x v]; [cbn in L; lia|]. destruct (IH v) as [A B]; [cbn in L; lia|].
    cbn [str_mask]. split; [rewrite !size_cons; lia|].
    intros i. rewrite !item_cons. destruct (i =? 0); [reflexivity|apply B].
Qed.
Lemma pad_size : forall (v m : list Z), size (pad_to (length m) 0 v) = Z.max (size v) (size m).
Proof. intros. unfold pad_to. rewrite size_app, size_repeat. unfold size. lia. Qed.
Lemma pad_item : forall n (v : list Z) i, item 0 (pad_to n 0 v) i = item 0 v i.
Proof.
  intros n v i. unfold pad_to. destruct (Z.ltb_spec i 0); [now rewrite !item_out by lia|].
  rewrite item_app by lia. destruct (i <? size v) eqn:E; [reflexivity|]. apply Z.ltb_ge in E.
  rewrite item_repeat. symmetry. apply item_out. lia.
Qed.
Lemma or_combined : forall v m, combined 0 Z.lor (Z.max (size v) (size m)) v m (str_or v m).
Proof.
  intros v m. destruct (mask_combined Z.lor (pad_to (length m) 0 v) m Z.lor_0_r) as [A B].
  { pose proof (pad_size v m). unfold size in *. lia. }
  unfold str_or. split; [rewrite A; apply pad_size|]. intros i. rewrite B. now rewrite pad_item.
Qed.
Lemma xor_combined : forall v m, combined 0 Z.lxor (Z.max (size v) (size m)) v m (str_xor v m).
Proof.
  intros v m. destruct (mask_combined Z.lxor (pad_to (length m) 0 v) m Z.lxor_0_r) as [A B].
  { pose proof (pad_size v m). unfold size in *. lia. }
  unfold str_xor. split; [rewrite A; apply pad_size|]. intros i. rewrite B. now rewrite pad_item.
Qed.

(* ---- the operators ---- *)


Section Operators.
Variables (a : arith) (fuel : nat).
Notation op := (general a fuel).

Lemma sll_value : forall l n, is_seq l -> 0 <= n -> exists r, op xo_sll l (VInt n) = Some (Ok r) /\ moved_value l r n.
Proof.
  intros l n Hl Hn. cbn [general]. replace (n <? 0) with false by (symmetry; apply Z.ltb_ge; lia).
  destruct l; try contradiction; eexists; (split; [reflexivity|]); now apply sll_moved.
Qed.
Lemma srl_value : forall l n, is_seq l -> 0 <= n -> exists r, op xo_srl l (VInt n) = Some (Ok r) /\ moved_value l r (- n).
Proof.
  intros l n Hl Hn. cbn [general]. replace (n <? 0) with false by (symmetry; apply Z.ltb_ge; lia).
  destruct l; try contradiction; eexists; (split; [reflexivity|]); now apply srl_moved.
Qed.
Lemma sla_value : forall l n, is_seq l -> 0 <= n -> exists r, op xo_sla l (VInt n) = Some (Ok r) /\ lengthened_value l r n.
Proof.
  intros l n Hl Hn. cbn [general]. replace (n <? 0) with false by (symmetry; apply Z.ltb_ge; lia).
  destruct l; try contradiction; eexists; (split; [reflexivity|]); now apply sla_lengthened.
Qed.
Lemma sra_value : forall l n, is_seq l -> 0 <= n -> exists r, op xo_sra l (VInt n) = Some (Ok r) /\ shortened_value l r n.
Proof.
  intros l n Hl Hn. cbn [general]. replace (n <? 0) with false by (symmetry; apply Z.ltb_ge; lia).
  destruct l; try contradiction; eexists; (split; [reflexivity|]); now apply sra_shortened.
Qed.
Lemma negative_shift : forall o l n, is_shift o -> n < 0 -> op o l (VInt n) = Some Throw.
Proof.
  intros o l n Ho Hn. assert (E : (n <? 0) = true) by (apply Z.ltb_lt; lia).
  destruct o; try contradiction; cbn [general]; now rewrite E.
Qed.
Lemma back_and_forth : forall l n r, is_seq l -> 0 <= n -> op xo_sla l (VInt n) = Some (Ok r) ->
  op xo_sra r (VInt n) = Some (Ok l).
Proof.
  intros l n r Hl Hn. cbn [general]. replace (n <? 0) with false by (symmetry; apply Z.ltb_ge; lia).
  destruct l; try contradiction; intros H; injection H as <-; cbn [shift]; now rewrite sra_sla.
Qed.
Lemma shifts_add : forall o l m n r, o = xo_sll \/ o = xo_srl -> is_seq l -> 0 <= m -> 0 <= n ->
  op o l (VInt m) = Some (Ok r) -> op o r (VInt n) = op o l (VInt (m + n)).
Proof.
  intros o l m n r Ho Hl Hm Hn.
  assert (E1 : (m <? 0) = false) by (apply Z.ltb_ge; lia). assert (E2 : (n <? 0) = false) by (apply Z.ltb_ge; lia).
  assert (E3 : (m + n <? 0) = false) by (apply Z.ltb_ge; lia).
  destruct Ho as [-> | ->]; cbn [general]; rewrite E1, E2, E3; destruct l; try contradiction; intros H; injection H as <-;
    cbn [shift]; now rewrite ?sll_sum, ?srl_sum by assumption.
Qed.
Lemma bitwise_value : forall v m,
  (exists r, op xo_andb (VStr v) (VStr m) = Some (Ok (VStr r)) /\ combined 0 Z.land (Z.min (size v) (size m)) v m r) /\
  (exists r, op xo_orb (VStr v) (VStr m) = Some (Ok (VStr r)) /\ combined 0 Z.lor (Z.max (size v) (size m)) v m r) /\
  (exists r, op xo_xorb (VStr v) (VStr m) = Some (Ok (VStr r)) /\ combined 0 Z.lxor (Z.max (size v) (size m)) v m r).
Proof.
  intros v m. split; [|split]; eexists; (split; [reflexivity|]).
  - apply and_combined.
  - apply or_combined.
  - apply xor_combined.
Qed.
Lemma xor_back : forall v m r, size m <= size v -> op xo_xorb (VStr v) (VStr m) = Some (Ok r) ->
  op xo_xorb r (VStr m) = Some (Ok (VStr v)).
Proof.
  intros v m r Hs H. cbn [general] in H. injection H as <-. cbn [general]. repeat f_equal.
  destruct (xor_combined v m) as [A1 A2]. destruct (xor_combined (str_xor v m) m) as [B1 B2].
  apply (items_eq 0); [lia|]. intros i Hi. now rewrite B2, A2, Z.lxor_assoc, Z.lxor_nilpotent, Z.lxor_0_r.
Qed.
End Operators.
Lemma complement_value : forall s, exists r, op_notb_value (VStr s) = Ok (VStr r) /\ size r = size s /\
  forall i, 0 <= i < size s -> item 0 r i = 255 - item 0 s i.
Proof.
  intros s. eexists. split; [reflexivity|]. split; [unfold size; now rewrite map_length|].
  intros i Hi. unfold item. replace (i <? 0) with false by (symmetry; apply Z.ltb_ge; lia).
  rewrite (nth_indep _ 0 ((fun c => 255 - c) 0)) by (rewrite map_length; unfold size in *; lia).
  apply (map_nth (fun c => 255 - c)).
Qed.

Lemma boolean_bits : forall a fuel x y,
  (exists r, general a fuel xo_andb (VBool x) (VBool y) = Some (Ok (VBool r)) /\ bit r = Z.land (bit x) (bit y)) /\
  (exists r, general a fuel xo_orb (VBool x) (VBool y) = Some (Ok (VBool r)) /\ bit r = Z.lor (bit x) (bit y)) /\
  (exists r, general a fuel xo_xorb (VBool x) (VBool y) = Some (Ok (VBool r)) /\ bit r = Z.lxor (bit x) (bit y)) /\
  (exists r, general a fuel xo_add (VBool x) (VBool y) = Some (Ok (VBool r)) /\ bit r = Z.min 1 (bit x + bit y)) /\
  (exists r, general a fuel xo_mul (VBool x) (VBool y) = Some (Ok (VBool r)) /\ bit r = bit x * bit y) /\
  (exists r, op_notb_value (VBool x) = Ok (VBool r) /\ bit r = 1 - bit x).
Proof.
  intros a fuel x y. cbn. repeat split; (eexists; split; [reflexivity|]); destruct x, y; reflexivity.
Qed.
