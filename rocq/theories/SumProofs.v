From Verif Require Import Base Monad SeqModel CowBase SumModel SumSpec.

Local Open Scope Z_scope.

Lemma nth_snoc2 {A} (l : list A) x i :
  nth_error (l ++ [x]) i = if (i =? length l)%nat then Some x else nth_error l i.
Proof.
  rewrite nth_snoc. destruct (Nat.ltb_spec i (length l)) as [H|H].
  - replace (i =? length l)%nat with false by (symmetry; apply Nat.eqb_neq; lia). reflexivity.
  - destruct (Nat.eqb_spec i (length l)) as [->|N]; [reflexivity|].
    symmetry. apply nth_error_None. exact H.
Qed.
Lemma put_set (vs : values) v x : (v < length vs)%nat -> put vs v x = set_nth vs v x.
Proof.
  unfold put. revert v. induction vs as [|y vs IH]; intros [|v] H; cbn in *; try lia; [reflexivity|].
  f_equal. apply IH. lia.
Qed.

Lemma deep_run_ext {O} (f g : bytes -> O) ops : (forall b, f b = g b) ->
  forall vs, deep_run f vs ops = deep_run g vs ops.
Proof.
  intros E. assert (S : forall vs o, deep_step f vs o = deep_step g vs o).
  { intros vs o. destruct o; try reflexivity. cbn [deep_step].
    destruct (nth_error vs v) as [[[b|]|]|]; try reflexivity. rewrite E. reflexivity. }
  induction ops as [|o ops IH]; intros vs; [reflexivity|]. cbn [deep_run]. rewrite S.
  destruct (deep_step g vs o) as [[vs' e]|]; [|reflexivity]. rewrite IH. reflexivity.
Qed.

Section H.
Context {R O : Type}.
Variable init : R.
Variable upd : R -> bytes -> R.
Variable final : R -> O.
Hypothesis upd_nil : forall r, upd r [] = r.
Hypothesis upd_app : forall r a b, upd r (a ++ b) = upd (upd r a) b.

Notation oneshot := (fun b => final (upd init b)).

(* Every live object is counted, and the objects hold what the values say. *)
Definition counted (m : mem R) : Prop :=
  forall p, owners (vars m) p =
    match nth_error (cells m) p with Some (Live n _) => n | _ => 0 end.
Definition positive (m : mem R) : Prop :=
  forall p n r, nth_error (cells m) p = Some (Live n r) -> 1 <= n.
Definition holds (m : mem R) (x : option (option nat)) (y : option (option bytes)) : Prop :=
  match x, y with
  | None, None => True
  | Some None, Some None => True
  | Some (Some p), Some (Some b) => exists n, nth_error (cells m) p = Some (Live n (upd init b))
  | _, _ => False
  end.
Definition agrees (m : mem R) (vs : values) : Prop :=
  length (vars m) = length vs /\
  forall v x y, nth_error (vars m) v = Some x -> nth_error vs v = Some y -> holds m x y.
Definition good (m : mem R) (vs : values) : Prop := counted m /\ positive m /\ agrees m vs.

Lemma agrees_at m vs v y : agrees m vs -> nth_error vs v = Some y ->
  exists x, nth_error (vars m) v = Some x /\ holds m x y.
Proof.
  intros [L A] H. destruct (nth_error (vars m) v) as [x|] eqn:E.
  - exists x; split; [reflexivity|]. eapply A; eauto.
  - apply nth_error_None in E. pose proof (nth_lt _ _ _ H). lia.
Qed.

(* The registers of the cells that variables see. *)
Definition keeps (m m' : mem R) : Prop :=
  forall p n r, nth_error (cells m) p = Some (Live n r) -> 0 < owners (vars m') p ->
    exists n', nth_error (cells m') p = Some (Live n' r).

Lemma holds_keep m m' x y : keeps m m' -> (forall p, x = Some (Some p) -> 0 < owners (vars m') p) ->
  holds m x y -> holds m' x y.
Proof.
  intros K P. destruct x as [[p|]|], y as [[b|]|]; cbn; try tauto.
  intros (n & H). destruct (K p n _ H (P p eq_refl)) as (n' & H'). exists n'; exact H'.
Qed.

Lemma owners_of (l : list (option (option nat))) v p : nth_error l v = Some (Some (Some p)) -> 0 < owners l p.
Proof. intros H. pose proof (owners_one l v _ p H) as X. cbn [osth] in X. rewrite hit_self in X. lia. Qed.

Lemma good_make m vs : good m vs -> good (make init m) (vs ++ [Some (Some [])]).
Proof.
  intros (C & P & L & A). unfold make.
  assert (Z0 : owners (vars m) (length (cells m)) = 0).
  { rewrite (C (length (cells m))). assert (nth_error (cells m) (length (cells m)) = None) as -> by (apply nth_error_None; lia).
    reflexivity. }
  split; [|split; [|split]]; cbn [cells vars].
  - intros p. cbn [cells vars]. rewrite owners_app, nth_snoc2. cbn [owners osth].
    destruct (Nat.eqb_spec p (length (cells m))) as [->|N].
    + rewrite hit_self, Z0. reflexivity.
    + rewrite (C p). unfold hit. replace (length (cells m) =? p)%nat with false by (symmetry; apply Nat.eqb_neq; lia). lia.
  - intros p n r. cbn [cells]. rewrite nth_snoc2. destruct (Nat.eqb p (length (cells m))).
    + intros E; injection E as <- <-; lia.
    + apply P.
  - rewrite !app_length; cbn; lia.
  - intros v x y. rewrite !nth_snoc2, L. destruct (Nat.eqb_spec v (length vs)) as [->|N].
    + intros E1 E2; injection E1 as <-; injection E2 as <-. cbn. exists 1. rewrite nth_snoc2, Nat.eqb_refl.
      rewrite upd_nil. reflexivity.
    + intros E1 E2. specialize (A v x y E1 E2). destruct x as [[p|]|], y as [[b|]|]; cbn in *; try tauto.
      destruct A as (n & E). exists n. rewrite nth_snoc2.
      replace (p =? length (cells m))%nat with false by (symmetry; apply Nat.eqb_neq; apply nth_lt in E; lia). exact E.
Qed.

Lemma good_make_null m vs : good m vs -> good (make_null m) (vs ++ [Some None]).
Proof.
  intros (C & P & L & A). unfold make_null.
  split; [|split; [|split]]; cbn [cells vars].
  - intros p. cbn [cells vars]. rewrite owners_app. cbn. rewrite (C p). lia.
  - exact P.
  - rewrite !app_length; cbn; lia.
  - intros v x y. rewrite !nth_snoc2, L. destruct (Nat.eqb_spec v (length vs)) as [->|N].
    + intros E1 E2; injection E1 as <-; injection E2 as <-. exact I.
    + intros E1 E2. exact (A v x y E1 E2).
Qed.

(* Changing the counts only: the state between acquiring and releasing. *)
Definition same_regs (m m' : mem R) : Prop :=
  length (cells m) = length (cells m') /\
  forall p n r, nth_error (cells m) p = Some (Live n r) -> exists n', nth_error (cells m') p = Some (Live n' r).

Lemma acquire_ok m vs v x : good m vs -> nth_error (vars m) v = Some (Some x) ->
  exists m1, acquire m x = Ok m1 /\ vars m1 = vars m /\ same_regs m m1 /\ positive m1 /\
    forall p, match nth_error (cells m1) p with Some (Live n _) => n | _ => 0 end = owners (vars m) p + hit p x.
Proof.
  intros (C & P & L & A) Hv. destruct x as [p|]; cbn [acquire].
  - destruct (nth_error (cells m) p) as [[n r|]|] eqn:E.
    + unfold get_cell. rewrite E. cbn [obind fst snd]. eexists; split; [reflexivity|].
      unfold set_cell; cbn [cells vars]. assert (Lp := nth_lt _ _ _ E).
      split; [reflexivity|]. split; [split|split].
      * cbn [cells]. rewrite set_nth_length. reflexivity.
      * intros q n' r' Eq. cbn [cells]. destruct (Nat.eq_dec p q) as [<-|N].
        -- rewrite nth_set_same by exact Lp. rewrite E in Eq; injection Eq as <- <-. eauto.
        -- rewrite nth_set_other by exact N. eauto.
      * intros q n' r'. cbn [cells]. destruct (Nat.eq_dec p q) as [<-|N].
        -- rewrite nth_set_same by exact Lp. intros X; injection X as <- <-. specialize (P _ _ _ E). lia.
        -- rewrite nth_set_other by exact N. apply P.
      * intros q. rewrite (C q). cbn [cells]. unfold hit. destruct (Nat.eqb_spec p q) as [<-|N].
        -- rewrite nth_set_same by exact Lp. rewrite E. reflexivity.
        -- rewrite nth_set_other by exact N. lia.
    + exfalso. pose proof (owners_of _ _ _ Hv) as X. rewrite (C p), E in X. lia.
    + exfalso. pose proof (owners_of _ _ _ Hv) as X. rewrite (C p), E in X. lia.
  - exists m. split; [reflexivity|]. split; [reflexivity|]. split; [split; [reflexivity|eauto]|].
    split; [exact P|]. intros p. rewrite (C p). cbn. lia.
Qed.

(* Releasing one more reference than the variables hold makes the counts right again. *)
Lemma release_ok m x : positive m ->
  (forall p, match nth_error (cells m) p with Some (Live n _) => n | _ => 0 end = owners (vars m) p + hit p x) ->
  exists m1, release m x = Ok m1 /\ vars m1 = vars m /\ counted m1 /\ positive m1 /\
    length (cells m1) = length (cells m) /\
    (forall p n r, nth_error (cells m) p = Some (Live n r) -> 0 < owners (vars m) p ->
       exists n', nth_error (cells m1) p = Some (Live n' r)).
Proof.
  intros P C. destruct x as [p|]; cbn [release].
  - pose proof (C p) as Cp. rewrite hit_self in Cp. pose proof (owners_nonneg (vars m) p) as O0.
    destruct (nth_error (cells m) p) as [[n r|]|] eqn:E; [|lia|lia].
    assert (Lp := nth_lt _ _ _ E).
    unfold get_cell. rewrite E. cbn [obind fst snd]. eexists; split; [reflexivity|].
    unfold set_cell; cbn [cells vars]. split; [reflexivity|]. split; [|split; [|split]].
    + intros q. cbn [cells vars]. pose proof (C q) as Cq. unfold hit in Cq. destruct (Nat.eqb_spec p q) as [Epq|N].
      * subst q. rewrite nth_set_same by exact Lp. rewrite E in Cq. destruct (Z.eqb_spec (n - 1) 0); lia.
      * rewrite nth_set_other by exact N. lia.
    + intros q n' r'. cbn [cells]. destruct (Nat.eq_dec p q) as [<-|N].
      * rewrite nth_set_same by exact Lp. destruct (Z.eqb_spec (n - 1) 0); [discriminate|].
        intros X; injection X as <- <-. specialize (P _ _ _ E). lia.
      * rewrite nth_set_other by exact N. apply P.
    + rewrite set_nth_length. reflexivity.
    + intros q n' r' Eq Oq. destruct (Nat.eq_dec p q) as [<-|N].
      * rewrite nth_set_same by exact Lp. rewrite E in Eq; injection Eq as <- <-.
        destruct (Z.eqb_spec (n - 1) 0); [lia|]. eauto.
      * rewrite nth_set_other by exact N. eauto.
  - exists m. split; [reflexivity|]. split; [reflexivity|]. split; [|split; [exact P|split; [reflexivity|eauto]]].
    intros p. rewrite (C p). cbn. lia.
Qed.

Lemma get_var_at (m : mem R) v x : nth_error (vars m) v = Some (Some x) -> get_var m v = Ok x.
Proof. intros H. unfold get_var. rewrite H. reflexivity. Qed.

Lemma step_copy m vs v y : good m vs -> nth_error vs v = Some (Some y) ->
  exists m1, copy m v = Ok m1 /\ good m1 (vs ++ [Some y]).
Proof.
  intros G Hv. destruct (agrees_at m vs v _ (proj2 (proj2 G)) Hv) as (x0 & Ex & Hx).
  destruct x0 as [x|]; [|destruct y; destruct Hx].
  unfold copy. rewrite (get_var_at _ _ _ Ex). cbn [obind].
  destruct (acquire_ok m vs v x G Ex) as (m1 & -> & V1 & (L1 & S1) & P1 & C1). cbn [obind].
  eexists; split; [reflexivity|]. destruct G as (C & P & L & A).
  split; [|split; [|split]]; cbn [cells vars].
  - intros p. cbn [cells vars]. rewrite owners_app, V1, C1. cbn. destruct x; lia.
  - exact P1.
  - rewrite V1, !app_length, L; reflexivity.
  - intros u a b. rewrite V1, !nth_snoc2, L.
    assert (T : forall a b, holds m a b -> holds (Mem (cells m1) (vars m ++ [Some x])) a b).
    { intros a' b' H. destruct a' as [[p|]|], b' as [[w|]|]; cbn in *; try tauto.
      destruct H as (n & H). exact (S1 _ _ _ H). }
    destruct (Nat.eqb u (length vs)).
    + intros E1 E2; injection E1 as <-; injection E2 as <-. apply T, Hx.
    + intros E1 E2. apply T. eapply A; eauto.
Qed.

Lemma step_assign m vs v w y z : good m vs -> nth_error vs v = Some (Some z) -> nth_error vs w = Some (Some y) ->
  exists m1, assign m v w = Ok m1 /\ good m1 (set_nth vs v (Some y)).
Proof.
  intros G Hv Hw. destruct (agrees_at m vs v _ (proj2 (proj2 G)) Hv) as (o0 & Eo & Ho).
  destruct o0 as [old|]; [|destruct z; destruct Ho].
  destruct (agrees_at m vs w _ (proj2 (proj2 G)) Hw) as (x0 & Ex & Hx).
  destruct x0 as [x|]; [|destruct y; destruct Hx].
  unfold assign. rewrite (get_var_at _ _ _ Ex), (get_var_at _ _ _ Eo). cbn [obind].
  destruct (acquire_ok m vs w x G Ex) as (m1 & -> & V1 & (L1 & S1) & P1 & C1). cbn [obind].
  destruct (release_ok (set_var m1 v (Some x)) old) as (m2 & E2 & V2 & C2 & P2 & L2 & S2).
  { exact P1. }
  { intros p. unfold set_var; cbn [cells vars]. rewrite C1, V1, (owners_set _ _ _ _ p Eo). cbn [osth]. lia. }
  exists m2. split; [exact E2|]. unfold set_var in *; cbn [cells vars] in *. rewrite V1 in *.
  assert (LV := nth_lt _ _ _ Eo). destruct G as (C & P & L & A).
  split; [exact C2|]. split; [exact P2|]. split.
  - rewrite V2, !set_nth_length. exact L.
  - intros u a b. rewrite V2, !nth_set by lia.
    assert (T : forall u0 a b, nth_error (set_nth (vars m) v (Some x)) u0 = Some a -> holds m a b -> holds m2 a b).
    { intros u0 a' b' Hu H. destruct a' as [[p|]|], b' as [[c|]|]; cbn in *; try tauto.
      destruct H as (n & H). destruct (S1 _ _ _ H) as (n1 & H1). eapply S2; [exact H1|]. eapply owners_of; exact Hu. }
    destruct (Nat.eqb_spec v u) as [<-|N].
    + intros E3 E4; injection E3 as <-; injection E4 as <-.
      apply (T v); [rewrite nth_set_same by exact LV; reflexivity|exact Hx].
    + intros E3 E4. apply (T u); [rewrite nth_set_other by congruence; exact E3|]. eapply A; eauto.
Qed.

Lemma step_drop m vs v z : good m vs -> nth_error vs v = Some (Some z) ->
  exists m1, drop m v = Ok m1 /\ good m1 (set_nth vs v None).
Proof.
  intros G Hv. destruct (agrees_at m vs v _ (proj2 (proj2 G)) Hv) as (o0 & Eo & Ho).
  destruct o0 as [old|]; [|destruct z; destruct Ho]. destruct G as (C & P & L & A).
  unfold drop. rewrite (get_var_at _ _ _ Eo). cbn [obind].
  destruct (release_ok (set_var m v None) old) as (m2 & E2 & V2 & C2 & P2 & L2 & S2).
  { exact P. }
  { intros p. unfold set_var; cbn [cells vars]. rewrite <- C, (owners_set _ _ _ _ p Eo). cbn [osth]. cbn. lia. }
  exists m2. split; [exact E2|]. unfold set_var in *; cbn [cells vars] in *.
  assert (LV := nth_lt _ _ _ Eo).
  split; [exact C2|]. split; [exact P2|]. split.
  - rewrite V2, !set_nth_length. exact L.
  - intros u a b. rewrite V2, !nth_set by lia. destruct (Nat.eqb_spec v u) as [<-|N].
    + intros E3 E4; injection E3 as <-; injection E4 as <-. exact I.
    + intros E3 E4. specialize (A u a b E3 E4).
      destruct a as [[p|]|], b as [[c|]|]; cbn in *; try tauto.
      destruct A as (n & H). eapply S2; [exact H|].
      apply (owners_of _ u). rewrite nth_set_other by congruence. exact E3.
Qed.

(* Opening makes the object the variable's own. *)
Lemma open_ok m vs v b : good m vs -> nth_error vs v = Some (Some (Some b)) ->
  exists m1 p, open m v = Ok (m1, p) /\ good m1 vs /\
    nth_error (cells m1) p = Some (Live 1 (upd init b)) /\ nth_error (vars m1) v = Some (Some (Some p)).
Proof.
  intros G Hv. destruct (agrees_at m vs v _ (proj2 (proj2 G)) Hv) as (o0 & Eo & Ho).
  destruct o0 as [[p|]|]; cbn in Ho; try tauto. destruct Ho as (n & Ep).
  unfold open. rewrite (get_var_at _ _ _ Eo). cbn [obind]. unfold get_cell at 1. rewrite Ep. cbn [obind fst snd].
  destruct (Z.eqb_spec n 1) as [->|Hn]; [exists m, p; auto|].
  destruct G as (C & P & L & A). set (q := length (cells m)).
  set (m1 := set_var (Mem (cells m ++ [Live 1 (upd init b)]) (vars m)) v (Some (Some q))).
  assert (LV := nth_lt _ _ _ Eo). assert (Lp := nth_lt _ _ _ Ep).
  assert (Zq : owners (vars m) q = 0).
  { rewrite (C q). assert (nth_error (cells m) q = None) as -> by (apply nth_error_None; unfold q; lia). reflexivity. }
  destruct (release_ok m1 (Some p)) as (m2 & E2 & V2 & C2 & P2 & L2 & S2).
  { intros r k s. unfold m1, set_var; cbn [cells]. rewrite nth_snoc2. destruct (Nat.eqb r (length (cells m))).
    - intros X; injection X as <- <-; lia.
    - apply P. }
  { intros r. unfold m1, set_var; cbn [cells vars]. rewrite nth_snoc2, (owners_set _ _ _ _ r Eo). cbn [osth]. fold q.
    destruct (Nat.eqb_spec r q) as [->|N].
    - rewrite Zq, hit_self. lia.
    - rewrite <- (C r). unfold hit. replace (q =? r)%nat with false by (symmetry; apply Nat.eqb_neq; lia). lia. }
  rewrite E2. cbn [obind]. exists m2, q. split; [reflexivity|]. unfold m1, set_var in *; cbn [cells vars] in *.
  assert (Hq : nth_error (vars m2) v = Some (Some (Some q))) by (rewrite V2; apply nth_set_same, LV).
  assert (S3 : forall r k s, nth_error (cells m) r = Some (Live k s) -> 0 < owners (vars m2) r ->
     exists k', nth_error (cells m2) r = Some (Live k' s)).
  { intros r k s Hr Or. apply (S2 r k).
    - rewrite nth_snoc2. replace (r =? length (cells m))%nat with false; [exact Hr|].
      symmetry; apply Nat.eqb_neq. apply nth_lt in Hr. lia.
    - rewrite <- V2. exact Or. }
  destruct (S2 q 1 (upd init b)) as (k & Ek).
  { rewrite nth_snoc2. unfold q. rewrite Nat.eqb_refl. reflexivity. }
  { rewrite <- V2. eapply owners_of; exact Hq. }
  assert (k = 1).
  { pose proof (C2 q) as X. rewrite Ek, V2, (owners_set _ _ _ _ q Eo) in X. cbn [osth] in X.
    rewrite Zq, hit_self in X. unfold hit in X.
    replace (p =? q)%nat with false in X by (symmetry; apply Nat.eqb_neq; unfold q; lia). lia. }
  subst k. split; [|split; [exact Ek|exact Hq]].
  split; [exact C2|]. split; [exact P2|]. split.
  - rewrite V2, set_nth_length. exact L.
  - intros u x y Hx Hy. pose proof Hx as Hx'. rewrite V2, nth_set in Hx by lia. destruct (Nat.eqb_spec v u) as [<-|N].
    + injection Hx as <-. rewrite Hv in Hy; injection Hy as <-. cbn. exists 1. exact Ek.
    + specialize (A u x y Hx Hy). destruct x as [[r|]|], y as [[c|]|]; cbn in *; try tauto.
      destruct A as (k & H). eapply S3; [exact H|]. eapply owners_of; exact Hx'.
Qed.

Lemma modify_ok m vs v b p f b' : good m vs -> nth_error vs v = Some (Some (Some b)) ->
  nth_error (cells m) p = Some (Live 1 (upd init b)) -> nth_error (vars m) v = Some (Some (Some p)) ->
  f (upd init b) = upd init b' ->
  exists m1, modify m p f = Ok m1 /\ good m1 (set_nth vs v (Some (Some b'))).
Proof.
  intros (C & P & L & A) Hv Ep Ev Hf. unfold modify, get_cell. rewrite Ep. cbn [obind fst snd].
  eexists; split; [reflexivity|]. assert (Lp := nth_lt _ _ _ Ep).
  assert (Lv := nth_lt _ _ _ Hv). rewrite Hf.
  unfold set_cell. split; [|split; [|split]]; cbn [cells vars].
  - intros q. cbn [cells vars]. rewrite (C q). rewrite nth_set by exact Lp. destruct (Nat.eqb_spec p q) as [<-|N]; [|reflexivity].
    rewrite Ep. reflexivity.
  - intros q n r. cbn [cells]. rewrite nth_set by exact Lp. destruct (Nat.eqb_spec p q) as [<-|N].
    + intros X; injection X as <- <-; lia.
    + apply P.
  - rewrite set_nth_length; exact L.
  - intros u x y Hx. rewrite nth_set by exact Lv. destruct (Nat.eqb_spec v u) as [<-|N].
    + intros X; injection X as <-. rewrite Ev in Hx; injection Hx as <-. cbn. exists 1.
      apply nth_set_same, Lp.
    + intros Hy. specialize (A u x y Hx Hy). destruct x as [[r|]|], y as [[c|]|]; cbn in *; try tauto.
      destruct A as (k & H). exists k. rewrite nth_set_other; [exact H|].
      intros ->. pose proof (owners_two (vars m) v _ u _ r N Ev Hx) as X. cbn [osth] in X. rewrite hit_self in X.
      rewrite (C r), Ep in X. lia.
Qed.

Lemma get_cell_at (m : mem R) p n r : nth_error (cells m) p = Some (Live n r) -> get_cell m p = Ok (n, r).
Proof. intros H. unfold get_cell. rewrite H. reflexivity. Qed.

Lemma step_ok m vs o vs' e : good m vs -> deep_step oneshot vs o = Some (vs', e) ->
  exists m', step init upd final m o = Ok (m', e) /\ good m' vs'.
Proof.
  intros G. pose proof G as (C & P & L & A).
  destruct o as [| |v|v w|v|v d|v|v]; cbn [deep_step step].
  - intros H; injection H as <- <-. eexists; split; [reflexivity|]. apply good_make, G.
  - intros H; injection H as <- <-. eexists; split; [reflexivity|]. apply good_make_null, G.
  - destruct (nth_error vs v) as [[y|]|] eqn:Ev; try discriminate. intros H; injection H as <- <-.
    destruct (step_copy m vs v y G Ev) as (m1 & -> & G1). exists m1. split; [reflexivity|exact G1].
  - destruct (nth_error vs v) as [[z|]|] eqn:Ev; try discriminate.
    destruct (nth_error vs w) as [[y|]|] eqn:Ew; try discriminate. intros H; injection H as <- <-.
    rewrite put_set by (eapply nth_lt; exact Ev).
    destruct (step_assign m vs v w y z G Ev Ew) as (m1 & -> & G1). exists m1. split; [reflexivity|exact G1].
  - destruct (nth_error vs v) as [[z|]|] eqn:Ev; try discriminate. intros H; injection H as <- <-.
    rewrite put_set by (eapply nth_lt; exact Ev).
    destruct (step_drop m vs v z G Ev) as (m1 & -> & G1). exists m1. split; [reflexivity|exact G1].
  - destruct (nth_error vs v) as [[[b|]|]|] eqn:Ev; try discriminate; intros H; injection H as <- <-.
    + rewrite put_set by (eapply nth_lt; exact Ev).
      destruct (open_ok m vs v b G Ev) as (m1 & p & E1 & G1 & Ep & Epv).
      destruct (modify_ok m1 vs v b p (fun r => upd r d) (b ++ d) G1 Ev Ep Epv) as (m2 & E2 & G2); [cbn; rewrite upd_app; reflexivity|].
      unfold do_update. rewrite E1. cbn [obind fst snd]. rewrite E2. exists m2. split; [reflexivity|exact G2].
    + destruct (agrees_at m vs v _ (conj L A) Ev) as (x0 & Ex & Hx). destruct x0 as [[p|]|]; cbn in Hx; try tauto.
      unfold do_update, open. rewrite (get_var_at _ _ _ Ex). exists m; split; [reflexivity|exact G].
  - destruct (nth_error vs v) as [[[b|]|]|] eqn:Ev; try discriminate; intros H; injection H as <- <-.
    + rewrite put_set by (eapply nth_lt; exact Ev).
      destruct (open_ok m vs v b G Ev) as (m1 & p & E1 & G1 & Ep & Epv).
      destruct (modify_ok m1 vs v b p (fun _ => init) [] G1 Ev Ep Epv) as (m2 & E2 & G2); [rewrite upd_nil; reflexivity|].
      unfold do_finish. rewrite E1. cbn [obind fst snd]. rewrite (get_cell_at _ _ _ _ Ep). cbn [obind fst snd].
      rewrite E2. exists m2. split; [reflexivity|exact G2].
    + destruct (agrees_at m vs v _ (conj L A) Ev) as (x0 & Ex & Hx). destruct x0 as [[p|]|]; cbn in Hx; try tauto.
      unfold do_finish, open. rewrite (get_var_at _ _ _ Ex). exists m; split; [reflexivity|exact G].
  - destruct (nth_error vs v) as [[[b|]|]|] eqn:Ev; try discriminate; intros H; injection H as <- <-.
    + rewrite put_set by (eapply nth_lt; exact Ev).
      destruct (open_ok m vs v b G Ev) as (m1 & p & E1 & G1 & Ep & Epv).
      destruct (modify_ok m1 vs v b p (fun _ => init) [] G1 Ev Ep Epv) as (m2 & E2 & G2); [rewrite upd_nil; reflexivity|].
      unfold do_clear. rewrite E1. cbn [obind fst snd]. rewrite E2. exists m2. split; [reflexivity|exact G2].
    + destruct (agrees_at m vs v _ (conj L A) Ev) as (x0 & Ex & Hx). destruct x0 as [[p|]|]; cbn in Hx; try tauto.
      unfold do_clear, open. rewrite (get_var_at _ _ _ Ex). exists m; split; [reflexivity|exact G].
Qed.

Lemma run_ok ops : forall m vs vs' es, good m vs -> deep_run oneshot vs ops = Some (vs', es) ->
  exists m', run init upd final m ops = Ok (m', es) /\ good m' vs'.
Proof.
  induction ops as [|o ops IH]; intros m vs vs' es G; cbn [deep_run run].
  - intros H; injection H as <- <-. eauto.
  - destruct (deep_step oneshot vs o) as [[vs1 e]|] eqn:E1; [|discriminate].
    destruct (deep_run oneshot vs1 ops) as [[vs2 es']|] eqn:E2; [|discriminate].
    intros H; injection H as <- <-.
    destruct (step_ok m vs o vs1 e G E1) as (m1 & -> & G1). cbn [obind fst snd].
    destruct (IH m1 vs1 vs2 es' G1 E2) as (m2 & -> & G2). exists m2; split; [reflexivity|exact G2].
Qed.

Definition empty_mem : mem R := Mem [] [].
Lemma good_empty : good empty_mem [].
Proof.
  split; [|split; [|split]].
  - intros p. cbn. destruct p; reflexivity.
  - intros p n r. cbn. destruct p; discriminate.
  - reflexivity.
  - intros v x y H. destruct v; discriminate.
Qed.

Lemma history ops vs es : deep_run oneshot [] ops = Some (vs, es) ->
  exists m, run init upd final empty_mem ops = Ok (m, es) /\
    (forall p n r, nth_error (cells m) p = Some (Live n r) ->
       exists v b, nth_error (vars m) v = Some (Some (Some p)) /\ nth_error vs v = Some (Some (Some b))).
Proof.
  intros H. destruct (run_ok ops _ _ _ _ good_empty H) as (m & E & C & P & L & A).
  exists m. split; [exact E|]. intros p n r Hp.
  pose proof (C p) as X. rewrite Hp in X. specialize (P _ _ _ Hp).
  assert (I : In (Some (Some p)) (vars m)) by (apply owners_pos; lia).
  apply In_nth_error in I as (v & Hv). exists v.
  destruct (nth_error vs v) as [y|] eqn:Ey.
  - specialize (A v _ y Hv Ey). destruct y as [[b|]|]; cbn in A; try tauto. exists b. auto.
  - apply nth_error_None in Ey. apply nth_lt in Hv. lia.
Qed.

Lemma file_ok reads : forall r,
  hash_chunks upd final r reads =
  match content reads with Some c => Ok (final (upd r c)) | None => Throw end.
Proof.
  induction reads as [|[[|c t]|] reads IH]; intros r; cbn [hash_chunks content]; try reflexivity.
  - rewrite upd_nil. reflexivity.
  - rewrite upd_nil. reflexivity.
  - rewrite IH. destruct (content reads); [|reflexivity]. rewrite upd_app. reflexivity.
Qed.
End H.

Lemma fnv_nil r : fnv_upd r [] = r.
Proof. reflexivity. Qed.
Lemma fnv_app r a b : fnv_upd r (a ++ b) = fnv_upd (fnv_upd r a) b.
Proof. apply fold_left_app. Qed.
Lemma fnv_oneshot s : fnv_final (fnv_upd fnv_init s) = fnv1a s.
Proof.
  unfold fnv1a, fnv_final. induction s as [|b s IH] using rev_ind; [reflexivity|].
  rewrite fnv_app, IH, rev_app_distr. reflexivity.
Qed.

Lemma sha_text bs : Forall (fun b => 0 <= b < 256) bs -> copy_sha_result bs = hex_text bs.
Proof.
  assert (S : forall d, 0 <= d < 16 -> sha_char d = hex_char d).
  { intros d Hd. assert (Q : forallb (fun n => sha_char (Z.of_nat n) =? hex_char (Z.of_nat n)) (seq 0 16) = true) by (vm_compute; reflexivity).
    rewrite forallb_forall in Q. specialize (Q (Z.to_nat d)). rewrite Z2Nat.id in Q by lia. apply Z.eqb_eq, Q.
    apply in_seq. lia. }
  intros H. unfold copy_sha_result, hex_text. induction H as [|b bs Hb _ IH]; [reflexivity|]. cbn [flat_map].
  rewrite IH. change 15 with (Z.ones 4). rewrite !Z.land_ones, Z.shiftr_0_r, Z.shiftr_div_pow2 by lia.
  change (2 ^ 4) with 16. rewrite (Z.mod_small (b / 16)) by (split; [apply Z.div_pos; lia|apply Z.div_lt_upper_bound; lia]).
  rewrite !S; [reflexivity|apply Z.mod_pos_bound; lia|split; [apply Z.div_pos; lia|apply Z.div_lt_upper_bound; lia]].
Qed.
