From Verif Require Import Base StrStreamModel StrStreamSpec.

Lemma resize_length t n : 0 <= n -> Z.of_nat (length (resize t n)) = n.
Proof.
  intros N. unfold resize. destruct (Z.ltb_spec (Z.of_nat (length t)) n).
  - rewrite app_length, repeat_length. lia.
  - rewrite firstn_length. lia.
Qed.
Lemma nth_firstn {X} (l : list X) : forall k i, nth_error (firstn k l) i = if (i <? k)%nat then nth_error l i else None.
Proof.
  induction l as [|x l IH]; intros k i.
  - rewrite firstn_nil. destruct (i <? k)%nat; [reflexivity|]. now destruct i.
  - destruct k as [|k], i as [|i]; try reflexivity. cbn [firstn nth_error]. rewrite IH. reflexivity.
Qed.
Lemma nth_skipn {X} (l : list X) : forall k i, nth_error (skipn k l) i = nth_error l (k + i).
Proof. induction l as [|x l IH]; intros [|k] i; cbn; try reflexivity; [now destruct i|]. apply IH. Qed.
Lemma nth_resize t n i : Z.of_nat i < n -> nth_error (resize t n) i = match nth_error t i with Some c => Some c | None => Some 0 end.
Proof.
  intros L. unfold resize. destruct (Z.ltb_spec (Z.of_nat (length t)) n) as [M|M].
  - destruct (Nat.lt_ge_cases i (length t)) as [K|K].
    + rewrite nth_error_app1 by exact K. destruct (nth_error t i) eqn:E; [reflexivity|]. apply nth_error_None in E. lia.
    + rewrite nth_error_app2 by exact K. rewrite (proj2 (nth_error_None t i) K).
      rewrite (nth_error_nth' _ 0) by (rewrite repeat_length; lia). f_equal. apply nth_repeat.
  - rewrite nth_firstn. destruct (Nat.ltb_spec i (Z.to_nat n)); [|lia]. destruct (nth_error t i) eqn:E; [reflexivity|]. apply nth_error_None in E. lia.
Qed.
Lemma put_mid t o l : 0 <= o -> exists t', overwrite (resize t (o + Z.of_nat (length l))) o l = Ok t' /\ written t o l t'.
Proof.
  intros O. set (u := resize t (o + Z.of_nat (length l))). assert (L : Z.of_nat (length u) = o + Z.of_nat (length l)) by (apply resize_length; lia).
  unfold overwrite. destruct (Nat.leb_spec (Z.to_nat o + length l) (length u)); [|lia]. rewrite skipn_all2 by lia. rewrite app_nil_r.
  assert (K : length (firstn (Z.to_nat o) u) = Z.to_nat o) by (rewrite firstn_length; lia).
  eexists. split; [reflexivity|]. split; [rewrite app_length, K; lia|]. intros i. split; intros I.
  - rewrite nth_error_app2 by lia. now rewrite K.
  - rewrite nth_error_app1 by lia. rewrite nth_firstn. destruct (Nat.ltb_spec i (Z.to_nat o)); [|lia]. apply nth_resize. lia.
Qed.
Lemma put_end t l : written t (Z.of_nat (length t)) l (t ++ l).
Proof.
  split; [rewrite app_length; lia|]. intros i. split; intros I.
  - rewrite nth_error_app2 by lia. now rewrite Nat2Z.id.
  - rewrite nth_error_app1 by lia. destruct (nth_error t i) eqn:E; [reflexivity|]. apply nth_error_None in E. lia.
Qed.
Lemma written_chars t o l t' : written t o l t' -> Forall (fun c => -128 <= c <= 127) t -> Forall (fun c => -128 <= c <= 127) l -> Forall (fun c => -128 <= c <= 127) t'.
Proof.
  intros (_ & W) T L. apply Forall_forall. intros c I. apply In_nth_error in I. destruct I as (i & I). destruct (W i) as [W1 W2].
  rewrite Forall_forall in T, L. destruct (Z.le_gt_cases o (Z.of_nat i)) as [B|B].
  - rewrite (W1 B) in I. apply L. eapply nth_error_In. exact I.
  - rewrite (W2 ltac:(lia)) in I. destruct (nth_error t i) eqn:E; injection I as <-; [|lia]. apply T. eapply nth_error_In. exact E.
Qed.
Lemma putn_ok max s l : good max s -> Forall (fun c => -128 <= c <= 127) l ->
  match putn max s l with
  | Ok s' => can_write s = true /\ good max s' /\ same_mode s s' /\ off s' = start s + Z.of_nat (length l) /\ written (text s) (start s) l (text s')
  | Throw => can_write s = false \/ max < start s + Z.of_nat (length l)
  | UB => False
  end.
Proof.
  intros (O & M & T) L. unfold putn. destruct (can_write s) eqn:W; cbn [negb]; [|auto].
  assert (A : append_mode s || (off s =? size s) = true -> start s = size s).
  { unfold start. destruct (append_mode s); [reflexivity|]. cbn [orb]. lia. }
  assert (F : forall t', written (text s) (start s) l t' -> start s + Z.of_nat (length l) <= max -> 0 <= start s ->
    good max (with_ s t' (start s + Z.of_nat (length l))) /\ same_mode s (with_ s t' (start s + Z.of_nat (length l)))).
  { intros t' P B S0. split; [|repeat split]. unfold good, size. cbn [off text with_]. rewrite (proj1 P). repeat split; try lia. eapply written_chars; eauto. }
  destruct (append_mode s || (off s =? size s)) eqn:E.
  - specialize (A eq_refl). rewrite <- A. destruct (Z.ltb_spec max (start s + Z.of_nat (length l))) as [B|B]; [auto|].
    pose proof (put_end (text s) l) as P. fold (size s) in P. rewrite <- A in P. rewrite (proj1 P).
    destruct (F _ P B) as [F1 F2]; [rewrite A; unfold size; lia|]. repeat split; try apply F1; try apply P. all: reflexivity.
  - apply orb_false_elim in E. destruct E as [E1 E2]. assert (S0 : start s = off s) by (unfold start; now rewrite E1). rewrite <- S0 in *.
    destruct (Z.gtb_spec (start s) max) as [B|B]; cbn [orb]; [right; lia|].
    destruct (Z.gtb_spec (Z.of_nat (length l)) (max - start s)) as [B'|B']; [right; lia|].
    destruct (put_mid (text s) (start s) l ltac:(lia)) as (t' & -> & P). destruct (F _ P ltac:(lia) ltac:(lia)) as [F1 F2].
    split; [reflexivity|]. split; [exact F1|]. split; [exact F2|]. split; [reflexivity|exact P].
Qed.
Lemma putc_ok max s c : good max s -> putc max s c = putn max s [c].
Proof.
  intros (O & M & T). unfold putc, putn. cbn [length]. change (Z.of_nat 1) with 1. destruct (negb (can_write s)); [reflexivity|].
  destruct (append_mode s || (off s =? size s)); [reflexivity|].
  replace (off s >=? max) with ((off s >? max) || (1 >? max - off s)) by lia. reflexivity.
Qed.
Lemma getn_ok max s n : good max s -> 0 <= n ->
  match getn s n with
  | Ok (r, s') => can_read s = true /\ good max s' /\ same_mode s s' /\ text s' = text s /\ off s' = off s + Z.of_nat (length r) /\ read_at (text s) (off s) n r
  | Throw => can_read s = false
  | UB => False
  end.
Proof.
  intros (O & M & T) N. unfold getn. destruct (can_read s) eqn:R; cbn [negb]; [|reflexivity]. destruct (Z.geb_spec (off s) (size s)) as [B|B].
  - split; [reflexivity|]. split; [repeat split; auto; lia|]. split; [repeat split|]. split; [reflexivity|]. split; [cbn; lia|].
    split; [cbn; lia|]. split; [cbn; intros; lia|]. intros _. apply nth_error_None. unfold size in B. cbn. lia.
  - set (r := Z.min n (size s - off s)). set (l := firstn _ _).
    assert (E : Z.of_nat (length l) = r). { unfold l. rewrite firstn_length, skipn_length. unfold r, size in *. lia. }
    split; [reflexivity|]. split; [|split; [|split; [|split]]].
    + unfold good, size. cbn [off text with_]. fold (size s). repeat split; auto; unfold r; lia.
    + repeat split; auto.
    + reflexivity.
    + cbn [off with_]. lia.
    + split; [lia|]. split.
      * intros i I. unfold l. rewrite nth_firstn. destruct (Nat.ltb_spec i (Z.to_nat r)); [|lia]. apply nth_skipn.
      * intros I. apply nth_error_None. unfold r, size in *. lia.
Qed.
Lemma getc_ok max s : good max s ->
  match getn s 1 with
  | Ok ([], s') => getc s = Ok (-1, s')
  | Ok (c :: _, s') => exists u, getc s = Ok (u, s') /\ 0 <= u < 256 /\ (u = c \/ u = c + 256)
  | Throw => getc s = Throw
  | UB => False
  end.
Proof.
  intros (O & M & T). unfold getn, getc. destruct (negb (can_read s)); [reflexivity|]. destruct (Z.geb_spec (off s) (size s)) as [B|B]; [reflexivity|].
  replace (Z.min 1 (size s - off s)) with 1 by lia. change (Z.to_nat 1) with 1%nat.
  destruct (skipn (Z.to_nat (off s)) (text s)) as [|c l] eqn:E.
  - exfalso. assert (length (skipn (Z.to_nat (off s)) (text s)) = 0%nat) as H by now rewrite E. rewrite skipn_length in H. unfold size in B. lia.
  - cbn [firstn]. assert (C : nth_error (text s) (Z.to_nat (off s)) = Some c). { rewrite <- (Nat.add_0_r (Z.to_nat (off s))), <- nth_skipn, E. reflexivity. }
    rewrite C. eexists. split; [reflexivity|]. rewrite Forall_forall in T. pose proof (T c (nth_error_In _ _ C)). cbn beta in *. 
    pose proof (Z.mod_pos_bound c 256 ltac:(lia)). pose proof (Z.div_mod c 256 ltac:(lia)). split; [lia|]. lia.
Qed.
Lemma seek_ok max s o dir : good max s -> - 2 ^ 63 <= o < 2 ^ 63 ->
  let targ := match dir with Seek_set => 0 | Seek_cur => off s | Seek_end => size s end + o in
  (0 <= targ < 2 ^ 63 /\ exists s', seek s o dir = Ok s' /\ good max s' /\ same_mode s s' /\ text s' = text s /\ off s' = targ) \/
  (~ 0 <= targ < 2 ^ 63 /\ seek s o dir = Throw).
Proof.
  intros (O & M & T) B targ. unfold seek, add64. fold targ. set (P := 2 ^ 63) in *.
  destruct (Z.leb_spec (- P) targ); destruct (Z.ltb_spec targ P); cbn [andb]; try (right; split; [lia|reflexivity]).
  destruct (Z.ltb_spec targ 0); [right; split; [lia|reflexivity]|]. left. split; [lia|]. eexists. split; [reflexivity|].
  split; [|repeat split]. unfold good, size. cbn [off text with_]. fold (size s). fold P. repeat split; auto; lia.
Qed.
Lemma list_ext {X} (a b : list X) : length a = length b -> (forall i, (i < length a)%nat -> nth_error a i = nth_error b i) -> a = b.
Proof.
  revert b. induction a as [|x a IH]; intros [|y b] L E; cbn in L; try lia; [reflexivity|].
  f_equal; [specialize (E O ltac:(cbn; lia)); cbn in E; congruence|]. apply IH; [lia|]. intros i I. apply (E (S i)). cbn. lia.
Qed.
Lemma back_ok max s l : good max s -> Forall (fun c => -128 <= c <= 127) l -> can_read s = true -> forall s1, putn max s l = Ok s1 ->
  exists s2 s3, seek s1 (start s) Seek_set = Ok s2 /\ getn s2 (Z.of_nat (length l)) = Ok (l, s3) /\ text s3 = text s1 /\ off s3 = off s1.
Proof.
  intros G L R s1 E. pose proof (putn_ok max s l G L) as P. rewrite E in P. destruct P as (_ & G1 & (R1 & _) & O1 & (W1 & W2)).
  assert (S0 : 0 <= start s) by (unfold start, size; destruct G; destruct (append_mode s); lia).
  assert (B : start s < 2 ^ 63) by (destruct G1 as ((? & ?) & _); lia).
  destruct (seek_ok max s1 (start s) Seek_set G1 ltac:(lia)) as [(_ & s2 & E2 & G2 & (R2 & _) & T2 & O2)|[N _]]; [|cbn in N; lia].
  cbn in O2. pose proof (getn_ok max s2 (Z.of_nat (length l)) G2 ltac:(lia)) as Q. destruct (getn s2 (Z.of_nat (length l))) as [[r s3]| |] eqn:E3; [|congruence|contradiction].
  destruct Q as (_ & _ & _ & T3 & O3 & (L1 & L2 & L3)). rewrite O2, T2 in *. exists s2, s3.
  assert (LR : length r = length l).
  { destruct (Z.lt_ge_cases (Z.of_nat (length r)) (Z.of_nat (length l))) as [K|K]; [|lia]. apply L3, nth_error_None in K. lia. }
  assert (r = l).
  { apply list_ext; [exact LR|]. intros i I. rewrite L2 by exact I. rewrite (proj1 (W2 _)) by lia. f_equal. lia. }
  subst r. repeat split; auto. lia.
Qed.
