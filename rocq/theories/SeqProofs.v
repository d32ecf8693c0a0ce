From Verif Require Import Base Monad Lists IntOpsModel SortSpec SeqModel SeqSpec.

(* ---- windows ---- *)
Lemma window_none {A} lo hi (l : list A) : forall i, hi <= i -> window lo hi i l = [].
Proof.
  induction l as [|x t IH]; intros i H; cbn [window]; [reflexivity|].
  destruct (Z.ltb_spec i hi); [lia|]. rewrite andb_false_r. apply IH. lia.
Qed.
Lemma window_from {A} lo hi (l : list A) : forall i, lo <= i -> window lo hi i l = firstn (Z.to_nat (hi - i)) l.
Proof.
  induction l as [|x t IH]; intros i H; cbn [window].
  - rewrite firstn_nil. reflexivity.
  - destruct (Z.leb_spec lo i); [|lia]. destruct (Z.ltb_spec i hi); cbn [andb].
    + replace (Z.to_nat (hi - i)) with (S (Z.to_nat (hi - (i + 1)))) by lia. cbn [firstn].
      rewrite IH by lia. reflexivity.
    + rewrite window_none by lia. replace (Z.to_nat (hi - i)) with O by lia. reflexivity.
Qed.
Lemma window_sub {A} lo hi (l : list A) : forall i, i <= lo ->
  window lo hi i l = firstn (Z.to_nat (hi - lo)) (skipn (Z.to_nat (lo - i)) l).
Proof.
  induction l as [|x t IH]; intros i H.
  - rewrite skipn_nil, firstn_nil. reflexivity.
  - destruct (Z.eq_dec i lo) as [->|N].
    + rewrite window_from by lia. rewrite Z.sub_diag. reflexivity.
    + cbn [window]. destruct (Z.leb_spec lo i); [lia|]. cbn [andb]. rewrite IH by lia.
      replace (Z.to_nat (lo - i)) with (S (Z.to_nat (lo - (i + 1)))) by lia. reflexivity.
Qed.

Lemma slice_from_ok n b len : 0 <= b <= n ->
  slice_from n b len = Ok (b, match len with None => n | Some len => clamp b n (b + len) end).
Proof.
  intros H. unfold slice_from, clamp, iter. destruct len as [len|]; [|reflexivity].
  destruct (Z.leb_spec (n - b) len); [peq; lia|].
  destruct (Z.leb_spec len 0); [peq; lia|].
  destruct (Z.leb_spec 0 (b + len)); [|lia]. destruct (Z.leb_spec (b + len) n); [|lia].
  cbn [andb obind]. peq. lia.
Qed.
Lemma add_ok x y : is_int64 (x + y) -> add_i64 x y = Ok (x + y).
Proof. intros H. unfold add_i64. apply is_int64b_spec in H. rewrite H. reflexivity. Qed.
Lemma do_slice_ok n from len : 0 <= n <= int64_max -> opt_int64 from -> opt_int64 len ->
  do_slice n from len = Ok (range_low n from, range_high n from len) /\
  0 <= range_low n from <= range_high n from len /\ range_high n from len <= n.
Proof.
  intros Hn Hf Hl. split.
  2:{ unfold range_high, range_low, clamp. generalize (range_start n from) as s. intros s. destruct len; lia. }
  unfold do_slice, range_high, range_low.
  set (f := match from with Some f => f | None => 0 end).
  assert (If : is_int64 f).
  { unfold f. destruct from; [exact Hf|]. unfold is_int64, int64_min, int64_max; lia. }
  unfold range_start. fold f.
  destruct (Z.leb_spec n f).
  - destruct (Z.ltb_spec f 0); [lia|]. unfold clamp. destruct len; peq; lia.
  - destruct (Z.leb_spec 0 f).
    + destruct (Z.ltb_spec f 0); [lia|]. unfold iter.
      destruct (Z.leb_spec 0 f); [|lia]. destruct (Z.leb_spec f n); [|lia]. cbn [andb obind].
      rewrite slice_from_ok by lia. unfold clamp. destruct len; peq; lia.
    + destruct (Z.ltb_spec f 0); [|lia]. rewrite add_ok by (unfold is_int64, int64_min, int64_max in *; lia).
      cbn [obind]. destruct (Z.leb_spec 0 (f + n)).
      * unfold iter. destruct (Z.leb_spec 0 (f + n)); [|lia]. destruct (Z.leb_spec (f + n) n); [|lia]. cbn [andb obind].
        rewrite slice_from_ok by lia. unfold clamp. destruct len; peq; lia.
      * destruct len as [len|]; [|unfold clamp; peq; lia]. cbn [opt_int64] in Hl.
        destruct (Z.leb_spec len 0); [unfold clamp; peq; lia|].
        rewrite add_ok by (unfold is_int64, int64_min, int64_max in *; lia). cbn [obind].
        rewrite slice_from_ok by lia. unfold clamp. peq; lia.
Qed.

(* ---- rotation ---- *)
Section Rotate.
Context {A : Type}.
Implicit Types l a b m pre post : list A.
Lemma nth_error_mid a x b : nth_error (a ++ x :: b) (length a) = Some x.
Proof. rewrite nth_error_app2, Nat.sub_diag by lia. reflexivity. Qed.
Lemma set_nth_mid a x y b : set_nth (a ++ x :: b) (length a) y = a ++ y :: b.
Proof. induction a as [|z a IH]; cbn; [reflexivity|]. rewrite IH. reflexivity. Qed.
Lemma swap_mid pre x m y post :
  swap_at (pre ++ x :: m ++ y :: post) (length pre) (length pre + S (length m)) = Ok (pre ++ y :: m ++ x :: post).
Proof.
  unfold swap_at. rewrite nth_error_mid.
  replace (pre ++ x :: m ++ y :: post) with ((pre ++ x :: m) ++ y :: post) by (rewrite <- app_assoc; reflexivity).
  replace (length pre + S (length m))%nat with (length (pre ++ x :: m)) by (rewrite app_length; reflexivity).
  rewrite nth_error_mid. rewrite <- app_assoc. cbn [app]. rewrite set_nth_mid.
  replace (pre ++ y :: m ++ y :: post) with ((pre ++ y :: m) ++ y :: post) by (rewrite <- app_assoc; reflexivity).
  replace (length (pre ++ x :: m)) with (length (pre ++ y :: m)) by (rewrite !app_length; reflexivity).
  rewrite set_nth_mid, <- app_assoc. reflexivity.
Qed.
Lemma swap_run_ok (on_brk : bool) (stop : nat) a : forall fuel pre m b post, a <> [] -> length a = length b ->
  stop = (if on_brk then length pre + length a + length m + length b else length pre + length a)%nat ->
  (length a <= fuel)%nat ->
  swap_run fuel on_brk stop (pre ++ a ++ m ++ b ++ post) (length pre) (length pre + length a + length m)
  = Ok (pre ++ b ++ m ++ a ++ post, (length pre + length a)%nat, (length pre + length a + length m + length b)%nat).
Proof.
  induction a as [|x a IH]; intros fuel pre m b post N L E F; [contradiction|].
  destruct b as [|y b]; [discriminate|]. destruct fuel as [|fuel]; [cbn in F; lia|].
  cbn [swap_run].
  replace (pre ++ (x :: a) ++ m ++ (y :: b) ++ post) with (pre ++ x :: (a ++ m) ++ y :: (b ++ post))
    by (cbn [app]; rewrite <- app_assoc; reflexivity).
  replace (length pre + length (x :: a) + length m)%nat with (length pre + S (length (a ++ m)))%nat
    by (rewrite app_length; cbn [length]; lia).
  rewrite swap_mid. cbn [obind]. cbv zeta.
  cbn [length] in *.
  destruct a as [|x' a].
  - destruct b; [|discriminate]. cbn [length app] in *.
    replace ((if on_brk then S (length pre + S (length m)) else S (length pre)) =? stop)%nat with true.
    + peq; lia.
    + symmetry. apply Nat.eqb_eq. destruct on_brk; lia.
  - destruct b as [|y' b]; [discriminate|].
    replace ((if on_brk then S (length pre + S (length ((x' :: a) ++ m))) else S (length pre)) =? stop)%nat with false.
    2:{ symmetry. apply Nat.eqb_neq. rewrite app_length. destruct on_brk; cbn [length] in *; lia. }
    specialize (IH fuel (pre ++ [y]) (m ++ [x]) (y' :: b) post ltac:(discriminate) ltac:(lia)).
    rewrite !app_length in IH. cbn [length] in IH.
    replace (pre ++ y :: ((x' :: a) ++ m) ++ x :: (y' :: b) ++ post)
      with ((pre ++ [y]) ++ (x' :: a) ++ (m ++ [x]) ++ (y' :: b) ++ post) by (rewrite <- !app_assoc; reflexivity).
    replace (S (length pre)) with (length pre + 1)%nat by lia.
    replace (S (length pre + S (length ((x' :: a) ++ m))))
      with (length pre + 1 + S (length a) + (length m + 1))%nat by (rewrite app_length; cbn [length]; lia).
    rewrite IH.
    + rewrite <- !app_assoc. cbn [app length]. peq; try reflexivity; cbn [length] in *; rewrite ?app_length; lia.
    + destruct on_brk; cbn [length] in *; lia.
    + cbn [length] in *. lia.
Qed.

Lemma rotate_loop_ok fuel : forall pre L R post, L <> [] -> R <> [] -> (length L + length R <= fuel)%nat ->
  rotate_loop fuel (pre ++ L ++ R ++ post) (length pre) (length pre + length L) (length pre + length L)
    (length pre + length L + length R) (length L) (length R) = Ok (pre ++ R ++ L ++ post).
Proof.
  induction fuel as [|fuel IH]; intros pre L R post NL NR F; [destruct L; [contradiction|cbn in F; lia]|].
  cbn [rotate_loop]. 
  assert (PL : (0 < length L)%nat) by (destruct L; [contradiction|cbn; lia]).
  assert (PR : (0 < length R)%nat) by (destruct R; [contradiction|cbn; lia]).
  destruct (Nat.eqb_spec (length L) (length R)) as [E|NE].
  - pose proof (swap_run_ok false (length pre + length L) L (length (pre ++ L ++ R ++ post)) pre [] R post NL E eq_refl) as S.
    cbn [app length] in S. rewrite Nat.add_0_r in S. rewrite S; [reflexivity|]. rewrite !app_length. lia.
  - destruct (Nat.ltb_spec (length L) (length R)) as [LT|GE].
    + set (R1 := firstn (length L) R). set (R2 := skipn (length L) R).
      assert (ER : R = R1 ++ R2) by (symmetry; apply firstn_skipn).
      assert (LR1 : length L = length R1) by (unfold R1; rewrite firstn_length; lia).
      assert (LR2 : length R2 = (length R - length L)%nat) by (unfold R2; rewrite skipn_length; lia).
      clearbody R1 R2.
      pose proof (swap_run_ok false (length pre + length L) L (length (pre ++ L ++ R ++ post)) pre [] R1 (R2 ++ post) NL LR1 eq_refl) as S.
      cbn [app length] in S. rewrite Nat.add_0_r in S. rewrite ER in *. rewrite <- app_assoc. rewrite <- app_assoc in S.
      rewrite S by (rewrite !app_length; lia). cbn [obind]. cbv zeta. clear S.
      specialize (IH (pre ++ R1) L R2 post NL).
      rewrite !app_length in *. rewrite <- !app_assoc in *. rewrite <- LR1 in *.
      replace (length pre + length L + (length L + length R2) - (length pre + length L + length L))%nat with (length R2) by lia.
      replace (length pre + length L + (length L + length R2))%nat with (length pre + length L + length L + length R2)%nat by lia.
      apply IH; [intros ->; cbn [length] in *; lia|lia].
    + set (L1 := firstn (length R) L). set (L2 := skipn (length R) L).
      assert (EL : L = L1 ++ L2) by (symmetry; apply firstn_skipn).
      assert (LL1 : length L1 = length R) by (unfold L1; rewrite firstn_length; lia).
      assert (LL2 : length L2 = (length L - length R)%nat) by (unfold L2; rewrite skipn_length; lia).
      clearbody L1 L2.
      assert (NL1 : L1 <> []) by (intros Z0; rewrite Z0 in LL1; cbn in LL1; lia).
      pose proof (swap_run_ok true (length pre + length L + length R) L1 (length (pre ++ L ++ R ++ post)) pre L2 R post NL1 LL1) as S.
      rewrite EL in *. rewrite <- app_assoc. rewrite <- app_assoc in S. rewrite !app_length in *.
      replace (length pre + (length L1 + length L2))%nat with (length pre + length L1 + length L2)%nat in * by lia.
      rewrite S by lia. cbn [obind]. cbv zeta. clear S.
      specialize (IH (pre ++ R) L2 L1 post).
      rewrite !app_length in *. rewrite <- !app_assoc in *.
      replace (length pre + length L1 + length L2 - (length pre + length L1))%nat with (length L2) by lia.
      rewrite LL1 in *.
      replace (length pre + length R + length L2 + length R)%nat with (length pre + length R + length L2 + length R)%nat by lia.
      apply IH; auto; [|lia]. intros Z0; rewrite Z0 in *; cbn in *; lia.
Qed.
Lemma rotate_ok (L R : list A) : rotate (L ++ R) 0 (length L) (length (L ++ R)) = Ok (R ++ L).
Proof.
  unfold rotate. rewrite Nat.sub_0_r.
  destruct (Nat.eqb_spec (length L) 0) as [E|N1]; [destruct L; [rewrite app_nil_r; reflexivity|discriminate]|].
  rewrite app_length. replace (length L + length R - length L)%nat with (length R) by lia.
  destruct (Nat.eqb_spec (length R) 0) as [E|N2]; [destruct R; [rewrite app_nil_r; reflexivity|discriminate]|].
  pose proof (rotate_loop_ok (length L + length R) [] L R []) as H. cbn [app length] in H. rewrite !app_nil_r in H.
  apply H; [intros ->; auto|intros ->; auto|lia].
Qed.
Lemma rotate_gen pre L R post : rotate (pre ++ L ++ R ++ post) (length pre) (length pre + length L)
  (length pre + length L + length R) = Ok (pre ++ R ++ L ++ post).
Proof.
  unfold rotate. replace (length pre + length L - length pre)%nat with (length L) by lia.
  destruct (Nat.eqb_spec (length L) 0) as [E|N1]; [destruct L; [reflexivity|discriminate]|].
  replace (length pre + length L + length R - (length pre + length L))%nat with (length R) by lia.
  destruct (Nat.eqb_spec (length R) 0) as [E|N2]; [destruct R; [reflexivity|discriminate]|].
  rewrite !app_length.
  assert (F : forall f f', (f <= f')%nat -> forall l bot brk stp e il ir r,
    rotate_loop f l bot brk stp e il ir = Ok r -> rotate_loop f' l bot brk stp e il ir = Ok r).
  { clear. induction f as [|f IH]; intros f' Hf l bot brk stp e il ir r; destruct f' as [|f']; try lia; cbn [rotate_loop];
      destruct (il =? ir)%nat; auto; try discriminate.
    destruct (il <? ir)%nat.
    - intros H. apply obind_ok in H as ([[l' b'] k'] & E1 & E2). rewrite E1. cbn [obind]. apply (IH f'); [lia|exact E2].
    - intros H. apply obind_ok in H as ([[l' b'] k'] & E1 & E2). rewrite E1. cbn [obind]. apply (IH f'); [lia|exact E2]. }
  apply (F (length L + length R)%nat); [lia|].
  apply rotate_loop_ok; [intros ->; auto|intros ->; auto|lia].
Qed.
Lemma vec_insert_ok a b xs : vec_insert (a ++ b) (length a) xs = Ok (a ++ xs ++ b).
Proof.
  unfold vec_insert. destruct (Nat.ltb_spec (length (a ++ b)) (length a)) as [L|G]; [rewrite app_length in L; lia|].
  pose proof (rotate_gen a b xs []) as H. rewrite !app_nil_r in H. rewrite <- app_assoc, !app_length, Nat.add_assoc. exact H.
Qed.
Lemma vec_erase_ok a m b : vec_erase (a ++ m ++ b) (length a) (length m) = Ok (a ++ b).
Proof.
  unfold vec_erase. destruct (Nat.ltb_spec (length (a ++ m ++ b)) (length a + length m)) as [L|G]; [rewrite !app_length in L; lia|].
  pose proof (rotate_gen a m b []) as H. rewrite !app_nil_r in H. rewrite !app_length, Nat.add_assoc, H. cbn [obind].
  f_equal. rewrite (app_assoc a b m).
  replace (length a + length m + length b - length m)%nat with (length (a ++ b)) by (rewrite app_length; lia).
  apply firstn_length_app.
Qed.
End Rotate.

Section Slice.
Context {A : Type}.
Implicit Types l rep : list A.
Lemma subrange_ok l b e : 0 <= b <= e -> e <= zlen l -> subrange l b e = Ok (window b e 0 l).
Proof.
  intros H1 H2. unfold subrange. destruct (Z.leb_spec 0 b); [|lia]. destruct (Z.leb_spec b e); [|lia].
  destruct (Z.leb_spec e (zlen l)); [|lia]. cbn [andb]. rewrite window_sub by lia.
  rewrite Z.sub_0_r. reflexivity.
Qed.
Lemma slice_ok l from len : fits l -> opt_int64 from -> opt_int64 len ->
  slice l from len = Ok (window (range_low (zlen l) from) (range_high (zlen l) from len) 0 l).
Proof.
  intros Hl Hf Hn. unfold fits in Hl. assert (0 <= zlen l) by (unfold zlen; lia).
  destruct (do_slice_ok (zlen l) from len) as (E & H1 & H2); auto.
  unfold slice. rewrite E. cbn [obind].
  set (lo := range_low (zlen l) from) in *. set (hi := range_high (zlen l) from len) in *.
  destruct (Z.eqb_spec (hi - lo) (zlen l)); cbn [negb].
  - rewrite window_sub by lia. replace (lo - 0) with 0 by lia. cbn [Z.to_nat skipn].
    rewrite firstn_all2; [reflexivity|unfold zlen in *; lia].
  - apply subrange_ok; lia.
Qed.
Lemma window_prefix l b : 0 <= b -> window 0 b 0 l = firstn (Z.to_nat b) l.
Proof. intros. rewrite window_from by lia. rewrite Z.sub_0_r. reflexivity. Qed.
Lemma window_suffix l e : 0 <= e -> window e (zlen l) 0 l = skipn (Z.to_nat e) l.
Proof.
  intros. rewrite window_sub, Z.sub_0_r by lia. apply firstn_all2. rewrite skipn_length. unfold zlen. lia.
Qed.
Lemma splice_ok l b e r : 0 <= b <= e -> e <= zlen l ->
  splice l b e r = Ok (window 0 b 0 l ++ r ++ window e (zlen l) 0 l).
Proof.
  intros H1 H2. unfold splice. rewrite subrange_ok by lia. cbn [obind].
  rewrite window_prefix, window_suffix by lia. reflexivity.
Qed.
Lemma overwrite_ok r : forall l a m z, l = a ++ m ++ z -> length m = length r ->
  overwrite l (length a) r = Ok (a ++ r ++ z).
Proof.
  intros l a. revert r l. induction a as [|y a IH]; intros r l m z -> L.
  - cbn [length app]. revert m L. induction r as [|x r IHr]; intros m L.
    + destruct m; [|discriminate]. cbn [app]. destruct z; reflexivity.
    + destruct m as [|w m]; [discriminate|]. cbn [overwrite app]. rewrite IHr by (cbn in L; lia). reflexivity.
  - cbn [app length overwrite]. destruct r as [|x r].
    + destruct m; [|discriminate]. reflexivity.
    + rewrite (IH (x :: r) (a ++ m ++ z) m z eq_refl L). reflexivity.
Qed.
Lemma split3 l b e : 0 <= b <= e -> e <= zlen l ->
  exists x y z, l = x ++ y ++ z /\ zlen x = b /\ zlen y = e - b /\
   firstn (Z.to_nat b) l = x /\ skipn (Z.to_nat e) l = z.
Proof.
  intros H1 H2. unfold zlen in *.
  exists (firstn (Z.to_nat b) l), (firstn (Z.to_nat (e - b)) (skipn (Z.to_nat b) l)), (skipn (Z.to_nat e) l).
  rewrite !firstn_length, skipn_length. repeat split; try lia.
  replace (Z.to_nat e) with (Z.to_nat b + Z.to_nat (e - b))%nat by lia.
  rewrite <- skipn_skipn. rewrite firstn_skipn, firstn_skipn. reflexivity.
Qed.
Lemma zlen_app l l' : zlen (l ++ l') = zlen l + zlen l'.
Proof. unfold zlen. rewrite app_length. lia. Qed.
Lemma firstn_zlen l l' : firstn (Z.to_nat (zlen l)) (l ++ l') = l.
Proof. unfold zlen. rewrite Nat2Z.id. apply firstn_length_app. Qed.
Lemma skipn_zlen l l' : skipn (Z.to_nat (zlen l)) (l ++ l') = l'.
Proof. unfold zlen. rewrite Nat2Z.id. apply skipn_length_app. Qed.

Lemma replace_slice_ok l from len rep rfrom rlen : fits l -> fits rep ->
  opt_int64 from -> opt_int64 len -> opt_int64 rfrom -> opt_int64 rlen ->
  string_replace_slice l from len rep rfrom rlen = Ok (replaced l from len rep rfrom rlen) /\
  array_replace_slice l from len rep rfrom rlen = Ok (replaced l from len rep rfrom rlen).
Proof.
  intros Fl Fr Hf Hl Hrf Hrl. unfold fits in *.
  assert (0 <= zlen l) by (unfold zlen; lia). assert (0 <= zlen rep) by (unfold zlen; lia).
  destruct (do_slice_ok (zlen l) from len) as (E & H1 & H2); auto.
  destruct (do_slice_ok (zlen rep) rfrom rlen) as (E' & H1' & H2'); auto.
  unfold string_replace_slice, array_replace_slice, replaced. rewrite E, E'. cbn [obind]. cbv zeta.
  set (lo := range_low (zlen l) from) in *. set (hi := range_high (zlen l) from len) in *.
  set (rlo := range_low (zlen rep) rfrom) in *. set (rhi := range_high (zlen rep) rfrom rlen) in *.
  clearbody lo hi rlo rhi. split.
  - rewrite subrange_ok by lia. cbn [obind]. apply splice_ok; lia.
  - destruct (split3 l lo hi H1 H2) as (x & y & z & El & Lx & Ly & F1 & S1).
    rewrite window_prefix, window_suffix, F1, S1 by lia.
    assert (Lz : zlen l = zlen x + zlen y + zlen z) by (rewrite El, !zlen_app; lia).
    assert (Nx : Z.to_nat lo = length x) by (unfold zlen in Lx; lia).
    destruct (Z.leb_spec (rhi - rlo) (hi - lo)).
    + replace (rlo + (rhi - rlo)) with rhi by lia.
      rewrite subrange_ok by lia. cbn [obind]. set (r := window rlo rhi 0 rep).
      assert (Lr : zlen r = rhi - rlo).
      { unfold r. rewrite window_sub by lia. unfold zlen in *. rewrite firstn_length, skipn_length. lia. }
      set (k := Z.to_nat (rhi - rlo)).
      assert (Ey : y = firstn k y ++ skipn k y) by (symmetry; apply firstn_skipn).
      assert (Lk : length (firstn k y) = length r) by (rewrite firstn_length; unfold k, zlen in *; lia).
      rewrite Nx, (overwrite_ok r l x (firstn k y) (skipn k y ++ z)); auto.
      2:{ rewrite El. f_equal. rewrite app_assoc, <- Ey. reflexivity. }
      cbn [obind].
      replace (Z.to_nat (lo + (rhi - rlo))) with (length (x ++ r)) by (rewrite app_length; unfold zlen in *; lia).
      replace (Z.to_nat (hi - lo - (rhi - rlo))) with (length (skipn k y)) by (rewrite skipn_length; unfold k, zlen in *; lia).
      rewrite app_assoc, vec_erase_ok, <- app_assoc. reflexivity.
    + rewrite (subrange_ok rep rlo) by lia. cbn [obind]. set (r1 := window rlo (rlo + (hi - lo)) 0 rep).
      assert (Lr : zlen r1 = hi - lo).
      { unfold r1. rewrite window_sub by lia. unfold zlen in *. rewrite firstn_length, skipn_length. lia. }
      rewrite Nx, (overwrite_ok r1 l x y z); auto; [|unfold zlen in *; lia].
      cbn [obind]. replace (rlo + (rhi - rlo)) with rhi by lia.
      rewrite subrange_ok by lia. cbn [obind].
      set (r2 := window (rlo + (hi - lo)) rhi 0 rep).
      assert (Er : window rlo rhi 0 rep = r1 ++ r2).
      { unfold r1, r2. rewrite !window_sub by lia. rewrite !Z.sub_0_r.
        replace (Z.to_nat (rlo + (hi - lo))) with (Z.to_nat rlo + Z.to_nat (hi - lo))%nat by lia.
        rewrite <- skipn_skipn. generalize (skipn (Z.to_nat rlo) rep) as q. intros q.
        replace (rlo + (hi - lo) - rlo) with (hi - lo) by lia.
        replace (Z.to_nat (rhi - rlo)) with (Z.to_nat (hi - lo) + Z.to_nat (rhi - (rlo + (hi - lo))))%nat by lia.
        generalize (Z.to_nat (hi - lo)) as i. generalize (Z.to_nat (rhi - (rlo + (hi - lo)))) as j. clear.
        intros j i; revert q. induction i as [|i IH]; intros q; [reflexivity|].
        destruct q as [|w q]; [cbn; destruct j; reflexivity|]. cbn. f_equal. apply IH. }
      replace (Z.to_nat (lo + (hi - lo))) with (length (x ++ r1)) by (rewrite app_length; unfold zlen in *; lia).
      rewrite app_assoc, vec_insert_ok, Er, <- !app_assoc. reflexivity.
Qed.
End Slice.

Section Rotate2.
Context {A : Type}.
Implicit Types l a b m pre post : list A.
Lemma array_rotate_ok l shift : fits l -> is_int64 shift ->
  exists out, array_rotate l shift = Ok out /\ length out = length l /\
  forall i, (i < length l)%nat ->
    nth_error out (Z.to_nat ((Z.of_nat i + shift) mod zlen l)) = nth_error l i.
Proof.
  intros Hl Hs. unfold array_rotate, fits in *.
  destruct (Nat.leb_spec (length l) 1) as [L1|L2].
  - exists l. split; [reflexivity|]. split; [reflexivity|]. intros i Hi.
    assert (E : zlen l = 1) by (unfold zlen; lia). rewrite E, Z.mod_1_r. replace i with O by lia. reflexivity.
  - cbv zeta. set (n := zlen l) in *. assert (Hn : 1 < n) by (unfold n, zlen; lia).
    assert (QR : shift = n * Z.quot shift n + Z.rem shift n) by (apply Z.quot_rem'; lia).
    assert (Q : forall a : Z, (a + shift) mod n = (a + Z.rem shift n) mod n).
    { intros a. rewrite QR at 1. replace (a + (n * (shift ÷ n) + Z.rem shift n)) with ((a + Z.rem shift n) + (shift ÷ n) * n) by lia.
      apply Z_mod_plus_full. }
    destruct (Z.eqb_spec (Z.rem shift n) 0) as [E|NZ].
    + exists l. split; [reflexivity|]. split; [reflexivity|]. intros i Hi. rewrite Q, E, Z.add_0_r.
      rewrite Z.mod_small by (unfold n, zlen; lia). rewrite Nat2Z.id. reflexivity.
    + set (r := Z.rem shift n) in *.
      assert (Br : - n < r < n) by (pose proof (Z.rem_bound_abs shift n ltac:(lia)); unfold r; lia).
      set (s := Z.land (Z.shiftr (Z.lnot r) 63) n - r).
      assert (Es : s = (if r <? 0 then - r else n - r)).
      { unfold s. destruct (Z.ltb_spec r 0).
        - replace (Z.shiftr (Z.lnot r) 63) with 0; [rewrite Z.land_0_l; lia|].
          symmetry. rewrite Z.shiftr_div_pow2 by lia. apply Z.div_small. unfold Z.lnot, int64_max in *. lia.
        - replace (Z.shiftr (Z.lnot r) 63) with (-1); [rewrite Z.land_m1_l; reflexivity|].
          symmetry. rewrite Z.shiftr_div_pow2 by lia. symmetry. apply (Z.div_unique _ _ (-1) (2 ^ 63 + Z.lnot r)); unfold Z.lnot, int64_max in *; lia. }
      assert (Bs : 0 < s < n) by (rewrite Es; destruct (Z.ltb_spec r 0); lia).
      assert (Rs : forall a : Z, (a + r) mod n = (a - s) mod n).
      { intros a. rewrite Es. destruct (Z.ltb_spec r 0).
        - f_equal; lia.
        - replace (a + r) with ((a - (n - r)) + 1 * n) by lia. apply Z_mod_plus_full. }
      assert (U : to_u64 s = s) by (unfold to_u64; apply Z.mod_small; unfold int64_max in *; lia).
      rewrite U. clearbody s. clear U Es QR Br NZ Hs. clearbody r. set (k := Z.to_nat s).
      assert (Hk : (k < length l)%nat /\ Z.of_nat k = s /\ n = Z.of_nat (length l)) by (unfold k, n, zlen in *; lia).
      destruct Hk as (Hk & Ek & En). clearbody k. clearbody n. subst s n. clear Hl Hn.
      assert (Lk : length (firstn k l) = k) by (rewrite firstn_length; lia).
      pose proof (rotate_ok (firstn k l) (skipn k l)) as R. rewrite firstn_skipn, Lk in R.
      exists (skipn k l ++ firstn k l). split; [exact R|].
      split; [rewrite app_length, skipn_length, Lk; lia|].
      intros i Hi. rewrite Q, Rs.
      destruct (Z.ltb_spec (Z.of_nat i) (Z.of_nat k)).
      * rewrite (Z.mod_eq (Z.of_nat i - Z.of_nat k) (Z.of_nat (length l))), <- (Z.div_unique (Z.of_nat i - Z.of_nat k) (Z.of_nat (length l)) (-1) (Z.of_nat i - Z.of_nat k + Z.of_nat (length l))) by (lia).
        rewrite nth_error_app2 by (rewrite skipn_length; lia).
        rewrite skipn_length.
        replace (Z.to_nat (Z.of_nat i - Z.of_nat k - Z.of_nat (length l) * -1) - (length l - k))%nat with i by (lia).
        rewrite <- (firstn_skipn k l) at 2. rewrite nth_error_app1; [reflexivity|rewrite Lk; lia].
      * rewrite Z.mod_small by (lia).
        rewrite nth_error_app1 by (rewrite skipn_length; lia).
        rewrite <- (firstn_skipn k l) at 2. rewrite nth_error_app2 by (rewrite Lk; lia).
        f_equal. rewrite Lk. lia.
Qed.

(* ---- shuffling ---- *)
Lemma nth_split l i x : nth_error l i = Some x -> exists a b, l = a ++ x :: b /\ length a = i.
Proof. apply nth_error_split. Qed.
Lemma swap_perm l i j : (i < length l)%nat -> (j < length l)%nat -> i <> j ->
  exists l', swap_at l i j = Ok l' /\ Permutation l l'.
Proof.
  intros Hi Hj N. unfold swap_at.
  destruct (nth_error l i) as [x|] eqn:Ei; [|apply nth_error_None in Ei; lia].
  destruct (nth_error l j) as [y|] eqn:Ej; [|apply nth_error_None in Ej; lia].
  eexists; split; [reflexivity|].
  destruct (nth_error_split _ _ Ei) as (a & b & -> & <-). rewrite set_nth_mid.
  destruct (Nat.lt_trichotomy j (length a)) as [L|[E|G]]; [|lia|].
  - rewrite nth_error_app1 in Ej by lia. destruct (nth_error_split _ _ Ej) as (c & d & -> & <-).
    rewrite <- !app_assoc. cbn [app]. rewrite set_nth_mid.
    apply Permutation_app_head. rewrite <- !Permutation_middle. apply perm_swap.
  - rewrite nth_error_app2 in Ej by lia. 
    destruct (j - length a)%nat as [|k] eqn:Ek; [lia|]. cbn [nth_error] in Ej.
    destruct (nth_error_split _ _ Ej) as (c & d & -> & Lc).
    replace (a ++ y :: c ++ y :: d) with ((a ++ y :: c) ++ y :: d) by (rewrite <- app_assoc; reflexivity).
    replace j with (length (a ++ y :: c)) by (rewrite app_length; cbn [length]; lia).
    rewrite set_nth_mid, <- app_assoc. cbn [app].
    apply Permutation_app_head. rewrite <- !Permutation_middle. apply perm_swap.
Qed.
Lemma probe_origin_bound size hval : 0 < size < 2 ^ 64 -> 0 <= probe_origin size hval < size.
Proof.
  intros H. unfold probe_origin, to_u64.
  set (x := (hval * 2654435769) mod 2 ^ 64 mod 2 ^ 32).
  assert (Hx : 0 <= x < 2 ^ 32) by (apply Z.mod_pos_bound; lia).
  pose proof (Z.mod_pos_bound (x * size) (2 ^ 64) ltac:(lia)) as HB.
  split; [apply Z.div_pos; lia|]. apply Z.div_lt_upper_bound; [lia|].
  destruct (Z.ltb_spec size (2 ^ 32)).
  - apply Z.le_lt_trans with (x * size); [apply Z.mod_le; nia|]. nia.
  - apply Z.lt_le_trans with (2 ^ 64); [lia|]. replace (2 ^ 64) with (2 ^ 32 * 2 ^ 32) by reflexivity. nia.
Qed.
Lemma shuffle_loop_ok count : forall k lcg l, fits l -> (k + count <= length l)%nat ->
  exists out, shuffle_loop count k lcg l = Ok out /\ Permutation l out.
Proof.
  induction count as [|count IH]; intros k lcg l F H; cbn [shuffle_loop]; [exists l; auto|]. cbv zeta.
  set (lcg' := Z.land _ _). clearbody lcg'.
  assert (B : 0 <= probe_origin (zlen l) (Z.shiftr lcg' 16) < zlen l).
  { apply probe_origin_bound. unfold fits, int64_max, zlen in *; lia. }
  set (r := Z.to_nat (probe_origin (zlen l) (Z.shiftr lcg' 16))).
  assert (Hr : (r < length l)%nat) by (unfold r, zlen in *; lia). clearbody r.
  destruct (Nat.eqb_spec r k) as [->|N]; cbn [obind].
  - apply IH; [exact F|lia].
  - destruct (swap_perm l r k) as (l' & E & P); [exact Hr|lia|exact N|]. rewrite E. cbn [obind].
    destruct (IH (S k) lcg' l') as (out & E2 & P2).
    + unfold fits, zlen in *. rewrite <- (Permutation_length P). exact F.
    + rewrite <- (Permutation_length P). lia.
    + exists out. split; [exact E2|]. etransitivity; eauto.
Qed.
Lemma shuffle_ok l lcg : fits l -> exists out, array_shuffle l lcg = Ok out /\ Permutation l out.
Proof.
  intros F. unfold array_shuffle. destruct (Nat.leb_spec (length l) 1); [exists l; auto|].
  apply shuffle_loop_ok; [exact F|lia].
Qed.

(* ---- repetition ---- *)
Lemma times_add (n m : nat) l : times (n + m) l = times n l ++ times m l.
Proof. induction n; cbn; [reflexivity|]. rewrite IHn, app_assoc. reflexivity. Qed.
Lemma zlen_times n l : zlen (times n l) = Z.of_nat n * zlen l.
Proof. induction n; [reflexivity|]. cbn [times]. rewrite zlen_app, IHn. lia. Qed.
Lemma double_up_ok fuel : forall ntotal k (src : list A), (0 < k)%nat -> 0 < zlen src -> 
  zlen (times k src) <= ntotal -> ntotal <= int64_max -> ntotal < Z.of_nat fuel + zlen (times k src) ->
  exists k', double_up fuel ntotal (times k src) = Ok (times k' src) /\ (k <= k')%nat /\
     zlen (times k' src) <= ntotal < 2 * zlen (times k' src).
Proof.
  induction fuel as [|fuel IH]; intros ntotal k src Hk Hs Hl Hm Hf; cbn [double_up].
  - lia.
  - assert (U : to_u64 (zlen (times k src) * 2) = zlen (times k src) * 2).
    { apply Z.mod_small. unfold int64_max in *. split; [unfold zlen; lia|lia]. }
    rewrite U. destruct (Z.leb_spec (zlen (times k src) * 2) ntotal).
    + rewrite <- times_add. rewrite zlen_times in *.
      destruct (IH ntotal (k + k)%nat src) as (k' & E & L & B); try lia; rewrite ?zlen_times; try nia.
      exists k'. split; [exact E|]. split; [lia|exact B].
    + exists k. split; [reflexivity|]. split; [lia|]. lia.
Qed.
Lemma duplicate_ok (src : list A) count : fits src -> is_int64 count ->
  duplicate src count =
    if (0 <=? count) && (zlen src * count <=? int64_max) then Ok (times (Z.to_nat count) src) else Throw.
Proof.
  intros F Hc. unfold duplicate, fits in *. assert (N0 : 0 <= zlen src) by (unfold zlen; lia).
  destruct (Z.ltb_spec count 0); [destruct (Z.leb_spec 0 count); [lia|reflexivity]|].
  destruct (Z.leb_spec 0 count); [|lia]. cbn [andb].
  unfold mulm. assert (0 <= zlen src * count) by nia.
  destruct (Z.leb_spec (zlen src * count) int64_max).
  - assert (I : is_int64 (zlen src * count)) by (unfold is_int64, int64_min, int64_max in *; lia).
    rewrite (to_i64_id _ I). apply is_int64b_spec in I. rewrite I. cbn [negb orb].
    destruct (Z.ltb_spec int64_max (zlen src * count)); [lia|].
    destruct (Z.eqb_spec (zlen src * count) 0).
    + f_equal. assert (zlen (times (Z.to_nat count) src) = 0) by (rewrite zlen_times; nia).
      unfold zlen in *. destruct (times (Z.to_nat count) src); [reflexivity|cbn in *; lia].
    + assert (0 < zlen src) by nia. assert (0 < count) by nia.
      set (nt := zlen src * count) in *.
      destruct (double_up_ok (Z.to_nat nt) nt 1 src) as (k & E & Lk & B); try lia.
      { cbn [times]. rewrite app_nil_r. unfold nt. nia. }
      { cbn [times]. rewrite app_nil_r. lia. }
      cbn [times] in E. rewrite app_nil_r in E. rewrite E. cbn [obind].
      set (d := times k src) in *.
      rewrite subrange_ok by lia. cbn [obind]. f_equal. rewrite window_prefix by lia.
      assert (Hk : Z.of_nat k <= count < 2 * Z.of_nat k).
      { unfold d in B. rewrite zlen_times in B. unfold nt in B. nia. }
      replace (Z.to_nat count) with (k + (Z.to_nat count - k))%nat by lia.
      rewrite times_add. f_equal. unfold d.
      replace k with ((Z.to_nat count - k) + (k - (Z.to_nat count - k)))%nat at 2 by lia.
      rewrite times_add. replace (nt - zlen (times k src)) with (zlen (times (Z.to_nat count - k) src)).
      { apply firstn_zlen. }
      rewrite !zlen_times. unfold nt. nia.
  - unfold is_int64b. destruct (Z.leb_spec (zlen src * count) int64_max); [lia|]. rewrite andb_false_r. reflexivity.
Qed.
End Rotate2.
