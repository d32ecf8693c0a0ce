From Verif Require Import Base LinbufModel LinbufSpec.

Lemma store_mid (a x b l : list (option Z)) : length l = length x -> store (a ++ x ++ b) (length a) l = Ok (a ++ l ++ b).
Proof.
  intros E. unfold store. rewrite !app_length. destruct (Nat.leb_spec (length a + length l) (length a + (length x + length b))); [|lia].
  rewrite firstn_app, Nat.sub_diag, firstn_all. cbn [firstn]. rewrite app_nil_r. f_equal. f_equal. f_equal.
  rewrite E, app_assoc, <- app_length, skipn_app, Nat.sub_diag, skipn_all. reflexivity.
Qed.
Lemma load_some l : load (map Some l) = Ok l.
Proof. induction l as [|c l IH]; cbn; [reflexivity|]. now rewrite IH. Qed.
Lemma load_mid a l b : load_at (a ++ map Some l ++ b) (length a) (length l) = Ok l.
Proof.
  unfold load_at. rewrite !app_length, map_length. destruct (Nat.leb_spec (length a + length l) (length a + (length l + length b))); [|lia].
  rewrite skipn_app, Nat.sub_diag, skipn_all. cbn [skipn app]. rewrite firstn_app, map_length, Nat.sub_diag. cbn [firstn]. rewrite app_nil_r.
  rewrite firstn_all2 by (rewrite map_length; lia). apply load_some.
Qed.
Lemma split_at {X} n (l : list X) : (n <= length l)%nat -> exists a b, l = a ++ b /\ length a = n.
Proof. intros L. exists (firstn n l), (skipn n l). split; [now rewrite firstn_skipn|]. rewrite firstn_length. lia. Qed.
Lemma pos_lor p : forall q, (p <= Pos.lor p q)%positive.
Proof. induction p as [p IH|p IH|]; intros [q|q|]; cbn [Pos.lor]; try (specialize (IH q)); lia. Qed.
Lemma lor_le n m : (n <= N.to_nat (N.lor (N.of_nat n) m))%nat.
Proof. destruct (N.of_nat n) as [|p] eqn:E; [lia|]. destruct m as [|q]; cbn [N.lor]; [lia|]. pose proof (pos_lor p q). lia. Qed.

Section Buffer.
Variable max : nat.
Variable debug : bool.

Definition rep (s : buffer) (q : list Z) : Prop :=
  exists a b, cells s = a ++ map Some q ++ b /\ goff s = length a /\ eoff s = (length a + length q)%nat.

Lemma fill_ok s (a x b : list (option Z)) v : cells s = a ++ x ++ b -> exists y, length y = length x /\
  debug_fill debug s (length a) (length x) v = Ok (Buffer (a ++ y ++ b) (goff s) (eoff s)).
Proof.
  intros E. unfold debug_fill. destruct debug.
  - exists (repeat (Some v) (length x)). split; [apply repeat_length|]. rewrite E, store_mid by apply repeat_length. reflexivity.
  - exists x. split; [reflexivity|]. rewrite <- E. now destruct s.
Qed.
Lemma relocate_ok s q n : rep s q -> (relocate max debug s n = Throw /\ (max < length q + n)%nat) \/
  exists s', relocate max debug s n = Ok s' /\ rep s' q /\ (n <= capacity_after_end s')%nat.
Proof.
  intros (a & b & C & G & E). unfold relocate. unfold cap. rewrite G, E.
  assert (LC : length (cells s) = (length a + (length q + length b))%nat) by (rewrite C, !app_length, map_length; reflexivity).
  destruct (Nat.leb_spec (length a) (length a + length q)); [|lia]. destruct (Nat.leb_spec (length a + length q) (length (cells s))); [|lia]. cbn [andb].
  replace (length a + length q - length a)%nat with (length q) by lia.
  assert (U : firstn (length q) (skipn (length a) (cells s)) = map Some q).
  { rewrite C, skipn_app, Nat.sub_diag, skipn_all. cbn [skipn app]. rewrite firstn_app, map_length, Nat.sub_diag. cbn [firstn]. rewrite app_nil_r.
    apply firstn_all2. rewrite map_length. lia. }
  rewrite U. destruct (Nat.leb_spec n (length (cells s) - length q)) as [L|L].
  - right. eexists. split; [reflexivity|]. split.
    + exists [], (skipn (length q) (cells s)). cbn. auto.
    + unfold capacity_after_end, cap. cbn [cells eoff]. rewrite app_length, map_length, skipn_length. lia.
  - destruct (Nat.ltb_spec max (length q + n)) as [M|M]; [left; auto|right].
    pose proof (lor_le (length q + n) 0x1000) as P. set (c := N.to_nat _) in *.
    destruct (split_at (length q) (repeat (if debug then Some 0xA5 else None) c)) as (x & y & X & LX); [rewrite repeat_length; lia|].
    assert (LY : (length x + length y = c)%nat) by (rewrite <- app_length, <- X; apply repeat_length).
    rewrite X. pose proof (store_mid [] x y (map Some q) ltac:(rewrite map_length; lia)) as ST. cbn [app length] in ST. rewrite ST.
    rewrite app_length, map_length. destruct (Nat.leb_spec (length q + n) (length q + length y)); [|lia].
    eexists. split; [reflexivity|]. split; [exists [], y; cbn; auto|]. unfold capacity_after_end, cap. cbn [cells eoff]. rewrite app_length, map_length. lia.
Qed.
Lemma reserve_ok s q n : rep s q -> (reserve_after_end max debug s n = Throw /\ (max < length q + n)%nat) \/
  exists s', reserve_after_end max debug s n = Ok s' /\ rep s' q /\ (n <= capacity_after_end s')%nat.
Proof.
  intros R. unfold reserve_after_end.
  assert (F : forall s', rep s' q -> (n <= capacity_after_end s')%nat -> exists s'', debug_fill debug s' (eoff s') n 0xD3 = Ok s'' /\ rep s'' q /\ (n <= capacity_after_end s'')%nat).
  { intros s' (a & b & C & G & E) L. unfold capacity_after_end, cap in L. rewrite C, E, !app_length, map_length in L.
    destruct (split_at n b) as (x & y & -> & LX); [lia|]. rewrite E.
    assert (C' : cells s' = (a ++ map Some q) ++ x ++ y) by (now rewrite C, !app_assoc).
    destruct (fill_ok s' (a ++ map Some q) x y 0xD3 C') as (z & LZ & D). rewrite app_length, map_length, LX in D. rewrite D.
    eexists. split; [reflexivity|]. split.
    - exists a, (z ++ y). cbn. rewrite !app_assoc. auto.
    - unfold capacity_after_end, cap. cbn [cells eoff]. rewrite !app_length, map_length, E, LZ. lia. }
  destruct (Nat.ltb_spec (capacity_after_end s) n) as [L|L].
  - destruct (relocate_ok s q n R) as [[-> M]|(s' & -> & R' & L')]; [left; auto|right; now apply F].
  - right. now apply F.
Qed.
Lemma write_ok s q l : rep s q -> (length l <= capacity_after_end s)%nat -> exists s', write_end s l = Ok s' /\ rep s' (q ++ l).
Proof.
  intros (a & b & C & G & E) L. unfold capacity_after_end, cap in L. rewrite C, E, !app_length, map_length in L.
  destruct (split_at (length l) b) as (x & y & -> & LX); [lia|]. unfold write_end. rewrite C, E.
  replace (a ++ map Some q ++ x ++ y) with ((a ++ map Some q) ++ x ++ y) by (now rewrite !app_assoc).
  replace (length a + length q)%nat with (length (a ++ map Some q)) by (now rewrite app_length, map_length).
  rewrite store_mid by (rewrite map_length; lia). unfold accept, capacity_after_end, cap. cbn [cells eoff goff].
  rewrite !app_length, !map_length. destruct (Nat.leb_spec (length l) (length a + length q + (length l + length y) - (length a + length q))); [|lia].
  eexists. split; [reflexivity|]. exists a, y. cbn. rewrite map_app, app_length, !app_assoc. repeat split; [exact G|lia].
Qed.
Lemma put_ok s q n l : rep s q -> (length l <= n)%nat -> (put max debug s n l = Throw /\ (max < length q + n)%nat) \/
  exists s', put max debug s n l = Ok s' /\ rep s' (q ++ l).
Proof.
  intros R L. unfold put. destruct (reserve_ok s q n R) as [[-> M]|(s' & -> & R' & L')]; [left; auto|right]. apply write_ok; [exact R'|lia].
Qed.
Lemma rep_size s q : rep s q -> size s = length q.
Proof. intros (a & b & C & G & E). unfold size. lia. Qed.
Lemma discard_ok s p q : rep s (p ++ q) -> exists s', discard debug s (length p) = Ok s' /\ rep s' q.
Proof.
  intros R. unfold discard. rewrite (rep_size s _ R). destruct R as (a & b & C & G & E). rewrite app_length in *. destruct (Nat.leb_spec (length p) (length p + length q)); [|lia].
  rewrite map_app, <- app_assoc in C. destruct (fill_ok s a (map Some p) _ 0xC7 C) as (y & LY & D). rewrite map_length in *. rewrite G, D.
  eexists. split; [reflexivity|]. exists (a ++ y), b. cbn. rewrite app_length, LY, G, E, <- !app_assoc. repeat split; lia.
Qed.
Lemma unaccept_ok s q p : rep s (q ++ p) -> exists s', unaccept debug s (length p) = Ok s' /\ rep s' q.
Proof.
  intros R. unfold unaccept. rewrite (rep_size s _ R). destruct R as (a & b & C & G & E). rewrite app_length in *. destruct (Nat.leb_spec (length p) (length q + length p)); [|lia].
  replace (eoff s - length p)%nat with (length (a ++ map (@Some Z) q)) by (rewrite app_length, map_length; lia).
  assert (C' : cells s = (a ++ map Some q) ++ map Some p ++ b) by (rewrite C, map_app, !app_assoc; reflexivity).
  destruct (fill_ok (Buffer (cells s) (goff s) (length (a ++ map (@Some Z) q))) (a ++ map Some q) (map Some p) b 0xB6 C') as (y & LY & D). rewrite map_length in D. rewrite D.
  eexists. split; [reflexivity|]. exists a, (y ++ b). cbn. rewrite app_length, map_length, <- !app_assoc. repeat split; auto.
Qed.
Lemma peek_ok s p q n : rep s (p ++ q) -> length p = n \/ (length p < n)%nat /\ q = [] -> peekn s n = Ok p.
Proof.
  intros R N. unfold peekn. rewrite (rep_size s _ R), app_length. replace (Nat.min n (length p + length q)) with (length p) by (destruct N as [|[? ->]]; cbn [length]; lia).
  destruct R as (a & b & C & G & E). rewrite C, G, map_app, <- app_assoc. apply load_mid.
Qed.
Lemma get_ok s p q n : rep s (p ++ q) -> length p = n \/ (length p < n)%nat /\ q = [] -> exists s', getn debug s n = Ok (p, s') /\ rep s' q.
Proof.
  intros R N. unfold getn. rewrite (peek_ok s p q n R N). destruct p as [|c p]; [exists s; auto|].
  destruct (discard_ok s (c :: p) q R) as (s' & -> & R'). exists s'. auto.
Qed.
Lemma as_int_ok c u l : u = c \/ u = c + 256 -> 0 <= u < 256 -> as_int (c :: l) = u.
Proof.
  intros [-> | ->] B; cbn [as_int]; [now apply Z.mod_small|]. rewrite <- (Z.mod_small (c + 256) 256) by exact B. rewrite <- (Z_mod_plus_full c 1 256). f_equal.
Qed.
Lemma step_ok s q c q' out : rep s q -> does q c q' out ->
  (length q' <= length q + asked c)%nat /\
  ((step max debug s c = Throw /\ (max < length q + asked c)%nat) \/ exists s', step max debug s c = Ok (s', out) /\ rep s' q').
Proof.
  intros R D. destruct D as [q c _|q n c _|q l _|q n l _ L|q|p q|q p|p q n N|p q n N|c q u U B|c q u U B| | |q]; cbn [step asked]; rewrite ?app_length; cbn [length]; (split; [rewrite ?repeat_length; lia|]).
  - unfold putc. destruct (put_ok s q 1 [c] R (le_n _)) as [[-> M]|(s' & -> & R')]; [left|right]; eauto.
  - unfold putn_fill. destruct (put_ok s q n (repeat c n) R) as [[-> M]|(s' & -> & R')]; [rewrite repeat_length; lia|left|right]; eauto.
  - unfold putn. destruct (put_ok s q (length l) l R (le_n _)) as [[-> M]|(s' & -> & R')]; [left|right]; eauto.
  - destruct (put_ok s q n l R L) as [[-> M]|(s' & -> & R')]; [left|right]; eauto.
  - right. eexists. split; [reflexivity|]. exists [], (cells s). cbn. auto.
  - right. destruct (discard_ok s p q R) as (s' & -> & R'). eauto.
  - right. destruct (unaccept_ok s q p R) as (s' & -> & R'). eauto.
  - right. rewrite (peek_ok s p q n R N). eauto.
  - right. destruct (get_ok s p q n R N) as (s' & -> & R'). eauto.
  - right. rewrite (peek_ok s [c] q 1 R (or_introl eq_refl)). rewrite (as_int_ok c u [] U B). eauto.
  - right. destruct (get_ok s [c] q 1 R (or_introl eq_refl)) as (s' & -> & R'). rewrite (as_int_ok c u [] U B). eauto.
  - right. rewrite (peek_ok s [] [] 1 R) by (right; split; [cbn; lia|reflexivity]). eauto.
  - right. destruct (get_ok s [] [] 1 R) as (s' & -> & R'); [right; split; [cbn; lia|reflexivity]|]. eauto.
  - right. rewrite (rep_size s q R). eauto.
Qed.
Lemma run_ok q cmds outs : plays q cmds outs -> forall s, rep s q ->
  run max debug s cmds = Ok outs \/ (run max debug s cmds = Throw /\ (max < length q + all_asked cmds)%nat).
Proof.
  induction 1 as [q|q c q' out cmds outs D P IH]; intros s R; [left; reflexivity|]. cbn [run].
  change (all_asked (c :: cmds)) with (asked c + all_asked cmds)%nat.
  destruct (step_ok s q c q' out R D) as [L [[-> M]|(s' & -> & R')]]; [right; split; [reflexivity|lia]|].
  destruct (IH s' R') as [-> | [-> M]]; [left; reflexivity|right; split; [reflexivity|lia]].
Qed.
Lemma empty_ok : rep empty_buffer [].
Proof. exists [], []. cbn. auto. Qed.
End Buffer.

Lemma does_total q c : Forall char_ok q -> proper q c -> exists q' out, does q c q' out /\ Forall char_ok q'.
Proof.
  intros Q P.
  assert (T : forall n, exists a b, q = a ++ b /\ (length a = n \/ (length a < n)%nat /\ b = [])).
  { intros n. destruct (Nat.le_gt_cases n (length q)) as [L|L]; [destruct (split_at n q L) as (a & b & -> & E); eauto|].
    exists q, []. rewrite app_nil_r. auto. }
  assert (U : forall c0, char_ok c0 -> exists u, (u = c0 \/ u = c0 + 256) /\ 0 <= u < 256).
  { intros c0 B. unfold char_ok in B. destruct (Z.leb_spec 0 c0); [exists c0|exists (c0 + 256)]; lia. }
  destruct c as [c|n c|l|n l| |n|n|n|n| | |]; cbn [proper] in P.
  - eexists _, _. split; [now constructor|]. apply Forall_app. auto.
  - eexists _, _. split; [now constructor|]. apply Forall_app. split; [exact Q|]. apply Forall_forall. intros x I. apply repeat_spec in I. now subst.
  - eexists _, _. split; [now constructor|]. apply Forall_app. auto.
  - destruct P. eexists _, _. split; [now constructor|]. apply Forall_app. auto.
  - eexists _, _. split; constructor.
  - destruct (split_at n q P) as (a & b & -> & <-). apply Forall_app in Q. eexists _, _. split; [constructor|]. apply Q.
  - destruct (split_at (length q - n) q ltac:(lia)) as (a & b & -> & E). rewrite app_length in *. replace n with (length b) by lia.
    apply Forall_app in Q. eexists _, _. split; [constructor|]. apply Q.
  - destruct (T n) as (a & b & -> & E). eexists _, _. split; [now constructor|exact Q].
  - destruct (T n) as (a & b & -> & E). apply Forall_app in Q. eexists _, _. split; [now constructor|apply Q].
  - destruct q as [|c q]; [eexists _, _; split; constructor|]. destruct (U c (Forall_inv Q)) as (u & E & B). eexists _, _. split; [now apply (D_peekc c q u)|exact Q].
  - destruct q as [|c q]; [eexists _, _; split; constructor|]. destruct (U c (Forall_inv Q)) as (u & E & B). eexists _, _. split; [now apply (D_getc c q u)|exact (Forall_inv_tail Q)].
  - eexists _, _. split; [constructor|exact Q].
Qed.

(* the storage never has more than max_size() and 0x1000 characters *)
Lemma pos_lor_up p : forall q, (Pos.lor p q <= p + q)%positive.
Proof. induction p as [p IH|p IH|]; intros [q|q|]; cbn [Pos.lor]; try (specialize (IH q)); lia. Qed.
Lemma lor_up n m : (N.lor n m <= n + m)%N.
Proof. destruct n as [|p], m as [|q]; cbn [N.lor]; try lia. pose proof (pos_lor_up p q). lia. Qed.
Lemma store_length cs o l cs' : store cs o l = Ok cs' -> length cs' = length cs.
Proof.
  unfold store. destruct (Nat.leb_spec (o + length l) (length cs)); [|discriminate]. intros E. injection E as <-. rewrite !app_length, firstn_length, skipn_length. lia.
Qed.
Section Cap.
Variable max : nat.
Variable debug : bool.
Definition small (s : buffer) : Prop := (N.of_nat (length (cells s)) <= N.of_nat max + 0x1000)%N.
Lemma fill_small s o n v s' : debug_fill debug s o n v = Ok s' -> small s -> small s'.
Proof.
  unfold debug_fill. destruct debug; [|intros E; now injection E as <-]. destruct (store _ _ _) eqn:S; try discriminate. intros E. injection E as <-.
  apply store_length in S. unfold small. cbn [cells]. now rewrite S.
Qed.
Lemma relocate_small s n s' : relocate max debug s n = Ok s' -> small s -> small s'.
Proof.
  unfold relocate. destruct ((goff s <=? eoff s) && (eoff s <=? cap s))%nat eqn:B; [|discriminate]. set (k := (eoff s - goff s)%nat).
  destruct (Nat.leb_spec n (cap s - k)) as [L|L].
  - intros E. injection E as <-. unfold small. cbn [cells]. rewrite app_length, firstn_length, !skipn_length. unfold cap in *. lia.
  - destruct (Nat.ltb_spec max (k + n)) as [M|M]; [discriminate|]. cbv zeta. destruct (store _ _ _) as [cs| |] eqn:S; try discriminate.
    destruct (k + n <=? length cs)%nat; [|discriminate]. intros E _. injection E as <-. unfold small. cbn [cells]. apply store_length in S. rewrite S, repeat_length.
    rewrite N2Nat.id. pose proof (lor_up (N.of_nat (k + n)) 0x1000). lia.
Qed.
Lemma put_small s n l s' : put max debug s n l = Ok s' -> small s -> small s'.
Proof.
  unfold put, reserve_after_end, write_end, accept. intros E S0.
  destruct (if (capacity_after_end s <? n)%nat then relocate max debug s n else Ok s) as [s1| |] eqn:E1; try discriminate.
  assert (S1 : small s1). { destruct (capacity_after_end s <? n)%nat; [eapply relocate_small; eauto|now injection E1 as <-]. }
  destruct (debug_fill debug s1 (eoff s1) n 0xD3) as [s2| |] eqn:E2; try discriminate. apply fill_small in E2; [|exact S1].
  destruct (store _ _ _) as [cs| |] eqn:E3; try discriminate. apply store_length in E3. destruct (_ <=? _)%nat; [|discriminate]. injection E as <-.
  unfold small. cbn [cells]. now rewrite E3.
Qed.
Lemma discard_small s n s' : discard debug s n = Ok s' -> small s -> small s'.
Proof.
  unfold discard. destruct (_ <=? _)%nat; [|discriminate]. destruct (debug_fill _ _ _ _ _) as [s1| |] eqn:E; try discriminate. intros E1 S0. injection E1 as <-.
  eapply fill_small in E; [|exact S0]. exact E.
Qed.
Lemma getn_small s n l s' : getn debug s n = Ok (l, s') -> small s -> small s'.
Proof.
  unfold getn. destruct (peekn s n) as [[|c r]| |]; try discriminate; [intros E; now injection E as _ <-|].
  destruct (discard debug s (length (c :: r))) as [s1| |] eqn:D; try discriminate. intros E. injection E as _ <-. eapply discard_small; eauto.
Qed.
Lemma step_small s c s' out : step max debug s c = Ok (s', out) -> small s -> small s'.
Proof.
  intros E S0. destruct c as [c|n c|l|n l| |n|n|n|n| | |]; cbn [step] in E; unfold putc, putn_fill, putn in E.
  1-4: destruct (put _ _ _ _ _) as [s1| |] eqn:P; try discriminate; injection E as <- <-; eapply put_small; eauto.
  - injection E as E1 E2. subst s'. exact S0.
  - destruct (discard _ _ _) as [s1| |] eqn:P; try discriminate. injection E as <- <-. eapply discard_small; eauto.
  - destruct (unaccept _ _ _) as [s1| |] eqn:P; try discriminate. injection E as <- <-. unfold unaccept in P. destruct (_ <=? _)%nat; [|discriminate].
    eapply fill_small; [exact P|exact S0].
  - destruct (peekn _ _); try discriminate. injection E as E1 E2. now subst s'.
  - destruct (getn _ _ _) as [[l s1]| |] eqn:P; try discriminate. injection E as <- <-. eapply getn_small; eauto.
  - destruct (peekn _ _); try discriminate. injection E as E1 E2. now subst s'.
  - destruct (getn _ _ _) as [[l s1]| |] eqn:P; try discriminate. injection E as <- <-. eapply getn_small; eauto.
  - injection E as E1 E2. now subst s'.
Qed.
Lemma after_small s s' : small s -> after max debug s s' -> small s'.
Proof. intros S0 A. induction A as [s|s c s1 out s2 E A IH]; [exact S0|]. apply IH. eapply step_small; eauto. Qed.
Lemma after_empty s : after max debug empty_buffer s -> (N.of_nat (cap s) <= N.of_nat max + 0x1000)%N.
Proof. apply after_small. unfold small. cbn. lia. Qed.
End Cap.
