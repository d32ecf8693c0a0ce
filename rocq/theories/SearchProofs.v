From Verif Require Import Base Monad Lists Text SeqModel SeqSpec SeqProofs SearchModel SearchSpec.

(* ---- reading ---- *)

Definition at_ (t : bytes) (i : Z) : Z := nth (Z.to_nat i) t 0.

Lemma rd_ok t i : 0 <= i < zlen t -> rd t i = Ok (at_ t i).
Proof.
  unfold rd, at_, zlen; intros H. replace (0 <=? i) with true by lia.
  destruct (nth_error t (Z.to_nat i)) eqn:E.
  - erewrite nth_error_nth by eassumption. reflexivity.
  - apply nth_error_None in E. lia.
Qed.
Lemma zlen_nonneg {A} (l : list A) : 0 <= zlen l.
Proof. unfold zlen; lia. Qed.
Lemma zlen_cons {A} (x : A) l : zlen (x :: l) = zlen l + 1.
Proof. unfold zlen; cbn [length]; lia. Qed.
Lemma zlen_pos {A} (l : list A) : l <> [] -> 0 < zlen l.
Proof. destruct l; [congruence|]. rewrite zlen_cons. pose proof (zlen_nonneg l). lia. Qed.
Lemma zlen_zero {A} (l : list A) : zlen l = 0 -> l = [].
Proof. destruct l; [reflexivity|]. rewrite zlen_cons. pose proof (zlen_nonneg l). lia. Qed.
Lemma zlen_rev {A} (l : list A) : zlen (rev l) = zlen l.
Proof. unfold zlen; now rewrite rev_length. Qed.

(* ---- occurrences, pointwise ---- *)

Definition matches (p t : bytes) (k : Z) : Prop :=
  0 <= k /\ k + zlen p <= zlen t /\ forall i, 0 <= i < zlen p -> at_ t (k + i) = at_ p i.

Lemma occurs_matches p t k : occurs p t k <-> matches p t k.
Proof.
  unfold matches; split.
  - intros (a & b & -> & <-). pose proof (zlen_nonneg a). pose proof (zlen_nonneg b).
    rewrite !zlen_app. split; [lia|]. split; [lia|]. intros i Hi.
    unfold at_. unfold zlen in *.
    rewrite app_nth2 by lia. rewrite app_nth1 by lia. f_equal. lia.
  - intros (Hk & Hle & H).
    set (kk := Z.to_nat k) in *.
    exists (firstn kk t), (skipn (kk + length p) t). split; [|unfold zlen in *; rewrite firstn_length; lia].
    rewrite <- (firstn_skipn kk t) at 1. f_equal.
    rewrite <- (firstn_skipn (length p) (skipn kk t)) at 1.
    rewrite skipn_skipn. f_equal.
    apply nth_ext with (d := 0) (d' := 0).
    + rewrite firstn_length, skipn_length. unfold zlen in *. lia.
    + intros n Hn. rewrite firstn_length, skipn_length in Hn. unfold zlen in *.
      specialize (H (Z.of_nat n) ltac:(lia)). unfold at_ in H.
      rewrite Nat2Z.id in H. rewrite <- H.
      rewrite <- (firstn_skipn kk t) at 2. rewrite app_nth2 by (rewrite firstn_length; lia).
      rewrite firstn_length. replace (Z.to_nat (k + Z.of_nat n) - Nat.min kk (length t))%nat with n by lia.
      rewrite <- (firstn_skipn (length p) (skipn kk t)) at 2.
      rewrite app_nth1; [reflexivity|]. rewrite firstn_length, skipn_length. lia.
Qed.

Lemma occurs_empty t k : occurs [] t k <-> 0 <= k <= zlen t.
Proof.
  rewrite occurs_matches. unfold matches, zlen; cbn [length].
  split; [lia|]. intros H. repeat split; intros; lia.
Qed.

(* ---- the zero-byte test ---- *)

Lemma testbit_up a x i : 0 <= a < 256 -> 0 <= i -> Z.testbit (a + 256 * x) (i + 8) = Z.testbit x i.
Proof.
  intros Ha Hi. rewrite <- Z.shiftr_spec by lia. f_equal.
  rewrite Z.shiftr_div_pow2 by lia. change (2 ^ 8) with 256.
  rewrite Z.mul_comm, Z.div_add by lia. rewrite Z.div_small by lia. lia.
Qed.
Lemma testbit_down a x i : 0 <= a < 256 -> 0 <= i < 8 -> Z.testbit (a + 256 * x) i = Z.testbit a i.
Proof.
  intros Ha Hi. replace (a + 256 * x) with (a + x * 2 ^ 8) by lia.
  rewrite <- (Z.mod_pow2_bits_low (a + x * 2 ^ 8) 8 i) by lia.
  rewrite Z.mod_add by lia. rewrite Z.mod_small by lia. reflexivity.
Qed.
Lemma lxor_bytes a b : is_byte a -> is_byte b -> is_byte (Z.lxor a b).
Proof.
  unfold is_byte; intros Ha Hb.
  assert (H : 0 <= Z.lxor a b) by (apply Z.lxor_nonneg; lia).
  split; [lia|]. destruct (Z.eq_dec (Z.lxor a b) 0) as [->|Hn]; [lia|].
  apply Z.log2_lt_pow2 with (b := 8); [lia|].
  eapply Z.le_lt_trans; [apply Z.log2_lxor; lia|].
  apply Z.max_lub_lt.
  - destruct (Z.eq_dec a 0) as [->|]; [cbn; lia|]. apply Z.log2_lt_pow2; cbn; lia.
  - destruct (Z.eq_dec b 0) as [->|]; [cbn; lia|]. apply Z.log2_lt_pow2; cbn; lia.
Qed.
Lemma lxor_word a b x y : is_byte a -> is_byte b ->
  Z.lxor (a + 256 * x) (b + 256 * y) = Z.lxor a b + 256 * Z.lxor x y.
Proof.
  intros Ha Hb. apply Z.bits_inj'. intros i Hi. rewrite Z.lxor_spec.
  destruct (Z_lt_dec i 8).
  - rewrite !testbit_down by (try apply lxor_bytes; unfold is_byte in *; try lia; assumption).
    now rewrite Z.lxor_spec.
  - replace i with (i - 8 + 8) by lia.
    rewrite !testbit_up by (try apply lxor_bytes; unfold is_byte in *; try lia; assumption).
    now rewrite Z.lxor_spec.
Qed.

Lemma word_xor c l : is_byte c -> all_bytes l ->
  Z.lxor (le_word l) (le_word (repeat c (length l))) = le_word (map (fun b => Z.lxor b c) l).
Proof.
  intros Hc H; induction H as [|b l Hb H IH]; [reflexivity|].
  cbn [le_word length repeat map]. rewrite lxor_word by assumption. now rewrite IH.
Qed.

Lemma zero_bit l : all_bytes l -> In 0 l -> exists j, (j < length l)%nat /\
  Z.testbit (le_word l - le_word (repeat 1 (length l))) (8 * Z.of_nat j + 7) = true /\
  Z.testbit (le_word l) (8 * Z.of_nat j + 7) = false.
Proof.
  intros H; induction H as [|b l Hb H IH]; [contradiction|]. intros Hin.
  cbn [le_word length repeat].
  destruct (Z.eq_dec b 0) as [->|Hn].
  - exists 0%nat. split; [lia|]. change (8 * Z.of_nat 0 + 7) with 7. split.
    + replace (0 + 256 * le_word l - (1 + 256 * le_word (repeat 1 (length l))))
        with (255 + 256 * (le_word l - le_word (repeat 1 (length l)) - 1)) by lia.
      rewrite testbit_down by lia. reflexivity.
    + rewrite testbit_down by lia. reflexivity.
  - destruct IH as (j & Hj & H1 & H2); [destruct Hin; [lia|assumption]|].
    exists (S j). split; [lia|].
    replace (8 * Z.of_nat (S j) + 7) with ((8 * Z.of_nat j + 7) + 8) by lia.
    unfold is_byte in Hb. split.
    + replace (b + 256 * le_word l - (1 + 256 * le_word (repeat 1 (length l))))
        with ((b - 1) + 256 * (le_word l - le_word (repeat 1 (length l)))) by lia.
      rewrite testbit_up by lia. assumption.
    + rewrite testbit_up by lia. assumption.
Qed.

Lemma mask_bit j : (j < 8)%nat -> Z.testbit (Z.shiftl bmask 7 mod 2 ^ 64) (8 * Z.of_nat j + 7) = true.
Proof. intros H. do 8 (destruct j as [|j]; [vm_compute; reflexivity|]). lia. Qed.

Lemma zero_seen l : length l = 8%nat -> all_bytes l -> In 0 l -> may_have_zero (le_word l) = true.
Proof.
  intros Hl Hb Hin. destruct (zero_bit l Hb Hin) as (j & Hj & H1 & H2).
  rewrite Hl in Hj, H1. change (le_word (repeat 1 8)) with bmask in H1.
  unfold may_have_zero. cbv zeta. set (m7 := Z.shiftl bmask 7 mod 2 ^ 64) in *.
  pose proof (mask_bit j Hj) as Hm. fold m7 in Hm.
  set (x := Z.land _ m7).
  assert (Hx : Z.testbit x (8 * Z.of_nat j + 7) = true).
  { unfold x. rewrite !Z.land_spec, Z.lxor_spec, Hm, H2.
    rewrite Z.mod_pow2_bits_low by lia. rewrite H1. reflexivity. }
  destruct (x =? 0) eqn:E; [|reflexivity].
  apply Z.eqb_eq in E. rewrite E, Z.bits_0 in Hx. discriminate.
Qed.

Lemma bcomp_word c : is_byte c -> (bmask * c) mod 2 ^ 64 = le_word (repeat c 8).
Proof.
  unfold is_byte; intros H. change bmask with 72340172838076673.
  rewrite Z.mod_small by lia. cbn [repeat le_word]. lia.
Qed.

Lemma word_test_complete c l : length l = 8%nat -> all_bytes l -> is_byte c -> In c l ->
  may_have_zero (Z.lxor (le_word l) ((bmask * c) mod 2 ^ 64)) = true.
Proof.
  intros Hl Hb Hc Hin. rewrite bcomp_word by assumption. rewrite <- Hl.
  rewrite word_xor by assumption. apply zero_seen.
  - now rewrite map_length.
  - apply Forall_map. eapply Forall_impl; [|exact Hb]. intros b H. now apply lxor_bytes.
  - apply in_map_iff. exists c. split; [apply Z.lxor_nilpotent|assumption].
Qed.

Lemma all_bytes_window lo hi i t : all_bytes t -> all_bytes (window lo hi i t).
Proof.
  intros H; revert i; induction H as [|b t Hb H IH]; intros i; cbn [window]; [constructor|].
  destruct (_ && _); [constructor; [assumption|apply IH]|apply IH].
Qed.
Lemma window_length {A} lo hi (t : list A) : 0 <= lo <= hi -> hi <= zlen t -> zlen (window lo hi 0 t) = hi - lo.
Proof.
  intros H1 H2. rewrite window_sub by lia. unfold zlen in *. rewrite firstn_length, skipn_length. lia.
Qed.
Lemma nth_skipn {A} (d : A) n : forall i (l : list A), nth i (skipn n l) d = nth (n + i) l d.
Proof.
  induction n as [|n IH]; intros i l; [reflexivity|].
  destruct l as [|x l]; [now destruct i|]. cbn [skipn Nat.add nth]. apply IH.
Qed.
Lemma nth_firstn {A} (d : A) n : forall i (l : list A), (i < n)%nat -> nth i (firstn n l) d = nth i l d.
Proof.
  induction n as [|n IH]; intros i l H; [lia|].
  destruct l as [|x l]; [now destruct i|]. destruct i as [|i]; [reflexivity|]. cbn [firstn nth]. apply IH; lia.
Qed.
Lemma at_window lo hi t i : 0 <= lo -> hi <= zlen t -> 0 <= i < hi - lo -> at_ (window lo hi 0 t) i = at_ t (lo + i).
Proof.
  intros H1 H2 H3. rewrite window_sub by lia. unfold at_. rewrite nth_firstn by lia.
  rewrite nth_skipn. f_equal. lia.
Qed.
Lemma at_in t i : 0 <= i < zlen t -> In (at_ t i) t.
Proof. unfold at_, zlen; intros H. apply nth_In. lia. Qed.

Section Search.
Variables (t p : bytes).
Hypothesis Ht : all_bytes t.
Hypothesis Hp : all_bytes p.
Hypothesis Hne : p <> [].
Let n := zlen t.
Let m := zlen p.
Let final := n - m.

Lemma m_pos : 0 < m.
Proof. apply zlen_pos, Hne. Qed.

Lemma skip_words_ok rv fuel : forall cur, 0 <= cur -> (final - cur < 8 * (Z.of_nat fuel + 1)) ->
  (forall k, matches p t k -> cur <= k) ->
  exists cur', skip_words fuel rv t ((bmask * at_ p 0) mod 2 ^ 64) final cur = Ok cur' /\
    cur <= cur' /\ (cur <= final -> cur' <= final) /\ (forall k, matches p t k -> cur' <= k).
Proof.
  pose proof m_pos as Hm.
  induction fuel as [|fuel IH]; intros cur H0 Hf Hinv; cbn [skip_words].
  - destruct (8 <=? final - cur) eqn:E; [lia|]. exists cur. repeat split; auto; lia.
  - destruct (8 <=? final - cur) eqn:E; [|exists cur; repeat split; auto; lia].
    assert (Hb : cur + 8 <= n) by lia.
    unfold load_word. rewrite subrange_ok by (fold n; lia). cbn [obind].
    set (w := window cur (cur + 8) 0 t).
    assert (Hw : zlen w = 8) by (unfold w; rewrite window_length; fold n; lia).
    assert (Hwb : all_bytes w) by (unfold w; apply all_bytes_window, Ht).
    set (l := if rv then rev w else w).
    assert (Hl : length l = 8%nat) by (unfold l; destruct rv; rewrite ?rev_length; unfold zlen in Hw; lia).
    assert (Hlb : all_bytes l) by (unfold l; destruct rv; [apply Forall_rev|]; assumption).
    destruct (may_have_zero _) eqn:Ez; [exists cur; repeat split; auto; lia|].
    destruct (IH (cur + 8)) as (cur' & -> & H1 & H2 & H3); [lia|lia| |].
    + intros k Hk. pose proof (Hinv k Hk) as Hck. destruct (Z_lt_dec k (cur + 8)) as [Hlt|]; [|lia].
      exfalso. destruct Hk as (Hk0 & Hk1 & Hk2).
      specialize (Hk2 0 ltac:(fold m; lia)). rewrite Z.add_0_r in Hk2.
      assert (In (at_ p 0) w).
      { rewrite <- Hk2. replace k with (cur + (k - cur)) by lia. unfold w.
        rewrite <- (at_window cur (cur + 8)) by (fold n; lia). apply at_in. fold w. lia. }
      rewrite word_test_complete in Ez; [discriminate|assumption|assumption| |].
      * eapply Forall_forall; [exact Hp|]. apply at_in. fold m. lia.
      * unfold l; destruct rv; [rewrite <- in_rev|]; assumption.
    + exists cur'. repeat split; auto; lia.
Qed.

(* what the table of the bad character rule tells *)
Definition table_ok (tbl : Z -> Z) : Prop := forall c, 1 <= tbl c <= m /\
  forall i, 0 <= i < m - 1 -> at_ p i = c -> tbl c <= m - 1 - i.

Lemma bcr_fill_ok : forall q a tbl, p = a ++ q ->
  (forall c, 1 <= tbl c <= m /\ forall i, 0 <= i < Z.min (zlen a) (m - 1) -> at_ p i = c -> tbl c <= m - 1 - i) ->
  table_ok (bcr_fill q m (zlen a) tbl).
Proof.
  pose proof m_pos as Hm.
  induction q as [|c q IH]; intros a tbl E H; cbn [bcr_fill].
  - rewrite app_nil_r in E. subst a. fold m in H. intros x. destruct (H x) as [H1 H2].
    split; [assumption|]. intros i Hi. apply H2. lia.
  - assert (Hlen : zlen a + 1 + zlen q = m) by (unfold m; rewrite E, zlen_app, zlen_cons; lia).
    pose proof (zlen_nonneg a). pose proof (zlen_nonneg q).
    destruct (zlen a =? m - 1) eqn:Ek.
    + intros x. destruct (H x) as [Hx1 Hx2]. split; [assumption|]. intros i Hi. apply Hx2. lia.
    + replace (zlen a + 1) with (zlen (a ++ [c])) by (rewrite zlen_app, zlen_cons; cbn; unfold zlen; cbn; lia).
      apply IH; [now rewrite <- app_assoc|]. intros x.
      rewrite zlen_app, zlen_cons. change (zlen (@nil Z)) with 0.
      destruct (H x) as [Hx1 Hx2]. unfold upd. destruct (x =? c) eqn:Ex.
      * split; [lia|]. intros i Hi _. lia.
      * split; [assumption|]. intros i Hi Hat. apply Hx2; [|assumption].
        assert (i <> zlen a); [|lia]. intros ->.
        revert Hat. unfold at_. rewrite E. rewrite app_nth2 by (unfold zlen; lia).
        replace (Z.to_nat (zlen a) - length a)%nat with 0%nat by (unfold zlen; lia). cbn [nth]. lia.
Qed.

Lemma bmh_table_ok : exists tbl, bmh_table p = Ok tbl /\ table_ok tbl.
Proof.
  pose proof m_pos as Hm. unfold bmh_table. cbv zeta. fold m. replace (m <=? 0) with false by lia.
  eexists. split; [reflexivity|]. change 0 with (zlen (@nil Z)).
  apply bcr_fill_ok; [reflexivity|]. intros c. split; [lia|].
  change (zlen (@nil Z)) with 0. lia.
Qed.

Variable tbl : Z -> Z.
Hypothesis Htbl : table_ok tbl.

(* no match starts strictly between cur and cur + off *)
Definition safe_shift (cur off : Z) : Prop := forall k, matches p t k -> cur < k -> cur + off <= k.

Lemma table_shift cur tml : 0 <= cur <= final -> 0 <= tml < m ->
  safe_shift cur (tbl (at_ t (cur + tml)) - (m - 1 - tml)).
Proof.
  intros Hc Ht' k (Hk0 & Hk1 & Hk2) Hlt. fold m n in Hk1, Hk2.
  destruct (Htbl (at_ t (cur + tml))) as [H1 H2].
  destruct (Z_le_dec (k - cur) tml) as [Hle|]; [|lia].
  specialize (Hk2 (tml - (k - cur)) ltac:(lia)).
  replace (k + (tml - (k - cur))) with (cur + tml) in Hk2 by lia.
  specialize (H2 (tml - (k - cur)) ltac:(lia) ltac:(symmetry; exact Hk2)). lia.
Qed.

Lemma bmh_compare_ok cur fuel : forall tml off, 0 <= cur <= final -> 0 <= tml < m ->
  (tml < Z.of_nat fuel) -> 1 <= off <= m -> safe_shift cur off ->
  (forall i, tml < i < m -> at_ t (cur + i) = at_ p i) ->
  exists r, bmh_compare fuel tbl t p cur tml off = Ok r /\
    match r with
    | None => matches p t cur
    | Some off' => ~ matches p t cur /\ 1 <= off' <= m /\ safe_shift cur off'
    end.
Proof.
  induction fuel as [|fuel IH]; intros tml off Hc Htm Hf Hoff Hs Heq; [lia|]. cbn [bmh_compare].
  rewrite rd_ok by (fold n; lia). cbn [obind]. rewrite rd_ok by (fold m; lia). cbn [obind].
  destruct (at_ t (cur + tml) =? at_ p tml) eqn:E.
  - assert (Heq' : forall i, tml - 1 < i < m -> at_ t (cur + i) = at_ p i).
    { intros i Hi. destruct (Z.eq_dec i tml) as [->|]; [lia|apply Heq; lia]. }
    cbv zeta. destruct (tml - 1 <? 0) eqn:E0.
    + exists None. split; [reflexivity|]. split; [lia|]. fold m n. split; [lia|]. intros i Hi. apply Heq'. lia.
    + rewrite rd_ok by (fold n; lia). cbn [obind]. fold m. apply IH; try lia.
      * destruct (Htbl (at_ t (cur + (tml - 1)))) as [H1 _]. lia.
      * pose proof (table_shift cur (tml - 1) Hc ltac:(lia)) as Hs'.
        intros k Hk Hlt. specialize (Hs k Hk Hlt). specialize (Hs' k Hk Hlt). lia.
  - exists (Some off). split; [reflexivity|]. repeat split; try lia; try assumption.
    intros (_ & _ & H). specialize (H tml ltac:(fold m; lia)). lia.
Qed.

Lemma bmh_scan_ok fuel : forall cur, 0 <= cur -> final - cur < Z.of_nat fuel ->
  (forall k, matches p t k -> cur <= k) ->
  exists r, bmh_scan fuel tbl t p final cur = Ok r /\ leftmost (matches p t) r.
Proof.
  pose proof m_pos as Hm.
  induction fuel as [|fuel IH]; intros cur H0 Hf Hinv; cbn [bmh_scan].
  - destruct (0 <=? final - cur) eqn:E; [lia|]. exists None. split; [reflexivity|]. cbn. intros k Hk.
    pose proof (Hinv k Hk). destruct Hk as (_ & Hk & _). fold m n in Hk. lia.
  - destruct (0 <=? final - cur) eqn:E.
    + cbv zeta. fold m. rewrite rd_ok by (fold n; lia). cbn [obind].
      destruct (bmh_compare_ok cur (length p) (m - 1) (tbl (at_ t (cur + (m - 1))))) as (r & -> & Hr).
      * lia.
      * lia.
      * unfold m, zlen; lia.
      * apply Htbl.
      * pose proof (table_shift cur (m - 1) ltac:(lia) ltac:(lia)) as Hs.
        rewrite Z.sub_diag, Z.sub_0_r in Hs. assumption.
      * intros i Hi. lia.
      * cbn [obind]. destruct r as [off|].
        -- destruct Hr as (Hno & Hoff & Hs). fold n. unfold iter.
           replace ((0 <=? cur + off) && (cur + off <=? n)) with true by lia. cbn [obind].
           apply IH; [lia|lia|]. intros k Hk. apply Hs; [assumption|].
           pose proof (Hinv k Hk). assert (k <> cur) by (intros ->; contradiction). lia.
        -- exists (Some cur). split; [reflexivity|]. cbn. auto.
    + exists None. split; [reflexivity|]. cbn. intros k Hk.
      pose proof (Hinv k Hk). destruct Hk as (_ & Hk & _). fold m n in Hk. lia.
Qed.

Lemma search_opt_ok rv : exists r, search_opt tbl rv t p = Ok r /\ leftmost (matches p t) r.
Proof.
  pose proof m_pos as Hm. unfold search_opt. cbv zeta. fold m n.
  destruct (n <? m) eqn:E.
  - exists None. split; [reflexivity|]. cbn. intros k (H1 & H2 & _). fold m n in H2. lia.
  - rewrite rd_ok by (fold m; lia). cbn [obind]. fold final.
    destruct (skip_words_ok rv (length t) 0) as (cur & -> & H1 & H2 & H3).
    + lia.
    + unfold final, n, zlen; lia.
    + intros k (Hk & _). assumption.
    + cbn [obind]. apply bmh_scan_ok; [lia| |assumption]. unfold final, n, zlen in *; lia.
Qed.
End Search.

Lemma leftmost_iff (P Q : Z -> Prop) r : (forall k, P k <-> Q k) -> leftmost P r -> leftmost Q r.
Proof.
  intros H. destruct r as [k|]; cbn.
  - intros [H1 H2]. split; [now apply H|]. intros j Hj. apply H2, H, Hj.
  - intros H1 j Hj. apply (H1 j), H, Hj.
Qed.

Lemma search_ok rv t p : all_bytes t -> all_bytes p -> p <> [] ->
  exists tbl, bmh_table p = Ok tbl /\ forall t, all_bytes t ->
  exists r, search_opt tbl rv t p = Ok r /\ leftmost (occurs p t) r.
Proof.
  intros _ Hp Hne. destruct (bmh_table_ok [] p Hne) as (tbl & -> & Htbl).
  exists tbl. split; [reflexivity|]. intros t' Ht'.
  destruct (search_opt_ok t' p Ht' Hp Hne tbl Htbl rv) as (r & Hr & Hl). exists r. split; [assumption|].
  eapply leftmost_iff; [|exact Hl]. intros k. symmetry. apply occurs_matches.
Qed.

Lemma do_find_opt_ok rv t p : all_bytes t -> all_bytes p ->
  exists r, do_find_opt rv t p = Ok r /\ leftmost (occurs p t) r.
Proof.
  intros Ht Hp. unfold do_find_opt. destruct p as [|p0 p'].
  - exists (Some 0). split; [reflexivity|]. cbn. split.
    + apply occurs_empty. pose proof (zlen_nonneg t). lia.
    + intros j Hj. apply occurs_empty in Hj. lia.
  - set (p := p0 :: p') in *. destruct t as [|t0 t'].
    + exists None. split; [reflexivity|]. cbn. intros j (a & b & E & _). destruct a; discriminate.
    + set (t := t0 :: t') in *.
      destruct (search_ok rv t p Ht Hp) as (tbl & -> & H); [discriminate|]. cbn [obind]. apply H, Ht.
Qed.

(* occurrences in a range *)
Lemma occurs_window p t lo hi k : 0 <= lo <= hi -> hi <= zlen t ->
  occurs p (window lo hi 0 t) k <-> occurs_in p t lo hi (lo + k).
Proof.
  intros H1 H2. unfold occurs_in. rewrite !occurs_matches. unfold matches.
  rewrite window_length by assumption. split.
  - intros (Hk & Hle & H). repeat split; try lia. intros i Hi. rewrite <- H by lia.
    rewrite at_window by lia. f_equal. lia.
  - intros ((Hk & Hle & H) & Hlo & Hhi). repeat split; try lia. intros i Hi.
    rewrite at_window by lia. rewrite <- H by lia. f_equal. lia.
Qed.

Lemma string_find_ok text from len pat : fits text -> opt_int64 from -> opt_int64 len ->
  all_bytes text -> all_bytes pat ->
  exists r, string_find text from len pat = Ok r /\
    leftmost (occurs_in pat text (range_low (zlen text) from) (range_high (zlen text) from len)) r.
Proof.
  intros Hf H1 H2 Ht Hp. unfold string_find.
  pose proof (zlen_nonneg text) as Hn. unfold fits in Hf.
  destruct (do_slice_ok (zlen text) from len) as (E & Hb1 & Hb2); [lia|assumption..|].
  rewrite E. cbn [obind].
  rewrite subrange_ok by lia. cbn [obind].
  set (lo := range_low (zlen text) from) in *. set (hi := range_high (zlen text) from len) in *.
  destruct (do_find_opt_ok false (window lo hi 0 text) pat) as (r & -> & Hr);
    [now apply all_bytes_window|assumption|].
  cbn [obind]. eexists; split; [reflexivity|]. destruct r as [k|]; cbn in *.
  - destruct Hr as [Hk Hmin]. rewrite occurs_window in Hk by lia. split; [assumption|].
    intros j Hj. specialize (Hmin (j - lo)). rewrite occurs_window in Hmin by lia.
    replace (lo + (j - lo)) with j in Hmin by lia. specialize (Hmin Hj). lia.
  - intros j Hj. apply (Hr (j - lo)). rewrite occurs_window by lia.
    now replace (lo + (j - lo)) with j by lia.
Qed.

Lemma occurs_rev p t k : occurs (rev p) (rev t) k <-> occurs p t (zlen t - k - zlen p).
Proof.
  assert (H : forall p t k, occurs p t k -> occurs (rev p) (rev t) (zlen t - k - zlen p)).
  { clear. intros p t k (a & b & -> & <-). exists (rev b), (rev a).
    rewrite !rev_app_distr, <- app_assoc, !zlen_app, zlen_rev. split; [reflexivity|lia]. }
  split.
  - intros Hk. apply H in Hk. rewrite !rev_involutive, !zlen_rev in Hk. assumption.
  - intros Hk. apply H in Hk. replace k with (zlen t - (zlen t - k - zlen p) - zlen p) by lia. assumption.
Qed.

Lemma string_rfind_ok text from len pat : fits text -> opt_int64 from -> opt_int64 len ->
  all_bytes text -> all_bytes pat ->
  exists r, string_rfind text from len pat = Ok r /\
    rightmost (occurs_in pat text (range_low (zlen text) from) (range_high (zlen text) from len)) r.
Proof.
  intros Hf H1 H2 Ht Hp. unfold string_rfind.
  pose proof (zlen_nonneg text) as Hn. unfold fits in Hf.
  destruct (do_slice_ok (zlen text) from len) as (E & Hb1 & Hb2); [lia|assumption..|].
  rewrite E. cbn [obind].
  rewrite subrange_ok by lia. cbn [obind].
  set (lo := range_low (zlen text) from) in *. set (hi := range_high (zlen text) from len) in *.
  destruct (do_find_opt_ok true (rev (window lo hi 0 text)) (rev pat)) as (r & -> & Hr);
    [now apply Forall_rev, all_bytes_window|now apply Forall_rev|].
  cbn [obind]. eexists; split; [reflexivity|].
  assert (Hiff : forall k, occurs (rev pat) (rev (window lo hi 0 text)) k <->
                 occurs_in pat text lo hi (hi - k - zlen pat)).
  { intros k. rewrite occurs_rev, window_length, occurs_window by lia.
    now replace (lo + (hi - lo - k - zlen pat)) with (hi - k - zlen pat) by lia. }
  destruct r as [k|]; cbn in *.
  - destruct Hr as [Hk Hmin]. split; [now apply Hiff|].
    intros j Hj. specialize (Hmin (hi - j - zlen pat)). rewrite Hiff in Hmin.
    replace (hi - (hi - j - zlen pat) - zlen pat) with j in Hmin by lia. specialize (Hmin Hj). lia.
  - intros j Hj. apply (Hr (hi - j - zlen pat)). apply Hiff.
    now replace (hi - (hi - j - zlen pat) - zlen pat) with j by lia.
Qed.

(* ---- replace ---- *)

Lemma insert_beside_ok rep s : forall res, insert_beside rep res s ++ rep = res ++ interleaved rep s.
Proof.
  induction s as [|c s IH]; intros res; cbn [insert_beside interleaved]; [reflexivity|].
  rewrite IH. rewrite <- !app_assoc. reflexivity.
Qed.

Lemma window_app {A} lo mid hi (l : list A) : 0 <= lo <= mid -> mid <= hi -> hi <= zlen l ->
  window lo hi 0 l = window lo mid 0 l ++ window mid hi 0 l.
Proof.
  intros H1 H2 H3. rewrite !window_sub by lia. rewrite ?Z.sub_0_r.
  replace (Z.to_nat (hi - lo)) with (Z.to_nat (mid - lo) + Z.to_nat (hi - mid))%nat by lia.
  rewrite <- (firstn_skipn (Z.to_nat (mid - lo)) (skipn (Z.to_nat lo) l)) at 1.
  rewrite firstn_app, firstn_firstn, firstn_length, skipn_length. unfold zlen in H3.
  rewrite Nat.min_r by lia. f_equal. rewrite skipn_skipn.
  f_equal; [lia|f_equal; lia].
Qed.
Lemma window_all {A} (l : list A) : window 0 (zlen l) 0 l = l.
Proof. rewrite window_sub by lia. unfold zlen. rewrite skipn_O. apply firstn_all2. lia. Qed.

(* a range cut at an occurrence *)
Lemma window_occurs p t lo hi k : 0 <= lo <= hi -> hi <= zlen t -> occurs p (window lo hi 0 t) k ->
  0 <= k /\ lo + k + zlen p <= hi /\
  window lo hi 0 t = window lo (lo + k) 0 t ++ p ++ window (lo + k + zlen p) hi 0 t.
Proof.
  intros H1 H2 H. assert (Hr := H). apply (occurs_window p t lo hi k H1 H2) in Hr.
  apply occurs_matches in H. destruct H as (Hk & _). destruct Hr as (Ho & Hlo & Hhi).
  pose proof (zlen_nonneg p). split; [lia|]. split; [lia|].
  rewrite (window_app lo (lo + k) hi) by lia. f_equal.
  rewrite (window_app (lo + k) (lo + k + zlen p) hi) by lia. f_equal.
  destruct Ho as (a & b & -> & Ha). rewrite window_sub by lia.
  replace (Z.to_nat (lo + k - 0)) with (length a) by (unfold zlen in Ha; lia). rewrite skipn_length_app.
  replace (Z.to_nat _) with (length p) by (unfold zlen; lia). rewrite firstn_length_app. reflexivity.
Qed.

Lemma replace_loop_ok tbl text pat rep last :
  all_bytes text -> pat <> [] ->
  (forall t, all_bytes t -> exists r, search_opt tbl false t pat = Ok r /\ leftmost (occurs pat t) r) ->
  forall fuel first res, 0 <= first <= last -> last <= zlen text -> last - first < Z.of_nat fuel ->
  exists mid, substituted pat rep (window first last 0 text) mid /\
    replace_loop fuel tbl text pat rep first last res = Ok (res ++ mid ++ window last (zlen text) 0 text).
Proof.
  intros Ht Hne Hs. induction fuel as [|fuel IH]; intros first res H1 H2 Hf; [lia|]. cbn [replace_loop].
  rewrite subrange_ok by lia. cbn [obind].
  destruct (Hs (window first last 0 text)) as (r & -> & Hr); [now apply all_bytes_window|]. cbn [obind].
  destruct r as [k|]; cbn in Hr.
  - destruct Hr as [Hk Hmin]. destruct (window_occurs pat text first last k H1 H2 Hk) as (Hk0 & Hk1 & E).
    pose proof (zlen_pos pat Hne).
    rewrite subrange_ok by lia. cbn [obind].
    destruct (IH (first + k + zlen pat) (res ++ window first (first + k) 0 text ++ rep)) as (mid & Hmid & ->); try lia.
    exists (window first (first + k) 0 text ++ rep ++ mid). split.
    + rewrite E. apply sub_some; [|assumption]. rewrite <- E. intros j Hj.
      rewrite window_length by lia. specialize (Hmin j Hj). lia.
    + rewrite <- !app_assoc. reflexivity.
  - exists (window first last 0 text). split; [now apply sub_none|].
    rewrite subrange_ok by lia. cbn [obind]. f_equal. f_equal. rewrite (window_app first last) by lia. reflexivity.
Qed.

Lemma string_replace_ok text from len pat rep : fits text -> opt_int64 from -> opt_int64 len ->
  all_bytes text -> all_bytes pat -> pat <> [] ->
  let lo := range_low (zlen text) from in
  let hi := range_high (zlen text) from len in
  exists mid, substituted pat rep (window lo hi 0 text) mid /\
    string_replace text from len pat rep = Ok (window 0 lo 0 text ++ mid ++ window hi (zlen text) 0 text).
Proof.
  intros Hf H1 H2 Ht Hp Hne lo hi. unfold string_replace. pose proof (zlen_nonneg text) as Hn. unfold fits in Hf.
  destruct (do_slice_ok (zlen text) from len) as (E & Hb1 & Hb2); [lia|assumption..|].
  rewrite E. cbn [obind]. fold lo hi in Hb1, Hb2 |- *.
  destruct (Z.eqb_spec lo hi) as [El|].
  - exists []. split.
    + rewrite <- El. rewrite window_sub, Z.sub_diag by lia. cbn. apply sub_none.
      intros k (a & b & Eq & _). destruct a, pat; try discriminate; congruence.
    + cbn [app]. rewrite <- El, <- window_app, window_all by lia. reflexivity.
  - rewrite subrange_ok by lia. cbn [obind].
    destruct pat as [|p0 p']; [congruence|]. set (pat := p0 :: p') in *.
    destruct (search_ok false text pat Ht Hp Hne) as (tbl & -> & Hs). cbn [obind].
    destruct (replace_loop_ok tbl text pat rep hi Ht Hne Hs (S (length text)) lo (window 0 lo 0 text))
      as (mid & Hm & ->); [lia|lia|unfold zlen in *; lia|]. exists mid. auto.
Qed.

Lemma string_replace_empty_ok text from len rep : fits text -> opt_int64 from -> opt_int64 len ->
  let lo := range_low (zlen text) from in
  let hi := range_high (zlen text) from len in
  string_replace text from len [] rep =
    Ok (if lo =? hi then text
        else window 0 lo 0 text ++ interleaved rep (window lo hi 0 text) ++ window hi (zlen text) 0 text).
Proof.
  intros Hf H1 H2 lo hi. unfold string_replace. pose proof (zlen_nonneg text) as Hn. unfold fits in Hf.
  destruct (do_slice_ok (zlen text) from len) as (E & Hb1 & Hb2); [lia|assumption..|].
  rewrite E. cbn [obind]. fold lo hi in Hb1, Hb2 |- *.
  destruct (lo =? hi); [reflexivity|].
  rewrite !subrange_ok by lia. cbn [obind]. rewrite app_assoc, insert_beside_ok, <- app_assoc. reflexivity.
Qed.

(* the substitution is a function *)
Lemma app_len_inj {A} (a b c d : list A) : zlen a = zlen c -> a ++ b = c ++ d -> a = c /\ b = d.
Proof.
  unfold zlen; intros Hl. assert (H : length a = length c) by lia. clear Hl. revert c H.
  induction a as [|x a IH]; intros [|y c] H; cbn in *; try lia; auto.
  intros E. injection E as -> E. destruct (IH c ltac:(lia) E). subst; auto.
Qed.
Lemma substituted_fun p r t x : substituted p r t x -> forall y, substituted p r t y -> x = y.
Proof.
  intros H; induction H as [t Hn|a b b' Hmin H IH]; intros y Hy.
  - inversion Hy as [t0 Hn'|a b b' Hmin' H']; subst; [reflexivity|].
    exfalso. apply (Hn (zlen a)). exists a, b. auto.
  - inversion Hy as [t0 Hn'|a2 b2 b2' Hmin2 H2 E]; subst.
    + exfalso. apply (Hn' (zlen a)). exists a, b. auto.
    + assert (El : zlen a2 = zlen a).
      { apply Z.le_antisymm.
        - apply Hmin2. rewrite E. exists a, b. auto.
        - apply Hmin. rewrite <- E. exists a2, b2. auto. }
      apply app_len_inj in E; [|assumption]. destruct E as [-> E].
      apply app_inv_head in E. subst b2. rewrite (IH b2'); auto.
Qed.

(* ---- explode and implode ---- *)

Lemma implode_ok d l : string_implode l d = joined (match d with Some d => d | None => [] end) l.
Proof.
  unfold string_implode. destruct l as [|s l]; [reflexivity|].
  set (dd := match d with Some d => d | None => [] end).
  assert (H : forall l t s, implode_loop d (t ++ s) l = t ++ joined dd (s :: l)).
  { clear. induction l as [|s' l IH]; intros t s; [reflexivity|].
    cbn [implode_loop]. cbv zeta.
    replace (match d with Some d => (t ++ s) ++ d | None => t ++ s end) with (t ++ s ++ dd).
    2:{ unfold dd; destruct d; [now rewrite app_assoc|now rewrite app_nil_r]. }
    rewrite IH. cbn [joined]. rewrite <- !app_assoc. reflexivity. }
  apply (H l []).
Qed.

Lemma segmented_joined d n t l : segmented d n t l -> joined d l = t /\ 1 <= zlen l.
Proof.
  intros H; induction H as [n t|n a b l Hn Hmin H [IH1 IH2]]; [split; [reflexivity|cbn; lia]|].
  destruct l as [|x l]; [cbn in IH2; lia|]. split.
  - change (joined d (a :: x :: l)) with (a ++ d ++ joined d (x :: l)). now rewrite IH1.
  - rewrite zlen_cons. lia.
Qed.

Lemma explode_loop_ok tbl text delim rlimit :
  all_bytes text -> delim <> [] ->
  (forall t, all_bytes t -> exists r, search_opt tbl false t delim = Ok r /\ leftmost (occurs delim t) r) ->
  forall fuel tcur segs, 0 <= tcur <= zlen text -> zlen text - tcur < Z.of_nat fuel -> zlen segs < rlimit ->
  exists l, explode_loop fuel tbl text delim rlimit tcur segs = Ok (segs ++ l) /\
    segmented delim (rlimit - zlen segs) (window tcur (zlen text) 0 text) l.
Proof.
  intros Ht Hne Hs. induction fuel as [|fuel IH]; intros tcur segs H1 Hf Hl; [lia|]. cbn [explode_loop].
  rewrite subrange_ok by lia. cbn [obind].
  destruct (zlen segs + 1 <? rlimit) eqn:El.
  - destruct (Hs (window tcur (zlen text) 0 text)) as (r & -> & Hr); [now apply all_bytes_window|]. cbn [obind].
    destruct r as [k|]; cbn in Hr.
    + destruct Hr as [Hk Hmin].
      destruct (window_occurs delim text tcur (zlen text) k ltac:(lia) ltac:(lia) Hk) as (Hk0 & Hk1 & E).
      pose proof (zlen_pos delim Hne).
      rewrite subrange_ok by lia. cbn [obind].
      assert (Hz : zlen (segs ++ [window tcur (tcur + k) 0 text]) = zlen segs + 1)
        by (rewrite zlen_app, zlen_cons; cbn; lia).
      destruct (IH (tcur + k + zlen delim) (segs ++ [window tcur (tcur + k) 0 text])) as (l & -> & Hseg); try lia.
      exists (window tcur (tcur + k) 0 text :: l). split; [now rewrite <- app_assoc|].
      rewrite E. apply seg_more; [lia| |].
      * rewrite <- E. intros j Hj. rewrite window_length by lia. specialize (Hmin j Hj). lia.
      * rewrite Hz in Hseg. replace (rlimit - zlen segs - 1) with (rlimit - (zlen segs + 1)) by lia. assumption.
    + eexists. split; [reflexivity|]. apply seg_last. auto.
  - eexists. split; [reflexivity|]. apply seg_last. left. lia.
Qed.

Definition limit_of (limit : option Z) : Z := match limit with Some l => l | None => 2 ^ 64 - 1 end.

Lemma explode_delim_ok text delim limit : fits text ->
  all_bytes text -> all_bytes delim -> delim <> [] -> text <> [] -> opt_int64 limit ->
  match limit with Some l => 0 < l | None => True end ->
  exists l, string_explode text (Some delim) limit = Ok l /\ segmented delim (limit_of limit) text l.
Proof.
  intros Hf Ht Hd Hne Hte Hlim Hpos. unfold string_explode.
  assert (Hr : match limit with Some l => if l <=? 0 then Throw else Ok l | None => Ok (2 ^ 64 - 1) end
               = Ok (limit_of limit)).
  { destruct limit as [l|]; [|reflexivity]. replace (l <=? 0) with false by lia. reflexivity. }
  rewrite Hr. cbn [obind]. destruct text as [|t0 t']; [congruence|]. set (text := t0 :: t') in *.
  destruct delim as [|d0 d']; [congruence|]. set (delim := d0 :: d') in *.
  destruct (search_ok false text delim Ht Hd Hne) as (tbl & -> & Hs). cbn [obind].
  destruct (explode_loop_ok tbl text delim (limit_of limit) Ht Hne Hs (S (length text)) 0 []) as (l & -> & Hl).
  - pose proof (zlen_nonneg text). lia.
  - unfold zlen; lia.
  - change (zlen (@nil bytes)) with 0. unfold limit_of. destruct limit; lia.
  - exists l. split; [reflexivity|]. rewrite window_all in Hl. change (zlen (@nil bytes)) with 0 in Hl.
    now rewrite Z.sub_0_r in Hl.
Qed.

Lemma explode_bytes_ok rlimit t : forall segs, zlen segs < rlimit -> t <> [] ->
  explode_bytes rlimit segs t = segs ++
    (if zlen t <=? rlimit - zlen segs then map (fun c => [c]) t
     else map (fun c => [c]) (firstn (Z.to_nat (rlimit - zlen segs - 1)) t)
          ++ [skipn (Z.to_nat (rlimit - zlen segs - 1)) t]).
Proof.
  induction t as [|c t IH]; intros segs Hl Hne; [congruence|]. cbn [explode_bytes].
  rewrite zlen_cons. pose proof (zlen_nonneg t). pose proof (zlen_nonneg segs).
  destruct (zlen segs + 1 <? rlimit) eqn:E.
  - assert (Hz : zlen (segs ++ [[c]]) = zlen segs + 1) by (rewrite zlen_app, zlen_cons; cbn; lia).
    destruct t as [|c' t'].
    + cbn [explode_bytes]. change (zlen (@nil Z)) with 0. replace (_ <=? _) with true by lia. reflexivity.
    + rewrite IH by (rewrite ?Hz; (lia || discriminate)). rewrite Hz, <- app_assoc. f_equal.
      set (t := c' :: t') in *. cbn [app].
      replace (Z.to_nat (rlimit - zlen segs - 1)) with (S (Z.to_nat (rlimit - (zlen segs + 1) - 1))) by lia.
      cbn [firstn skipn map app].
      destruct (zlen t <=? rlimit - (zlen segs + 1)) eqn:E1;
        destruct (zlen t + 1 <=? rlimit - zlen segs) eqn:E2; try lia; reflexivity.
  - replace (rlimit - zlen segs - 1) with 0 by lia. cbn [Z.to_nat firstn skipn map app]. f_equal.
    destruct (zlen t + 1 <=? rlimit - zlen segs) eqn:E1; [|reflexivity].
    rewrite (zlen_zero t) by lia. reflexivity.
Qed.

Lemma joined_bytes t : joined [] (map (fun c : Z => [c]) t) = t.
Proof.
  induction t as [|c t IH]; [reflexivity|]. cbn [map]. destruct t as [|c' t]; [reflexivity|].
  cbn [map] in *. change (joined [] ([c] :: ([c'] :: map (fun c => [c]) t)))
    with ([c] ++ [] ++ joined [] ([c'] :: map (fun c => [c]) t)). rewrite IH. reflexivity.
Qed.
Lemma joined_bytes_rest t s : joined [] (map (fun c : Z => [c]) t ++ [s]) = t ++ s.
Proof.
  induction t as [|c t IH]; [reflexivity|]. cbn [map app].
  destruct (map (fun c => [c]) t ++ [s]) as [|x l] eqn:E; [destruct t; discriminate|].
  change (joined [] ([c] :: x :: l)) with ([c] ++ [] ++ joined [] (x :: l)). rewrite IH. reflexivity.
Qed.

Lemma explode_implode_ok text delim limit : fits text -> all_bytes text ->
  match delim with Some d => all_bytes d | None => True end -> opt_int64 limit ->
  match limit with Some l => 0 < l | None => True end ->
  exists l, string_explode text delim limit = Ok l /\ string_implode l delim = text /\ zlen l <= limit_of limit.
Proof.
  intros Hf Ht Hd Hlim Hpos.
  assert (H1 : 1 <= limit_of limit) by (unfold limit_of; destruct limit; lia).
  destruct text as [|t0 t'].
  - exists []. unfold string_explode. split.
    + destruct limit as [l|]; [replace (l <=? 0) with false by lia|]; reflexivity.
    + split; [reflexivity|cbn; lia].
  - set (text := t0 :: t') in *.
    assert (Hseg : forall d n t l, segmented d n t l -> 1 <= n -> zlen l <= n).
    { clear. intros d n t l H; induction H as [n t|n a b l Hn Hmin H IH]; intros Hn'; [cbn; lia|].
      rewrite zlen_cons. specialize (IH ltac:(lia)). lia. }
    assert (Hsplit : delim = None \/ delim = Some [] -> exists l, string_explode text delim limit = Ok l /\
              string_implode l delim = text /\ zlen l <= limit_of limit).
    { intros Hdel. exists (explode_bytes (limit_of limit) [] text). split; [|].
      - unfold string_explode.
        destruct limit as [l|]; [replace (l <=? 0) with false by lia|]; destruct Hdel as [-> | ->]; reflexivity.
      - rewrite implode_ok.
        replace (match delim with Some d => d | None => [] end) with (@nil Z) by (destruct Hdel as [-> | ->]; reflexivity).
        rewrite explode_bytes_ok by (cbn; (lia || discriminate)). cbn [app].
        change (zlen (@nil bytes)) with 0. rewrite Z.sub_0_r.
        destruct (zlen text <=? limit_of limit) eqn:E.
        + split; [apply joined_bytes|]. unfold zlen in *. rewrite map_length. lia.
        + split; [rewrite joined_bytes_rest; apply firstn_skipn|].
          rewrite zlen_app, zlen_cons. unfold zlen at 1. rewrite map_length, firstn_length.
          cbn. unfold zlen in E. lia. }
    destruct delim as [d|]; [|apply Hsplit; auto].
    destruct d as [|d0 d']; [apply Hsplit; auto|]. set (d := d0 :: d') in *.
    destruct (explode_delim_ok text d limit) as (l & Hl & Hs); try assumption; try discriminate.
    exists l. split; [assumption|]. rewrite implode_ok. split; [|now apply (Hseg _ _ _ _ Hs)].
    apply (segmented_joined _ _ _ _ Hs).
Qed.

(* ---- cow_string ---- *)

Section Cow.
Variables (t p : bytes).
Hypothesis Hne : p <> [].
Let n := zlen t.
Let m := zlen p.

Lemma cow_match_ok : forall q a k, p = a ++ q -> 0 <= k -> k + m <= n ->
  (forall i, 0 <= i < zlen a -> at_ t (k + i) = at_ p i) ->
  exists b, cow_match t (k + zlen a) q = Ok b /\ (b = true <-> matches p t k).
Proof.
  induction q as [|c q IH]; intros a k E Hk Hle H; cbn [cow_match].
  - exists true. split; [reflexivity|]. split; [|reflexivity]. intros _. rewrite app_nil_r in E. subst a.
    split; [assumption|]. split; [assumption|]. assumption.
  - assert (Hlen : zlen a + 1 + zlen q = m) by (unfold m; rewrite E, zlen_app, zlen_cons; lia).
    pose proof (zlen_nonneg a). pose proof (zlen_nonneg q).
    assert (Hc : at_ p (zlen a) = c).
    { unfold at_. rewrite E, app_nth2 by (unfold zlen; lia).
      replace (Z.to_nat (zlen a) - length a)%nat with 0%nat by (unfold zlen; lia). reflexivity. }
    rewrite rd_ok by (fold n; lia). cbn [obind].
    destruct (at_ t (k + zlen a) =? c) eqn:Eq.
    + assert (Ha : zlen (a ++ [c]) = zlen a + 1) by (rewrite zlen_app, zlen_cons; cbn; lia).
      destruct (IH (a ++ [c]) k) as (b & Hb & Hiff); try assumption.
      * now rewrite <- app_assoc.
      * rewrite Ha. intros i Hi. destruct (Z.eq_dec i (zlen a)) as [->|]; [lia|apply H; lia].
      * exists b. rewrite Ha in Hb. replace (k + (zlen a + 1)) with (k + zlen a + 1) in Hb by lia. auto.
    + exists false. split; [reflexivity|]. split; [discriminate|]. intros (_ & _ & Hm).
      specialize (Hm (zlen a) ltac:(fold m; lia)). lia.
Qed.

(* the table: beyond the entry there is no byte of the class among all but the
   last bytes of the pattern *)
Definition cow_table_ok (tbl : Z -> Z) : Prop := forall c, 0 <= tbl c <= m - 1 /\
  forall i, 0 <= i < m - 1 -> at_ p i mod 64 = c -> i + 1 <= tbl c.

Lemma cow_offsets_ok : forall q a tbl, p = a ++ q -> zlen a < m ->
  (forall c, 0 <= tbl c <= zlen a /\ forall i, 0 <= i < zlen a -> at_ p i mod 64 = c -> i + 1 <= tbl c) ->
  cow_table_ok (cow_offsets q (zlen a) tbl).
Proof.
  induction q as [|c q IH]; intros a tbl E Hl H.
  - rewrite app_nil_r in E. subst a. fold m in Hl. lia.
  - assert (Hlen : zlen a + 1 + zlen q = m) by (unfold m; rewrite E, zlen_app, zlen_cons; lia).
    pose proof (zlen_nonneg a). pose proof (zlen_nonneg q).
    assert (Hc : at_ p (zlen a) = c).
    { unfold at_. rewrite E, app_nth2 by (unfold zlen; lia).
      replace (Z.to_nat (zlen a) - length a)%nat with 0%nat by (unfold zlen; lia). reflexivity. }
    destruct q as [|c' q'].
    + cbn [cow_offsets]. change (zlen (@nil Z)) with 0 in *. intros x. destruct (H x) as [Hx1 Hx2].
      split; [lia|]. intros i Hi. apply Hx2. lia.
    + set (q := c' :: q') in *.
      change (cow_offsets (c :: q) (zlen a) tbl) with (cow_offsets q (zlen a + 1) (upd tbl (c mod 64) (zlen a + 1))).
      assert (Ha : zlen (a ++ [c]) = zlen a + 1) by (rewrite zlen_app, zlen_cons; cbn; lia).
      pose proof (zlen_pos q ltac:(discriminate)).
      rewrite <- Ha at 1. apply IH; [now rewrite <- app_assoc|lia|].
      rewrite Ha. intros x. destruct (H x) as [Hx1 Hx2]. unfold upd.
      destruct (x =? c mod 64) eqn:Ex.
      * split; [lia|]. intros i Hi _. lia.
      * split; [lia|]. intros i Hi Hat. apply Hx2; [|assumption].
        assert (i <> zlen a); [|lia]. intros ->. rewrite Hc in Hat. lia.
Qed.

Variable tbl : Z -> Z.
Hypothesis Htbl : cow_table_ok tbl.

Lemma cow_search_loop_ok fuel : forall tcur, 0 <= tcur -> tcur + m <= n -> n - m - tcur < Z.of_nat fuel ->
  (forall k, matches p t k -> tcur <= k) ->
  exists r, cow_search_loop fuel tbl t p tcur = Ok r /\ leftmost (matches p t) r.
Proof.
  assert (Hm : 0 < m) by (apply zlen_pos, Hne).
  induction fuel as [|fuel IH]; intros tcur H0 H1 Hf Hinv; [lia|]. cbn [cow_search_loop].
  destruct (cow_match_ok p [] tcur) as (b & Hb & Hiff); [reflexivity|assumption|assumption| |].
  { change (zlen (@nil Z)) with 0. intros i Hi. lia. }
  change (zlen (@nil Z)) with 0 in Hb. rewrite Z.add_0_r in Hb. rewrite Hb. cbn [obind].
  destruct b.
  - exists (Some tcur). split; [reflexivity|]. cbn. split; [now apply Hiff|assumption].
  - fold m n. rewrite rd_ok by (fold n; lia). cbn [obind]. cbv zeta.
    set (c := at_ t (tcur + m - 1)). destruct (Htbl (c mod 64)) as [Ht1 Ht2].
    assert (Hinv' : forall k, matches p t k -> tcur + m - tbl (c mod 64) <= k).
    { intros k Hk. pose proof (Hinv k Hk) as Hge.
      assert (Hneq : k <> tcur) by (intros ->; apply Hiff in Hk; discriminate).
      destruct Hk as (Hk0 & Hk1 & Hk2). fold m n in Hk1, Hk2.
      destruct (Z_lt_dec k (tcur + m)) as [Hlt|]; [|lia].
      specialize (Hk2 (tcur + m - 1 - k) ltac:(lia)).
      replace (k + (tcur + m - 1 - k)) with (tcur + m - 1) in Hk2 by lia. fold c in Hk2.
      specialize (Ht2 (tcur + m - 1 - k) ltac:(lia) ltac:(now rewrite <- Hk2)). lia. }
    destruct (m <=? n - (tcur + m - tbl (c mod 64))) eqn:E.
    + apply IH; try lia. assumption.
    + exists None. split; [reflexivity|]. cbn. intros k Hk. pose proof (Hinv' k Hk).
      destruct Hk as (_ & Hk & _). fold m n in Hk. lia.
Qed.
End Cow.

Lemma cow_search_ok t p : p <> [] -> zlen p <= zlen t -> fits t ->
  exists r, cow_search t p = Ok r /\ leftmost (occurs p t) r.
Proof.
  intros Hne Hle Hf. unfold cow_search. cbv zeta.
  assert (Hm : 0 < zlen p) by (apply zlen_pos, Hne). unfold fits, int64_max in Hf.
  assert (Htbl : cow_table_ok p (cow_offsets p 0 (fun _ => 0))).
  { change 0 with (zlen (@nil Z)) at 1. apply (cow_offsets_ok t p); [reflexivity|exact Hm|].
    change (zlen (@nil Z)) with 0. intros c. split; [lia|]. intros i Hi. lia. }
  destruct (cow_search_loop_ok t p Hne
    (fun c => if zlen p <=? 256 then cow_offsets p 0 (fun _ => 0) c mod 2 ^ 8 else cow_offsets p 0 (fun _ => 0) c mod 2 ^ 64))
    with (fuel := S (length t)) (tcur := 0) as (r & Hr & Hl).
  - intros c. destruct (Htbl c) as [H1 H2].
    destruct (zlen p <=? 256) eqn:E; rewrite Z.mod_small by lia; auto.
  - lia.
  - lia.
  - unfold zlen in *; lia.
  - intros k (Hk & _). assumption.
  - exists r. split; [assumption|]. eapply leftmost_iff; [|exact Hl]. intros k. symmetry. apply occurs_matches.
Qed.

Lemma cow_find_ok t from p : fits t -> 0 <= from -> p <> [] ->
  exists r, cow_find t from p = Ok r /\
    leftmost (occurs_in p t from (zlen t)) (match r with Some k => Some (from + k) | None => None end).
Proof.
  intros Hf H0 Hne. unfold cow_find.
  assert (Hm : 0 < zlen p) by (apply zlen_pos, Hne).
  destruct (zlen t <? from) eqn:E1.
  { exists None. split; [reflexivity|]. cbn. intros j (_ & H1 & H2). lia. }
  replace (zlen p =? 0) with false by lia.
  destruct (zlen t - from <? zlen p) eqn:E2.
  { exists None. split; [reflexivity|]. cbn. intros j (_ & H1 & H2). lia. }
  rewrite subrange_ok by lia. cbn [obind].
  assert (Hw : zlen (window from (zlen t) 0 t) = zlen t - from) by (apply window_length; lia).
  destruct (cow_search_ok (window from (zlen t) 0 t) p) as (r & -> & Hr); [assumption|lia|unfold fits in *; lia|].
  exists r. split; [reflexivity|]. destruct r as [k|]; cbn in *.
  - destruct Hr as [Hk Hmin]. split; [now apply occurs_window in Hk; try lia|].
    intros j Hj. specialize (Hmin (j - from)). rewrite occurs_window in Hmin by lia.
    replace (from + (j - from)) with j in Hmin by lia. specialize (Hmin Hj). lia.
  - intros j Hj. apply (Hr (j - from)). apply occurs_window; [lia|lia|].
    now replace (from + (j - from)) with j by lia.
Qed.

Lemma cow_find_start t p : fits t -> exists r, cow_find t 0 p = Ok r /\ leftmost (occurs p t) r.
Proof.
  intros Hf. pose proof (zlen_nonneg t). destruct p as [|p0 p'].
  - exists (Some 0). unfold cow_find. replace (zlen t <? 0) with false by lia. split; [reflexivity|]. cbn. split.
    + apply occurs_empty. lia.
    + intros j Hj. apply occurs_empty in Hj. lia.
  - destruct (cow_find_ok t 0 (p0 :: p') Hf) as (r & Hr & Hl); [lia|discriminate|].
    exists r. split; [assumption|].
    assert (Hiff : forall k, occurs_in (p0 :: p') t 0 (zlen t) k <-> occurs (p0 :: p') t k).
    { intros k. unfold occurs_in. split; [tauto|]. intros Ho. assert (Hm := Ho). apply occurs_matches in Hm.
      destruct Hm as (Hm1 & Hm2 & _). auto. }
    eapply leftmost_iff in Hl; [|exact Hiff]. destruct r; exact Hl.
Qed.

Lemma cow_rfind_ok t to p : fits t -> 0 <= to ->
  exists r, cow_rfind t to p = Ok r /\ rightmost (fun k => occurs p t k /\ k <= to) r.
Proof.
  intros Hf H0. pose proof (zlen_nonneg t) as Hn. unfold cow_rfind. cbv zeta.
  destruct (zlen t <? zlen p) eqn:E1.
  { exists None. split; [reflexivity|]. cbn. intros j (Ho & _). apply occurs_matches in Ho.
    destruct Ho as (H1 & H2 & _). lia. }
  destruct (zlen p =? 0) eqn:E2.
  - assert (p = []) by (apply zlen_zero; lia). subst p.
    exists (Some (Z.min to (zlen t))). split; [reflexivity|]. cbn. split.
    + split; [apply occurs_empty; lia|lia].
    + intros j [Hj Hle]. apply occurs_empty in Hj. lia.
  - set (d := Z.min to (zlen t - zlen p)).
    pose proof (zlen_nonneg p) as Hp.
    assert (Hne : p <> []) by (intros ->; cbn in E2; discriminate).
    rewrite subrange_ok by lia. cbn [obind].
    set (w := window 0 (d + zlen p) 0 t).
    assert (Hw : zlen w = d + zlen p) by (unfold w; rewrite window_length; lia).
    destruct (cow_search_ok (rev w) (rev p)) as (r & -> & Hr).
    + intros E. apply Hne. rewrite <- (rev_involutive p), E. reflexivity.
    + rewrite !zlen_rev. lia.
    + unfold fits in *. rewrite zlen_rev. lia.
    + cbn [obind]. eexists. split; [reflexivity|].
      assert (Hiff : forall k, occurs (rev p) (rev w) k <-> occurs p t (d - k) /\ d - k <= to).
      { intros k. rewrite occurs_rev, Hw. replace (d + zlen p - k - zlen p) with (d - k) by lia.
        unfold w. rewrite occurs_window by lia. rewrite Z.add_0_l. unfold occurs_in. split.
        - intros (Ho & H1 & H2). split; [assumption|lia].
        - intros (Ho & H1). assert (Hm := Ho). apply occurs_matches in Hm. destruct Hm as (Hm1 & Hm2 & _).
          split; [assumption|]. lia. }
      destruct r as [k|]; cbn in *.
      * destruct Hr as [Hk Hmin]. split; [now apply Hiff|]. intros j Hj.
        specialize (Hmin (d - j)). rewrite Hiff in Hmin. replace (d - (d - j)) with j in Hmin by lia.
        specialize (Hmin Hj). lia.
      * intros j Hj. apply (Hr (d - j)). apply Hiff. now replace (d - (d - j)) with j by lia.
Qed.

Lemma cow_find_refuted : exists t from p r, fits t /\ 0 <= from <= zlen t /\ p <> [] /\
  cow_find t from p = Ok (Some r) /\ ~ occurs p t r.
Proof.
  exists (str "abcabc"), 1, (str "abc"), 2.
  split; [vm_compute; discriminate|]. split; [vm_compute; split; discriminate|].
  split; [discriminate|]. split; [reflexivity|].
  rewrite occurs_matches. intros (_ & _ & H). specialize (H 0). vm_compute in H.
  discriminate H. split; [discriminate|reflexivity].
Qed.
