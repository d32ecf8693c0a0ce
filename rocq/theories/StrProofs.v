From Verif Require Import Base Monad Lists Text SeqModel SeqSpec SeqProofs SearchSpec SearchProofs StrModel StrSpec.

(* ---- byte sets ---- *)

Lemma mem_spec c set : mem c set = true <-> In c set.
Proof.
  unfold mem. rewrite existsb_exists. split.
  - intros (x & H & E). apply Z.eqb_eq in E. now subst.
  - intros H. exists c. split; [assumption|]. apply Z.eqb_refl.
Qed.
Lemma want_spec c set want : Bool.eqb (mem c set) want = true <-> (In c set <-> want = true).
Proof.
  rewrite <- mem_spec. destruct (mem c set), want; cbn; split; intros; try tauto; try discriminate;
    destruct H; intuition discriminate.
Qed.

Lemma find_of_loop_shift set want t : forall i j,
  find_of_loop set want t (i + j) = match find_of_loop set want t i with Some k => Some (k + j) | None => None end.
Proof.
  induction t as [|c t IH]; intros i j; cbn [find_of_loop]; [reflexivity|].
  destruct (Bool.eqb _ _); [reflexivity|]. rewrite <- IH. f_equal. lia.
Qed.
Lemma find_of_loop_spec set want t :
  match find_of_loop set want t 0 with
  | Some k => exists a c b, t = a ++ c :: b /\ zlen a = k /\ (In c set <-> want = true) /\
                            Forall (fun x => ~ (In x set <-> want = true)) a
  | None => Forall (fun x => ~ (In x set <-> want = true)) t
  end.
Proof.
  induction t as [|c t IH]; cbn [find_of_loop]; [constructor|].
  destruct (Bool.eqb (mem c set) want) eqn:E.
  - exists [], c, t. apply want_spec in E. repeat split; try tauto. constructor.
  - assert (Hn : ~ (In c set <-> want = true)) by (rewrite <- want_spec, E; discriminate).
    change (0 + 1) with (0 + 1). rewrite find_of_loop_shift.
    destruct (find_of_loop set want t 0) as [k|].
    + destruct IH as (a & d & b & -> & Hk & H1 & H2). exists (c :: a), d, b.
      rewrite zlen_cons. repeat split; try tauto; try lia. constructor; assumption.
    + constructor; assumption.
Qed.

Lemma nth_error_window {A} (t : list A) lo hi k : 0 <= lo -> lo <= k < hi ->
  nth_error (window lo hi 0 t) (Z.to_nat (k - lo)) = nth_error t (Z.to_nat k).
Proof.
  intros H1 H2. rewrite window_sub by lia.
  assert (Hf : forall n i (l : list A), (i < n)%nat -> nth_error (firstn n l) i = nth_error l i).
  { induction n as [|n IH]; intros i l Hi; [lia|]. destruct l as [|x l]; [now destruct i|].
    destruct i as [|i]; [reflexivity|]. cbn. apply IH. lia. }
  assert (Hs : forall n i (l : list A), nth_error (skipn n l) i = nth_error l (n + i)).
  { induction n as [|n IH]; intros i l; [reflexivity|]. destruct l as [|x l]; [now destruct i|]. cbn. apply IH. }
  rewrite Hf by lia. rewrite Hs. f_equal. lia.
Qed.

Lemma nth_error_not (a : bytes) (P : Z -> Prop) k c : Forall (fun x => ~ P x) a ->
  nth_error a k = Some c -> P c -> False.
Proof. intros H E Hp. apply nth_error_In in E. rewrite Forall_forall in H. exact (H c E Hp). Qed.

Lemma string_find_of_ok text from len set want : fits text -> opt_int64 from -> opt_int64 len ->
  exists r, string_find_of text from len set want = Ok r /\
    leftmost (holds_at text set want (range_low (zlen text) from) (range_high (zlen text) from len)) r.
Proof.
  intros Hf H1 H2. unfold string_find_of. pose proof (zlen_nonneg text) as Hn. unfold fits in Hf.
  destruct (do_slice_ok (zlen text) from len) as (E & Hb1 & Hb2); [lia|assumption..|].
  rewrite E. cbn [obind]. rewrite subrange_ok by lia. cbn [obind].
  set (lo := range_low (zlen text) from) in *. set (hi := range_high (zlen text) from len) in *.
  eexists. split; [reflexivity|].
  pose proof (find_of_loop_spec set want (window lo hi 0 text)) as Hs.
  pose proof (window_length lo hi text Hb1 Hb2) as Hl.
  destruct (find_of_loop set want (window lo hi 0 text) 0) as [k|]; cbn.
  - destruct Hs as (a & c & b & Ew & Ha & Hc & Hno).
    rewrite Ew, zlen_app, zlen_cons in Hl. pose proof (zlen_nonneg a). pose proof (zlen_nonneg b).
    split.
    + split; [lia|]. exists c. split; [|assumption].
      rewrite <- (nth_error_window text lo hi) by lia. rewrite Ew, nth_error_app2 by (unfold zlen in *; lia).
      replace (Z.to_nat (lo + k - lo) - length a)%nat with 0%nat by (unfold zlen in *; lia). reflexivity.
    + intros j (Hj & c' & Hj2 & Hj3). destruct (Z_lt_dec j (lo + k)) as [Hlt|]; [|lia]. exfalso.
      rewrite <- (nth_error_window text lo hi) in Hj2 by lia.
      rewrite Ew, nth_error_app1 in Hj2 by (unfold zlen in *; lia).
      eapply (nth_error_not a (fun x => In x set <-> want = true)); eassumption.
  - intros j (Hj & c' & Hj2 & Hj3).
    rewrite <- (nth_error_window text lo hi) in Hj2 by lia.
    eapply (nth_error_not _ (fun x => In x set <-> want = true)); eassumption.
Qed.

Lemma nth_error_rev {A} (l : list A) i : (i < length l)%nat -> nth_error (rev l) i = nth_error l (length l - S i).
Proof.
  intros H. destruct (nth_error l (length l - S i)) as [x|] eqn:E.
  - destruct (nth_split l _ x E) as (a & b & -> & Hl). rewrite app_length in *. cbn [length] in *.
    rewrite rev_app_distr. cbn [rev]. rewrite <- app_assoc, nth_error_app2 by (rewrite rev_length; lia).
    rewrite rev_length. replace (i - length b)%nat with 0%nat by lia. reflexivity.
  - apply nth_error_None in E. lia.
Qed.

Lemma string_rfind_of_ok text from len set want : fits text -> opt_int64 from -> opt_int64 len ->
  exists r, string_rfind_of text from len set want = Ok r /\
    rightmost (holds_at text set want (range_low (zlen text) from) (range_high (zlen text) from len)) r.
Proof.
  intros Hf H1 H2. unfold string_rfind_of. pose proof (zlen_nonneg text) as Hn. unfold fits in Hf.
  destruct (do_slice_ok (zlen text) from len) as (E & Hb1 & Hb2); [lia|assumption..|].
  rewrite E. cbn [obind]. rewrite subrange_ok by lia. cbn [obind].
  set (lo := range_low (zlen text) from) in *. set (hi := range_high (zlen text) from len) in *.
  eexists. split; [reflexivity|].
  set (w := window lo hi 0 text).
  pose proof (find_of_loop_spec set want (rev w)) as Hs.
  assert (Hl : zlen w = hi - lo) by (apply window_length; lia).
  assert (Hat : forall j, lo <= j < hi -> nth_error (rev w) (Z.to_nat (hi - 1 - j)) = nth_error text (Z.to_nat j)).
  { intros j Hj. rewrite nth_error_rev by (unfold zlen in Hl; lia).
    rewrite <- (nth_error_window text lo hi) by lia. fold w. f_equal. unfold zlen in Hl. lia. }
  destruct (find_of_loop set want (rev w) 0) as [k|]; cbn.
  - destruct Hs as (a & c & b & Ew & Ha & Hc & Hno).
    assert (Hl2 : zlen (rev w) = hi - lo) by (rewrite zlen_rev; assumption).
    rewrite Ew, zlen_app, zlen_cons in Hl2. pose proof (zlen_nonneg a). pose proof (zlen_nonneg b).
    split.
    + split; [lia|]. exists c. split; [|assumption].
      rewrite <- Hat by lia. rewrite Ew, nth_error_app2 by (unfold zlen in *; lia).
      replace (Z.to_nat (hi - 1 - (hi - k - 1)) - length a)%nat with 0%nat by (unfold zlen in *; lia). reflexivity.
    + intros j (Hj & c' & Hj2 & Hj3). destruct (Z_lt_dec (hi - k - 1) j) as [Hlt|]; [|lia]. exfalso.
      rewrite <- Hat in Hj2 by lia.
      rewrite Ew, nth_error_app1 in Hj2 by (unfold zlen in *; lia).
      eapply (nth_error_not a (fun x => In x set <-> want = true)); eassumption.
  - intros j (Hj & c' & Hj2 & Hj3).
    rewrite <- Hat in Hj2 by lia.
    eapply (nth_error_not _ (fun x => In x set <-> want = true)); eassumption.
Qed.

(* ---- trimming ---- *)

Lemma in_iff_false (P : Prop) : ~ (P <-> false = true) -> ~ ~ P.
Proof. intros H Hn. apply H. split; [tauto|discriminate]. Qed.
Lemma all_in (set a : bytes) : Forall (fun x => ~ (In x set <-> false = true)) a -> Forall (fun x => In x set) a.
Proof.
  apply Forall_impl. intros x H. apply in_iff_false in H.
  destruct (in_dec Z.eq_dec x set); [assumption|contradiction].
Qed.
Lemma not_in c (set : bytes) : (In c set <-> false = true) -> ~ In c set.
Proof. intros [H _] Hc. specialize (H Hc). discriminate. Qed.

Lemma find_not_of_cases t set :
  (cow_find_not_of t set = npos /\ Forall (fun x => In x set) t) \/
  (exists a c b, t = a ++ c :: b /\ cow_find_not_of t set = zlen a /\ ~ In c set /\ Forall (fun x => In x set) a).
Proof.
  unfold cow_find_not_of. pose proof (find_of_loop_spec set false t) as H.
  destruct (find_of_loop set false t 0) as [k|].
  - right. destruct H as (a & c & b & -> & Hk & Hc & Ha). exists a, c, b.
    repeat split; [auto|now apply not_in|now apply all_in].
  - left. split; [reflexivity|now apply all_in].
Qed.
Lemma rfind_not_of_cases t set :
  (cow_rfind_not_of t set = npos /\ Forall (fun x => In x set) t) \/
  (exists a c b, t = a ++ c :: b /\ cow_rfind_not_of t set = zlen a /\ ~ In c set /\ Forall (fun x => In x set) b).
Proof.
  unfold cow_rfind_not_of. pose proof (find_of_loop_spec set false (rev t)) as H.
  destruct (find_of_loop set false (rev t) 0) as [k|].
  - right. destruct H as (a & c & b & Er & Hk & Hc & Ha). exists (rev b), c, (rev a).
    assert (Et : t = rev b ++ c :: rev a).
    { rewrite <- (rev_involutive t), Er, rev_app_distr. cbn [rev]. rewrite <- app_assoc. reflexivity. }
    repeat split.
    + assumption.
    + rewrite Et at 1. rewrite zlen_app, zlen_cons, !zlen_rev. lia.
    + now apply not_in.
    + apply Forall_rev, all_in, Ha.
  - left. split; [reflexivity|]. apply all_in in H. rewrite <- (rev_involutive t). now apply Forall_rev.
Qed.

Lemma substr_mid a m b : substr (a ++ m ++ b) (zlen a) (zlen m) = Ok m.
Proof.
  unfold substr. rewrite !zlen_app. pose proof (zlen_nonneg a). pose proof (zlen_nonneg m). pose proof (zlen_nonneg b).
  replace (_ <? _) with false by lia. rewrite subrange_ok by (rewrite ?zlen_app; lia).
  f_equal. rewrite window_sub by lia.
  replace (Z.to_nat (zlen a - 0)) with (length a) by (unfold zlen; lia). rewrite skipn_length_app.
  replace (Z.to_nat _) with (length m) by (unfold zlen; lia). apply firstn_length_app.
Qed.
Lemma substr_rest a m n : zlen m <= n -> substr (a ++ m) (zlen a) n = Ok m.
Proof.
  intros H. unfold substr. rewrite !zlen_app. pose proof (zlen_nonneg a). pose proof (zlen_nonneg m).
  replace (_ <? _) with false by lia. rewrite subrange_ok by (rewrite ?zlen_app; lia).
  f_equal. rewrite window_sub by lia.
  replace (Z.to_nat (zlen a - 0)) with (length a) by (unfold zlen; lia). rewrite skipn_length_app.
  apply firstn_all2. unfold zlen in *. lia.
Qed.
Lemma zlen_small {A} (l : list A) : fits l -> 0 <= zlen l < 2 ^ 63.
Proof. unfold fits, int64_max. pose proof (zlen_nonneg l). lia. Qed.

Lemma no_head_app set m b : m <> [] -> no_head set (m ++ b) <-> no_head set m.
Proof. destruct m; [congruence|]. cbn. tauto. Qed.

Lemma set_empty (r : bytes) : (zlen r =? 0) = true -> r = [].
Proof. intros H. apply zlen_zero. lia. Qed.
Lemma no_head_nil m : no_head [] m.
Proof. destruct m; cbn; auto. Qed.

Lemma triml_ok text reject : fits text ->
  exists a m, string_triml text reject = Ok m /\ text = a ++ m /\
    Forall (fun x => In x (get_reject reject)) a /\ no_head (get_reject reject) m.
Proof.
  intros Hf. pose proof (zlen_small text Hf) as Hz. unfold string_triml. cbv zeta. set (r := get_reject reject).
  destruct (zlen r =? 0) eqn:E0.
  { rewrite (set_empty r E0). exists [], text. repeat split; [constructor|apply no_head_nil]. }
  destruct (find_not_of_cases text r) as [[E Ha]|(a & c & b & Et & E & Hc & Ha)]; rewrite E.
  - rewrite Z.eqb_refl. exists text, []. rewrite app_nil_r. repeat split; auto.
  - assert (Hl : zlen text = zlen a + zlen (c :: b)) by (rewrite Et; apply zlen_app).
    pose proof (zlen_nonneg a). pose proof (zlen_nonneg b). rewrite zlen_cons in Hl.
    unfold npos. replace (zlen a =? 2 ^ 64 - 1) with false by lia.
    destruct (Z.eqb_spec (zlen a) 0) as [Ez|].
    + apply zlen_zero in Ez. subst a. exists [], text. repeat split; [constructor|]. rewrite Et. assumption.
    + exists a, (c :: b). rewrite Et at 1. rewrite substr_rest by (rewrite zlen_cons; lia). repeat split; auto.
Qed.

Lemma trimr_ok text reject : fits text ->
  exists m b, string_trimr text reject = Ok m /\ text = m ++ b /\
    Forall (fun x => In x (get_reject reject)) b /\ no_last (get_reject reject) m.
Proof.
  intros Hf. pose proof (zlen_small text Hf) as Hz. unfold string_trimr. cbv zeta. set (r := get_reject reject).
  destruct (zlen r =? 0) eqn:E0.
  { rewrite (set_empty r E0). exists text, []. rewrite app_nil_r. repeat split; [constructor|apply no_head_nil]. }
  destruct (rfind_not_of_cases text r) as [[E Ha]|(a & c & b & Et & E & Hc & Ha)]; rewrite E.
  - change (to_u64 (npos + 1)) with 0. cbn [Z.eqb]. exists [], text. repeat split; auto.
  - assert (Hl : zlen text = zlen a + zlen (c :: b)) by (rewrite Et; apply zlen_app).
    pose proof (zlen_nonneg a). pose proof (zlen_nonneg b). rewrite zlen_cons in Hl.
    unfold to_u64. rewrite Z.mod_small by lia.
    replace (zlen a + 1 =? 0) with false by lia.
    assert (Hlast : no_last r (a ++ [c])) by (unfold no_last; rewrite rev_app_distr; exact Hc).
    destruct (Z.eqb_spec (zlen a + 1) (zlen text)) as [Ez|].
    + assert (b = []) by (apply zlen_zero; lia). subst b. exists text, []. rewrite app_nil_r.
      repeat split; [constructor|]. rewrite Et. assumption.
    + exists (a ++ [c]), b. rewrite <- app_assoc. repeat split; auto.
      rewrite Et. replace (zlen a + 1) with (zlen (a ++ [c])) by (rewrite zlen_app, zlen_cons; cbn; lia).
      change (a ++ c :: b) with (a ++ [c] ++ b). rewrite app_assoc.
      exact (substr_mid [] (a ++ [c]) b).
Qed.

Lemma trim_ok text reject : fits text ->
  exists a m b, string_trim text reject = Ok m /\ text = a ++ m ++ b /\
    Forall (fun x => In x (get_reject reject)) (a ++ b) /\
    no_head (get_reject reject) m /\ no_last (get_reject reject) m.
Proof.
  intros Hf. pose proof (zlen_small text Hf) as Hz. unfold string_trim. cbv zeta. set (r := get_reject reject).
  destruct (zlen r =? 0) eqn:E0.
  { rewrite (set_empty r E0). exists [], text, []. rewrite app_nil_r.
    repeat split; [constructor|apply no_head_nil|apply no_head_nil]. }
  destruct (find_not_of_cases text r) as [[E Ha]|(a & c & b & Et & E & Hc & Ha)]; rewrite E.
  { rewrite Z.eqb_refl. exists text, [], []. rewrite !app_nil_r. repeat split; auto. }
  assert (Hl : zlen text = zlen a + zlen (c :: b)) by (rewrite Et; apply zlen_app).
  pose proof (zlen_nonneg a). pose proof (zlen_nonneg b). rewrite zlen_cons in Hl.
  unfold npos at 1. replace (zlen a =? 2 ^ 64 - 1) with false by lia.
  destruct (rfind_not_of_cases text r) as [[E' Ha']|(a' & c' & b' & Et' & E' & Hc' & Ha')].
  { exfalso. rewrite Et in Ha'. apply Forall_app in Ha'. destruct Ha' as [_ Ha']. inversion Ha'; contradiction. }
  rewrite E'.
  assert (Hl' : zlen text = zlen a' + zlen (c' :: b')) by (rewrite Et'; apply zlen_app).
  pose proof (zlen_nonneg a'). pose proof (zlen_nonneg b'). rewrite zlen_cons in Hl'.
  (* the first kept byte is not after the last one *)
  assert (Hle : zlen a <= zlen a').
  { destruct (Z_le_dec (zlen a) (zlen a')) as [|Hgt]; [assumption|]. exfalso.
    assert (Hn1 : nth_error text (length a') = Some c').
    { rewrite Et', nth_error_app2, Nat.sub_diag by lia. reflexivity. }
    rewrite Et, nth_error_app1 in Hn1 by (unfold zlen in *; lia).
    apply nth_error_In in Hn1. rewrite Forall_forall in Ha. exact (Hc' (Ha _ Hn1)). }
  replace (to_u64 (zlen a' + 1)) with (zlen a' + 1) by (unfold to_u64; rewrite Z.mod_small; lia).
  (* text = a ++ m ++ b' with a ++ m = a' ++ [c'] *)
  assert (Hm : exists m, a' ++ [c'] = a ++ m).
  { exists (skipn (length a) (a' ++ [c'])). rewrite <- (firstn_skipn (length a) (a' ++ [c'])) at 1. f_equal.
    assert (Eq : a ++ c :: b = (a' ++ [c']) ++ b') by (rewrite <- app_assoc; cbn; congruence).
    apply (f_equal (firstn (length a))) in Eq. rewrite firstn_length_app in Eq.
    rewrite firstn_app in Eq. replace (length a - length (a' ++ [c']))%nat with 0%nat in Eq
      by (rewrite app_length; cbn; unfold zlen in *; lia).
    rewrite firstn_O, app_nil_r in Eq. symmetry. exact Eq. }
  destruct Hm as (m & Em).
  assert (Etm : text = a ++ m ++ b').
  { rewrite Et'. change (c' :: b') with ([c'] ++ b'). rewrite app_assoc, Em, <- app_assoc. reflexivity. }
  assert (Hzm : zlen m = zlen a' + 1 - zlen a).
  { apply (f_equal zlen) in Em. rewrite !zlen_app, zlen_cons in Em. cbn in Em. lia. }
  assert (Hmne : m <> []) by (intros ->; cbn in Hzm; lia).
  assert (Hhead : no_head r m).
  { rewrite Etm in Et. apply app_inv_head in Et. apply (no_head_app r m b' Hmne). rewrite Et. exact Hc. }
  assert (Hlast : no_last r m).
  { unfold no_last. destruct (@exists_last _ m Hmne) as (m' & x & ->). rewrite app_assoc in Em.
    apply app_inj_tail in Em. destruct Em as [_ <-]. rewrite rev_app_distr. exact Hc'. }
  destruct ((zlen a =? 0) && (zlen a' + 1 =? zlen text)) eqn:Eall.
  - assert (a = []) by (apply zlen_zero; lia). assert (b' = []) by (apply zlen_zero; lia). subst a b'.
    exists [], text, []. rewrite app_nil_r. cbn [app] in Etm. rewrite app_nil_r in Etm. subst m.
    repeat split; auto.
  - exists a, m, b'. repeat split; auto.
    + rewrite Etm at 1. rewrite <- Hzm. unfold to_u64. rewrite Z.mod_small by lia. apply substr_mid.
    + apply Forall_app. split; assumption.
Qed.

(* ---- padding ---- *)

Lemma pad_loop_ok left text pad length : pad <> [] -> forall fuel k,
  (length - (zlen text + Z.of_nat k * zlen pad) < Z.of_nat fuel * zlen pad + zlen pad) ->
  let res := if left : bool then times k pad ++ text else text ++ times k pad in
  exists k', (k <= k')%nat /\
    pad_loop fuel left text pad res length = Ok (if left then times k' pad ++ text else text ++ times k' pad) /\
    length < zlen text + (Z.of_nat k' + 1) * zlen pad /\
    (k' = k \/ zlen text + Z.of_nat k' * zlen pad <= length).
Proof.
  intros Hne. pose proof (zlen_pos pad Hne) as Hp.
  induction fuel as [|fuel IH]; intros k Hf res.
  - assert (Hz : zlen res = zlen text + Z.of_nat k * zlen pad)
      by (unfold res; destruct left; rewrite zlen_app, zlen_times; lia).
    cbn [pad_loop]. rewrite Hz. replace (_ <=? _) with false by lia.
    exists k. repeat split; auto; lia.
  - assert (Hz : zlen res = zlen text + Z.of_nat k * zlen pad)
      by (unfold res; destruct left; rewrite zlen_app, zlen_times; lia).
    cbn [pad_loop]. rewrite Hz.
    destruct (zlen text + Z.of_nat k * zlen pad + zlen pad <=? length) eqn:E.
    + assert (Estep : (if left then do p <- iter (zlen res) (zlen res - zlen text); splice res p p pad
                       else Ok (res ++ pad)) =
                      Ok (if left then times (S k) pad ++ text else text ++ times (S k) pad)).
      { assert (Hs : times k pad ++ pad = times (S k) pad).
        { change pad with (times 1 pad) at 2 || idtac.
          replace (times k pad ++ pad) with (times k pad ++ times 1 pad) by (cbn; now rewrite app_nil_r).
          rewrite <- times_add. f_equal. lia. }
        destruct left.
        - unfold res in *. unfold iter. replace (_ && _) with true by (pose proof (zlen_nonneg text); nia).
          cbn [obind]. unfold splice.
          replace (zlen (times k pad ++ text) - zlen text) with (zlen (times k pad)) by (rewrite zlen_app; lia).
          unfold subrange. rewrite zlen_app. pose proof (zlen_nonneg (times k pad)). pose proof (zlen_nonneg text).
          replace (_ && _) with true by lia. cbn [obind]. unfold zlen. rewrite Nat2Z.id.
          rewrite firstn_length_app, skipn_length_app. rewrite app_assoc, Hs. reflexivity.
        - unfold res. rewrite <- app_assoc, Hs. reflexivity. }
      rewrite <- Hz. rewrite Estep. cbn [obind].
      destruct (IH (S k)) as (k' & H1 & H2 & H3 & H4); [lia|].
      exists k'. split; [lia|]. split; [exact H2|]. split; [assumption|]. right. destruct H4 as [->|H4]; [lia|assumption].
    + exists k. repeat split; auto. lia.
Qed.

Lemma string_pad_ok max_size left text length padding : fits text -> is_int64 length ->
  string_pad max_size left text length padding =
    match padding with
    | Some [] => Throw
    | _ =>
      let pad := match padding with Some p => p | None => [0x20] end in
      if length <=? 0 then Ok text
      else if max_size <? Z.max (zlen text) length then Throw
      else let n := Z.to_nat ((length - zlen text) / zlen pad) in
           Ok (if left then times n pad ++ text else text ++ times n pad)
    end.
Proof.
  intros Hf Hl. unfold string_pad.
  set (pad := match padding with Some p => p | None => [0x20] end).
  assert (Hcase : padding = Some [] \/ (get_padding padding = Ok pad /\ pad <> [])).
  { unfold pad. destruct padding as [[|x p]|]; [left; reflexivity|right|right]; split; (reflexivity || discriminate). }
  destruct Hcase as [-> | [Hg Hne]]; [reflexivity|]. rewrite Hg. cbn [obind].
  assert (Hr : forall X : outcome bytes, match padding with Some [] => Throw | _ => X end = X).
  { intros X. unfold get_padding in Hg. destruct padding as [[|x p]|]; [discriminate|reflexivity|reflexivity]. }
  rewrite Hr. destruct (length <=? 0) eqn:E0; [reflexivity|].
  destruct (max_size <? Z.max (zlen text) length); [reflexivity|].
  pose proof (zlen_pos pad Hne) as Hp. pose proof (zlen_nonneg text) as Ht.
  destruct (pad_loop_ok left text pad length Hne (Z.to_nat length) 0) as (k & _ & H2 & H3 & H4); [nia|].
  cbn [times] in H2. rewrite app_nil_r in H2.
  replace (if left then [] ++ text else text) with text in H2 by (destruct left; reflexivity).
  rewrite H2.
  assert (Hk : k = Z.to_nat ((length - zlen text) / zlen pad)).
  { destruct H4 as [->|H4].
    - assert ((length - zlen text) / zlen pad <= 0); [|lia].
      destruct (Z_lt_dec (length - zlen text) (zlen pad)) as [Hlt|]; [|lia].
      apply Z.lt_succ_r. apply Z.div_lt_upper_bound; lia.
    - assert ((length - zlen text) / zlen pad = Z.of_nat k); [|lia].
      symmetry. apply Z.div_unique with (r := length - zlen text - Z.of_nat k * zlen pad); lia. }
  rewrite Hk. reflexivity.
Qed.

(* ---- case and translation ---- *)

Lemma upper_ok c : is_byte c -> ascii_to_upper c = upper c.
Proof.
  intros H. apply Z.eqb_eq. revert c H. apply byte_forall. vm_compute. reflexivity.
Qed.
Lemma lower_ok c : is_byte c -> ascii_to_lower c = lower c.
Proof.
  intros H. apply Z.eqb_eq. revert c H. apply byte_forall. vm_compute. reflexivity.
Qed.
Lemma case_loop_ok f b : forall a, case_loop (length b) f (a ++ b) (length a) = Ok (a ++ map f b).
Proof.
  induction b as [|c b IH]; intros a; cbn [length case_loop]; [reflexivity|].
  rewrite nth_error_mid. cbv zeta.
  specialize (IH (a ++ [f c])). rewrite app_length, Nat.add_1_r, <- !app_assoc in IH. cbn [app] in IH.
  cbn [map]. destruct (Z.eqb_spec c (f c)) as [Ec|]; [rewrite <- Ec in *; exact IH|]. rewrite set_nth_mid. exact IH.
Qed.
Lemma to_upper_ok text : all_bytes text -> string_to_upper text = Ok (map upper text).
Proof.
  intros H. unfold string_to_upper. pose proof (case_loop_ok ascii_to_upper text []) as E. cbn [app length] in E. rewrite E. f_equal.
  apply map_ext_in. intros c Hc. apply upper_ok. unfold all_bytes in H. rewrite Forall_forall in H. auto.
Qed.
Lemma to_lower_ok text : all_bytes text -> string_to_lower text = Ok (map lower text).
Proof.
  intros H. unfold string_to_lower. pose proof (case_loop_ok ascii_to_lower text []) as E. cbn [app length] in E. rewrite E. f_equal.
  apply map_ext_in. intros c Hc. apply lower_ok. unfold all_bytes in H. rewrite Forall_forall in H. auto.
Qed.

Lemma index_of_spec c s : match index_of c s with Some k => first_at c s k | None => ~ In c s end.
Proof.
  induction s as [|x s IH]; cbn [index_of]; [auto|].
  destruct (Z.eqb_spec x c) as [->|Hn].
  - split; [reflexivity|]. intros j Hj. lia.
  - destruct (index_of c s) as [k|].
    + destruct IH as [H1 H2]. split; [assumption|]. intros [|j] Hj; cbn; [congruence|apply H2; lia].
    + intros [->|Hi]; [congruence|contradiction].
Qed.

Lemma splice_one a (c : Z) b : splice (a ++ c :: b) (Z.of_nat (length a)) (Z.of_nat (length a) + 1) [] = Ok (a ++ b).
Proof.
  unfold splice, subrange. rewrite zlen_app, zlen_cons. pose proof (zlen_nonneg b). unfold zlen.
  replace (_ && _) with true by lia. cbn [obind]. f_equal. rewrite Nat2Z.id, firstn_length_app. cbn [app]. f_equal.
  replace (Z.to_nat (Z.of_nat (length a) + 1)) with (length (a ++ [c])) by (rewrite app_length; cbn; lia).
  change (a ++ c :: b) with (a ++ [c] ++ b). rewrite app_assoc. apply skipn_length_app.
Qed.

Lemma translate_loop_ok inputs outputs b : forall fuel a, (length b <= fuel)%nat ->
  exists pieces, Forall2 (translated inputs (match outputs with Some o => o | None => [] end)) b pieces /\
    translate_loop fuel inputs outputs (a ++ b) (length a) = Ok (a ++ concat pieces).
Proof.
  set (outs := match outputs with Some o => o | None => [] end).
  induction b as [|c b IH]; intros fuel a Hf.
  - exists []. split; [constructor|]. cbn [concat]. rewrite app_nil_r.
    destruct fuel; cbn [translate_loop]; rewrite Nat.ltb_irrefl; reflexivity.
  - destruct fuel as [|fuel]; [cbn in Hf; lia|]. cbn [length] in Hf.
    cbn [translate_loop].
    replace (length a <? length (a ++ c :: b))%nat with true
      by (symmetry; apply Nat.ltb_lt; rewrite app_length; cbn; lia).
    rewrite nth_error_mid.
    pose proof (index_of_spec c inputs) as Hi. destruct (index_of c inputs) as [k|].
    + assert (Ho : match outputs with Some o => nth_error o k | None => None end = nth_error outs k).
      { unfold outs. destruct outputs; [reflexivity|]. now destruct k. }
      rewrite Ho. destruct (nth_error outs k) as [x|] eqn:Ex.
      * rewrite set_nth_mid. destruct (IH fuel (a ++ [x])) as (ps & H1 & H2); [lia|].
        exists ([x] :: ps). split; [constructor; [now apply tr_map with k|assumption]|].
        rewrite app_length, Nat.add_1_r in H2. rewrite <- app_assoc in H2. cbn [app] in H2. rewrite H2.
        cbn [concat app]. rewrite <- app_assoc. reflexivity.
      * rewrite splice_one. cbn [obind]. destruct (IH fuel a) as (ps & H1 & H2); [lia|].
        exists ([] :: ps). split; [constructor; [now apply tr_drop with k|assumption]|]. exact H2.
    + destruct (IH fuel (a ++ [c])) as (ps & H1 & H2); [lia|].
      exists ([c] :: ps). split; [constructor; [now apply tr_keep|assumption]|].
      rewrite app_length, Nat.add_1_r in H2. rewrite <- app_assoc in H2. cbn [app] in H2. rewrite H2.
      cbn [concat app]. rewrite <- app_assoc. reflexivity.
Qed.
Lemma translate_ok text inputs outputs :
  exists pieces, Forall2 (translated inputs (match outputs with Some o => o | None => [] end)) text pieces /\
    string_translate text inputs outputs = Ok (concat pieces).
Proof.
  destruct (translate_loop_ok inputs outputs text (length text) []) as (ps & H1 & H2); [lia|].
  exists ps. split; [assumption|]. exact H2.
Qed.

(* ---- comparison ---- *)

Lemma memcmp_prefix a : forall b n, (n <= length a)%nat -> (n <= length b)%nat ->
  memcmp a b n = Ok (lexcmp (firstn n a) (firstn n b)).
Proof.
  induction a as [|x a IH]; intros b n H1 H2.
  - cbn in H1. assert (n = 0%nat) by lia. subst. reflexivity.
  - destruct n as [|n]; [reflexivity|]. destruct b as [|y b]; [cbn in H2; lia|]. cbn in H1, H2.
    cbn [memcmp firstn lexcmp]. destruct (x <? y); [reflexivity|]. destruct (y <? x); [reflexivity|].
    apply IH; lia.
Qed.
Lemma lexcmp_shorter a : forall b, (length a < length b)%nat ->
  lexcmp a b = if lexcmp (firstn (length a) b) a <? 0 then 1 else -1.
Proof.
  induction a as [|x a IH]; intros [|y b] H; cbn [length] in *; try lia; [reflexivity|].
  cbn [lexcmp firstn]. destruct (x <? y) eqn:E1; destruct (y <? x) eqn:E2; try lia; try reflexivity.
  apply IH. lia.
Qed.
Lemma lexcmp_longer a : forall b, (length b < length a)%nat ->
  lexcmp a b = if lexcmp (firstn (length b) a) b <? 0 then -1 else 1.
Proof.
  induction a as [|x a IH]; intros [|y b] H; cbn [length] in *; try lia; [reflexivity|].
  cbn [lexcmp firstn]. destruct (x <? y) eqn:E1; destruct (y <? x) eqn:E2; try lia; try reflexivity.
  apply IH. lia.
Qed.
Lemma xmemcmp_ok a b : xmemcmp a b = Ok (lexcmp a b).
Proof.
  unfold xmemcmp, zlen. destruct (Z.of_nat (length a) <? Z.of_nat (length b)) eqn:E1.
  - rewrite memcmp_prefix by lia. cbn [obind]. rewrite firstn_all, (lexcmp_shorter a b) by lia. reflexivity.
  - destruct (Z.of_nat (length b) <? Z.of_nat (length a)) eqn:E2.
    + rewrite memcmp_prefix by lia. cbn [obind]. rewrite firstn_all, (lexcmp_longer a b) by lia. reflexivity.
    + rewrite memcmp_prefix by lia. rewrite firstn_all. rewrite firstn_all2 by lia. reflexivity.
Qed.
Lemma substr_prefix t n : 0 <= n -> substr t 0 n = Ok (firstn (Z.to_nat n) t).
Proof.
  intros H. unfold substr. pose proof (zlen_nonneg t). replace (zlen t <? 0) with false by lia.
  rewrite subrange_ok by lia. f_equal. rewrite window_sub by lia. cbn [Z.sub skipn].
  change (Z.to_nat (0 - 0)) with 0%nat. rewrite skipn_O. unfold zlen in *.
  destruct (Z_le_dec n (Z.of_nat (length t))).
  - f_equal. lia.
  - rewrite !firstn_all2 by lia. reflexivity.
Qed.
Lemma string_compare_ok a b len : fits a -> fits b -> opt_int64 len ->
  string_compare a b len = Ok (match len with
    | None => lexcmp a b
    | Some n => lexcmp (firstn (Z.to_nat n) a) (firstn (Z.to_nat n) b)
    end).
Proof.
  intros Ha Hb Hl. unfold string_compare. destruct len as [n|]; [|apply xmemcmp_ok].
  destruct (2 ^ 63 - 1 <=? n) eqn:E1.
  - unfold fits, int64_max, zlen in *. rewrite !firstn_all2 by lia. apply xmemcmp_ok.
  - destruct (n <=? 0) eqn:E2.
    + replace (Z.to_nat n) with 0%nat by lia. reflexivity.
    + rewrite !substr_prefix by lia. cbn [obind]. apply xmemcmp_ok.
Qed.

Lemma lexcmp_eq a : forall b, lexcmp a b = 0 <-> a = b.
Proof.
  induction a as [|x a IH]; intros [|y b]; cbn [lexcmp]; try (split; intros H; (congruence || discriminate || lia)).
  destruct (x <? y) eqn:E1; [split; [lia|]; intros H; injection H; lia|].
  destruct (y <? x) eqn:E2; [split; [lia|]; intros H; injection H; lia|].
  rewrite IH. split; [intros ->; f_equal; lia|]. intros H; injection H; auto.
Qed.
Lemma starts_with_ok t p : exists r, starts_with t p = Ok r /\ (r = true <-> exists b, t = p ++ b).
Proof.
  unfold starts_with, zlen. destruct (Z.of_nat (length p) <=? Z.of_nat (length t)) eqn:E.
  - rewrite memcmp_prefix by lia. cbn [obind]. eexists. split; [reflexivity|].
    rewrite Z.eqb_eq, lexcmp_eq, firstn_all. split.
    + intros H. exists (skipn (length p) t). rewrite <- H at 1. symmetry. apply firstn_skipn.
    + intros (b & ->). apply firstn_length_app.
  - exists false. split; [reflexivity|]. split; [discriminate|]. intros (b & ->). rewrite app_length in E. lia.
Qed.
Lemma ends_with_ok t p : exists r, ends_with t p = Ok r /\ (r = true <-> exists a, t = a ++ p).
Proof.
  unfold ends_with, zlen. destruct (Z.of_nat (length p) <=? Z.of_nat (length t)) eqn:E.
  - rewrite memcmp_prefix by (rewrite ?skipn_length; lia). cbn [obind]. eexists. split; [reflexivity|].
    rewrite Z.eqb_eq, lexcmp_eq, firstn_all. rewrite firstn_all2 by (rewrite skipn_length; lia). split.
    + intros H. exists (firstn (length t - length p) t). rewrite <- H at 2. symmetry. apply firstn_skipn.
    + intros (a & ->). rewrite app_length. replace (length a + length p - length p)%nat with (length a) by lia.
      apply skipn_length_app.
  - exists false. split; [reflexivity|]. split; [discriminate|]. intros (b & ->). rewrite app_length in E. lia.
Qed.

(* ---- replacing by rotation ---- *)

Lemma cow_replace_ok a m b s : cow_replace (a ++ m ++ b) (length a) (length m) s = Ok (a ++ s ++ b, Some 0).
Proof.
  unfold cow_replace. cbv zeta.
  replace ((a ++ m ++ b) ++ s ++ [0]) with (a ++ m ++ (b ++ s ++ [0]) ++ []) by (rewrite app_nil_r, <- !app_assoc; reflexivity).
  replace (length (a ++ m ++ b) + length s + 1)%nat with (length a + length m + length (b ++ s ++ [0%Z]))%nat
    by (rewrite !app_length; cbn; lia).
  rewrite rotate_gen. cbn [obind].
  replace (length (a ++ m ++ b) + length s - length m)%nat with (length a + length b + length s)%nat
    by (rewrite !app_length; lia).
  replace (length (a ++ m ++ b) - length m)%nat with (length a + length b)%nat by (rewrite !app_length; lia).
  replace (a ++ (b ++ s ++ [0]) ++ m ++ []) with (a ++ b ++ s ++ (0 :: m)) by (rewrite app_nil_r, <- !app_assoc; reflexivity).
  rewrite rotate_gen. cbn [obind]. f_equal. f_equal.
  - replace (length a + length b + length s)%nat with (length (a ++ s ++ b)) by (rewrite !app_length; lia).
    replace (a ++ s ++ b ++ 0 :: m) with ((a ++ s ++ b) ++ 0 :: m) by (rewrite <- !app_assoc; reflexivity).
    apply firstn_length_app.
  - replace (length a + length b + length s)%nat with (length (a ++ s ++ b)) by (rewrite !app_length; lia).
    replace (a ++ s ++ b ++ 0 :: m) with ((a ++ s ++ b) ++ 0 :: m) by (rewrite <- !app_assoc; reflexivity).
    rewrite nth_error_app2, Nat.sub_diag by lia. reflexivity.
Qed.
