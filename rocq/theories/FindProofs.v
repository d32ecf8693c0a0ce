(* Searching in arrays. *)
From Verif Require Import Base Monad SortModel SortSpec SeqModel SeqSpec SeqProofs ValueModel FindModel FindSpec.

Local Open Scope Z_scope.

Section Find.
  Context {A St : Type}.
  Variable test : St -> A -> St * option bool.
  Notation tested := (tested test).
  Notation broken := (broken test).
  Notation finds := (finds test).
  Notation do_find_opt := (do_find_opt test).

  Lemma deref_mid (a : list A) x b : deref (a ++ x :: b) (zlen a) = Ok x.
  Proof.
    unfold deref, zlen. destruct (Z.leb_spec 0 (Z.of_nat (length a))); [|lia].
    rewrite Nat2Z.id. now rewrite nth_error_mid.
  Qed.

  Lemma finds_skip m st x st1 l st' r : test st x = (st1, Some (negb m)) -> finds m st1 l st' r ->
    finds m st (x :: l) st' (at_offset (fun i => i + 1) r).
  Proof.
    intros Hx H. assert (N : forall bs, ~ In m bs -> ~ In m (negb m :: bs)) by (intros bs Hb [E|E]; [destruct m; discriminate|auto]).
    destruct H as [bs st' H N'|pre y post bs st2 st' -> H N' E|pre y post bs st2 st' -> H N' E].
    - apply F_none with (bs := negb m :: bs); [econstructor; eauto|auto].
    - cbn [at_offset]. replace (zlen pre + 1) with (zlen (x :: pre)) by (unfold zlen; cbn [length]; lia).
      eapply F_found with (pre := x :: pre) (bs := negb m :: bs); [reflexivity|econstructor; eassumption|auto|eassumption].
    - cbn [at_offset]. eapply F_throw with (pre := x :: pre) (bs := negb m :: bs); [reflexivity|econstructor; eassumption|auto|eassumption].
  Qed.
  Lemma finds_now m st x st1 l : test st x = (st1, Some m) -> finds m st (x :: l) st1 (Ok (Some 0)).
  Proof. intros H. apply (F_found test m st (x :: l) [] x l [] st st1); auto. constructor. Qed.
  Lemma finds_throw m st x st1 l : test st x = (st1, None) -> finds m st (x :: l) st1 Throw.
  Proof. intros H. apply (F_throw test m st (x :: l) [] x l [] st st1); auto. constructor. Qed.

  Lemma eqb_cases r m : if Bool.eqb r m then r = m else r = negb m.
  Proof. destruct r, m; reflexivity. Qed.

  Lemma find_forward m y : forall fuel st x z, (length y <= fuel)%nat ->
    exists st' r, do_find_opt false fuel (x ++ y ++ z) st (zlen x) (zlen x + zlen y) m
      = (st', at_offset (fun i => zlen x + i) r) /\ finds m st y st' r.
  Proof.
    induction y as [|a y IH]; intros fuel st x z HF.
    - exists st, (Ok None). replace (zlen x + zlen []) with (zlen x) by (cbn; lia).
      split; [destruct fuel; cbn [FindModel.do_find_opt]; now rewrite Z.eqb_refl|]. eapply F_none; [constructor|intros []].
    - destruct fuel as [|fuel]; cbn [length] in HF; [lia|]. cbn [FindModel.do_find_opt].
      assert (Hl : zlen (a :: y) = 1 + zlen y) by (unfold zlen; cbn [length]; lia).
      destruct (Z.eqb_spec (zlen x) (zlen x + zlen (a :: y))) as [E|_]; [exfalso; rewrite Hl in E; unfold zlen in E; lia|].
      change ((a :: y) ++ z) with (a :: (y ++ z)). rewrite deref_mid.
      destruct (test st a) as [st1 [r|]] eqn:Et.
      + pose proof (eqb_cases r m) as C. destruct (Bool.eqb r m); subst r.
        * exists st1, (Ok (Some 0)). split; [cbn; now rewrite Z.add_0_r|]. now apply finds_now.
        * destruct (IH fuel st1 (x ++ [a]) z ltac:(lia)) as (st' & r & E & F).
          exists st', (at_offset (fun i => i + 1) r). split; [|now apply finds_skip with (st1 := st1)].
          rewrite <- app_assoc in E. cbn [app] in E.
          replace (zlen (x ++ [a])) with (zlen x + 1) in E by (rewrite zlen_app; reflexivity).
          replace (zlen x + zlen (a :: y)) with (zlen x + 1 + zlen y) by lia. rewrite E.
          destruct r as [[i|]| |]; cbn; do 2 f_equal; f_equal; lia.
      + exists st1, Throw. split; [reflexivity|]. now apply finds_throw.
  Qed.

  Lemma find_backward m y : forall fuel st x z, (length y <= fuel)%nat ->
    exists st' r, do_find_opt true fuel (x ++ rev y ++ z) st (zlen x + zlen y) (zlen x) m
      = (st', at_offset (fun i => zlen x + zlen y - i) r) /\ finds m st y st' r.
  Proof.
    induction y as [|a y IH]; intros fuel st x z HF.
    - exists st, (Ok None). replace (zlen x + zlen []) with (zlen x) by (cbn; lia).
      split; [destruct fuel; cbn [FindModel.do_find_opt]; now rewrite Z.eqb_refl|]. eapply F_none; [constructor|intros []].
    - destruct fuel as [|fuel]; cbn [length] in HF; [lia|]. cbn [FindModel.do_find_opt].
      assert (Hl : zlen (a :: y) = 1 + zlen y) by (unfold zlen; cbn [length]; lia).
      destruct (Z.eqb_spec (zlen x + zlen (a :: y)) (zlen x)) as [E|_]; [exfalso; rewrite Hl in E; unfold zlen in E; lia|].
      cbn [rev]. rewrite <- app_assoc. cbn [app].
      replace (zlen x + zlen (a :: y) - 1) with (zlen (x ++ rev y)) by (rewrite zlen_app, Hl; unfold zlen; rewrite rev_length; lia).
      rewrite (app_assoc x (rev y) (a :: z)). rewrite deref_mid.
      destruct (test st a) as [st1 [r|]] eqn:Et.
      + pose proof (eqb_cases r m) as C. destruct (Bool.eqb r m); subst r.
        * exists st1, (Ok (Some 0)). split; [cbn; now rewrite Z.sub_0_r|]. now apply finds_now.
        * destruct (IH fuel st1 x (a :: z) ltac:(lia)) as (st' & r & E & F).
          exists st', (at_offset (fun i => i + 1) r). split; [|now apply finds_skip with (st1 := st1)].
          rewrite <- app_assoc.
          replace (zlen (x ++ rev y)) with (zlen x + zlen y) by (rewrite zlen_app; unfold zlen; rewrite rev_length; lia).
          rewrite E. destruct r as [[i|]| |]; cbn [at_offset]; do 2 f_equal; f_equal; lia.
      + exists st1, Throw. split; [reflexivity|]. now apply finds_throw.
  Qed.

  (* what is found is unique *)
  Lemma tested_fun st l : forall bs st1 cs st2, tested st l bs st1 -> tested st l cs st2 -> bs = cs /\ st1 = st2.
  Proof.
    revert st. induction l as [|x l IH]; intros st bs st1 cs st2 A1 A2; inversion A1; inversion A2; subst; [now split|].
    match goal with P : test st x = _, Q : test st x = _ |- _ => rewrite P in Q; injection Q as <- <- end.
    match goal with P : tested _ l _ st1, Q : tested _ l _ st2 |- _ => destruct (IH _ _ _ _ _ P Q) as [-> ->] end. now split.
  Qed.

  Lemma finds_fun_step m st x l st' r : finds m st (x :: l) st' r ->
    match test st x with
    | (st1, None) => st' = st1 /\ r = Throw
    | (st1, Some b) => if Bool.eqb b m then st' = st1 /\ r = Ok (Some 0)
        else exists r0, finds m st1 l st' r0 /\ r = at_offset (fun i => i + 1) r0
    end.
  Proof.
    assert (Q : forall b, Bool.eqb b m = true -> b = m) by (intros; now apply Bool.eqb_prop).
    intros H. inversion H as [bs s T N|pre y post bs s1 s E T N E2|pre y post bs s1 s E T N E2]; subst.
    - inversion T as [|? ? b st1 ? bs' ? Ex T']; subst. rewrite Ex. destruct (Bool.eqb b m) eqn:B.
      + apply Q in B as ->. exfalso. apply N. now left.
      + exists (Ok None). split; [|reflexivity]. eapply F_none; [exact T'|]. intros I. apply N. now right.
    - destruct pre as [|x' pre]; injection E as <- E.
      + inversion T; subst. rewrite E2, Bool.eqb_reflx. now split.
      + inversion T as [|? ? b st1 ? bs' ? Ex T']; subst. rewrite Ex. destruct (Bool.eqb b m) eqn:B.
        * apply Q in B as ->. exfalso. apply N. now left.
        * exists (Ok (Some (zlen pre))). split; [|cbn; do 2 f_equal; unfold zlen; cbn [length]; lia].
          eapply F_found; [reflexivity|exact T'| |exact E2]. intros I. apply N. now right.
    - destruct pre as [|x' pre]; injection E as <- E.
      + inversion T; subst. rewrite E2. now split.
      + inversion T as [|? ? b st1 ? bs' ? Ex T']; subst. rewrite Ex. destruct (Bool.eqb b m) eqn:B.
        * apply Q in B as ->. exfalso. apply N. now left.
        * exists Throw. split; [|reflexivity].
          eapply F_throw; [reflexivity|exact T'| |exact E2]. intros I. apply N. now right.
  Qed.
  Lemma finds_nil m st st' r : finds m st [] st' r -> st' = st /\ r = Ok None.
  Proof.
    intros H. inversion H as [bs s T N|pre y post bs s1 s E T N E2|pre y post bs s1 s E T N E2]; subst;
      [inversion T; now subst|destruct pre; discriminate|destruct pre; discriminate].
  Qed.
  Lemma finds_fun m st l s1 r1 s2 r2 : finds m st l s1 r1 -> finds m st l s2 r2 -> s1 = s2 /\ r1 = r2.
  Proof.
    revert st s1 r1 s2 r2. induction l as [|x l IH]; intros st s1 r1 s2 r2 H1 H2.
    - apply finds_nil in H1 as [-> ->]. apply finds_nil in H2 as [-> ->]. now split.
    - apply finds_fun_step in H1, H2. destruct (test st x) as [st1 [b|]].
      + destruct (Bool.eqb b m); [destruct H1 as [-> ->], H2 as [-> ->]; now split|].
        destruct H1 as (a & F1 & ->), H2 as (a' & F2 & ->). destruct (IH _ _ _ _ _ F1 F2) as [-> ->]. now split.
      + destruct H1 as [-> ->], H2 as [-> ->]. now split.
  Qed.

  (* splitting a whole array *)
  Lemma slice_split (l : list A) from len : fits l -> opt_int64 from -> opt_int64 len ->
    let n := zlen l in let lo := range_low n from in let hi := range_high n from len in
    do_slice n from len = Ok (lo, hi) /\
    exists x y z, l = x ++ y ++ z /\ zlen x = lo /\ zlen x + zlen y = hi /\
      window 0 lo 0 l = x /\ window lo hi 0 l = y /\ window hi n 0 l = z.
  Proof.
    intros Hl Hf Hn n lo hi. destruct (do_slice_ok n from len) as (E & H1 & H2); auto.
    { split; [unfold n, zlen; lia|exact Hl]. }
    split; [exact E|]. destruct (split3 l lo hi H1 H2) as (x & y & z & El & Ex & Ey & F1 & F2).
    exists x, y, z. split; [exact El|]. split; [exact Ex|]. split; [lia|].
    split; [rewrite window_prefix by lia; exact F1|].
    split; [|rewrite <- F2; unfold n; rewrite window_suffix by lia; reflexivity].
    pose proof (subrange_ok l lo hi H1 H2) as S. unfold subrange in S.
    destruct ((0 <=? lo) && (lo <=? hi) && (hi <=? zlen l)) eqn:B; [|discriminate]. injection S as S. rewrite <- S.
    rewrite El. rewrite <- Ex, skipn_zlen. replace (hi - zlen x) with (zlen y) by lia. apply firstn_zlen.
  Qed.

  Lemma length_parts (x y z : list A) : (length y <= length (x ++ y ++ z))%nat.
  Proof. rewrite !app_length. lia. Qed.

  Lemma array_find_ok m st l from len : fits l -> opt_int64 from -> opt_int64 len ->
    let lo := range_low (zlen l) from in let hi := range_high (zlen l) from len in
    exists st' r, array_find test m st l from len = (st', at_offset (fun i => lo + i) r) /\
      finds m st (window lo hi 0 l) st' r.
  Proof.
    intros Hl Hf Hn lo hi. destruct (slice_split l from len Hl Hf Hn) as (E & x & y & z & El & Ex & Ey & W1 & W2 & W3).
    unfold array_find, sliced. rewrite E. fold lo hi in Ex, Ey, W2. fold lo hi. rewrite W2, <- Ey, <- Ex.
    rewrite El. apply find_forward. apply length_parts.
  Qed.
  Lemma array_rfind_ok m st l from len : fits l -> opt_int64 from -> opt_int64 len ->
    let lo := range_low (zlen l) from in let hi := range_high (zlen l) from len in
    exists st' r, array_rfind test m st l from len = (st', at_offset (fun i => hi - 1 - i) r) /\
      finds m st (rev (window lo hi 0 l)) st' r.
  Proof.
    intros Hl Hf Hn lo hi. destruct (slice_split l from len Hl Hf Hn) as (E & x & y & z & El & Ex & Ey & W1 & W2 & W3).
    unfold array_rfind, sliced. rewrite E. fold lo hi in Ex, Ey, W2. fold lo hi. rewrite W2, <- Ey, <- Ex.
    rewrite El. destruct (find_backward m (rev y) (length (x ++ y ++ z)) st x z) as (st' & r & F & G).
    { rewrite rev_length. apply length_parts. }
    rewrite rev_involutive in F. replace (zlen (rev y)) with (zlen y) in F by (unfold zlen; now rewrite rev_length).
    rewrite F. exists st', r. split; [|exact G]. destruct r as [[i|]| |]; cbn; do 3 f_equal; lia.
  Qed.

  Lemma tested_app st a bs st1 : tested st a bs st1 -> forall b cs st2, tested st1 b cs st2 -> tested st (a ++ b) (bs ++ cs) st2.
  Proof. induction 1; intros; [assumption|]. cbn. econstructor; eauto. Qed.
  Lemma broken_app st a bs st1 : tested st a bs st1 -> forall b st2, broken st1 b st2 -> broken st (a ++ b) st2.
  Proof. induction 1; intros; [assumption|]. cbn. eapply B_later; eauto. Qed.
  Lemma tested_length st a bs st1 : tested st a bs st1 -> length bs = length a.
  Proof. induction 1; cbn; congruence. Qed.

  Lemma count_none m bs : ~ In m bs -> count_occ Bool.bool_dec bs m = 0%nat.
  Proof. apply count_occ_not_In. Qed.
  Lemma kept_none m (l : list A) : forall bs, length bs = length l -> ~ In m bs -> kept m l bs = l.
  Proof.
    induction l as [|x l IH]; intros [|b bs] L N; try discriminate; [reflexivity|]. cbn [kept].
    destruct (Bool.eqb b m) eqn:E; [apply Bool.eqb_prop in E; subst; exfalso; apply N; now left|].
    f_equal. apply IH; [cbn in L; lia|]. intros H. apply N. now right.
  Qed.
  Lemma kept_app m (l : list A) : forall bs l' bs', length bs = length l -> kept m (l ++ l') (bs ++ bs') = kept m l bs ++ kept m l' bs'.
  Proof.
    induction l as [|x l IH]; intros [|b bs] l' bs' L; try discriminate; [reflexivity|]. cbn.
    destruct (Bool.eqb b m); [|cbn; f_equal]; apply IH; cbn in L; lia.
  Qed.

  Lemma count_ok m z : forall fuel y st x c, (length y < fuel)%nat ->
    (exists bs st', tested st y bs st' /\
      count_loop test fuel (x ++ y ++ z) st (zlen x) (zlen x + zlen y) m c
      = (st', Ok (c + Z.of_nat (count_occ Bool.bool_dec bs m)))) \/
    (exists st', broken st y st' /\
      count_loop test fuel (x ++ y ++ z) st (zlen x) (zlen x + zlen y) m c = (st', Throw)).
  Proof.
    induction fuel as [|fuel IH]; intros y st x c HF; [lia|]. cbn [count_loop].
    destruct (find_forward m y (length (x ++ y ++ z)) st x z (length_parts x y z)) as (st1 & r & E & F). rewrite E.
    destruct F as [bs st1 T N|pre a post bs st0 st1 -> T N Ta|pre a post bs st0 st1 -> T N Ta]; cbn [at_offset].
    - left. exists bs, st1. split; [exact T|]. rewrite count_none by exact N. do 2 f_equal. cbn. lia.
    - rewrite app_length in HF. cbn [length] in HF.
      pose proof (IH post st1 (x ++ pre ++ [a]) (c + 1) ltac:(lia)) as X.
      replace ((x ++ pre ++ [a]) ++ post ++ z) with (x ++ (pre ++ a :: post) ++ z) in X by (rewrite <- !app_assoc; reflexivity).
      replace (zlen (x ++ pre ++ [a])) with (zlen x + zlen pre + 1) in X by (rewrite !zlen_app; change (zlen [a]) with 1; lia).
      replace (zlen x + zlen pre + 1 + zlen post) with (zlen x + zlen (pre ++ a :: post)) in X
        by (rewrite zlen_app; unfold zlen; cbn [length]; lia).
      destruct X as [(bs' & st' & T' & E')|(st' & B & E')].
      + left. exists (bs ++ m :: bs'), st'. split.
        { eapply tested_app; [exact T|]. econstructor; eassumption. }
        rewrite E'. do 2 f_equal. rewrite count_occ_app, (count_none m bs N). cbn [count_occ].
        destruct (Bool.bool_dec m m); [lia|congruence].
      + right. exists st'. split; [|exact E']. eapply broken_app; [exact T|]. eapply B_later; eassumption.
    - right. exists st1. split; [|reflexivity]. eapply broken_app; [exact T|]. now apply B_here.
  Qed.

  Lemma exclude_ok m z : forall fuel y st x, (length y < fuel)%nat ->
    (exists bs st', tested st y bs st' /\
      exclude_loop test fuel (x ++ y ++ z) st (zlen x) (zlen x + zlen y) (zlen z) m
      = (st', Ok (x ++ kept m y bs ++ z))) \/
    (exists st', broken st y st' /\
      exclude_loop test fuel (x ++ y ++ z) st (zlen x) (zlen x + zlen y) (zlen z) m = (st', Throw)).
  Proof.
    induction fuel as [|fuel IH]; intros y st x HF; [lia|]. cbn [exclude_loop].
    destruct (find_forward m y (length (x ++ y ++ z)) st x z (length_parts x y z)) as (st1 & r & E & F). rewrite E.
    destruct F as [bs st1 T N|pre a post bs st0 st1 -> T N Ta|pre a post bs st0 st1 -> T N Ta]; cbn [at_offset].
    - left. exists bs, st1. split; [exact T|]. rewrite kept_none; auto. now apply tested_length in T.
    - rewrite app_length in HF. cbn [length] in HF.
      replace (x ++ (pre ++ a :: post) ++ z) with ((x ++ pre) ++ [a] ++ (post ++ z)) by (rewrite <- !app_assoc; reflexivity).
      replace (Z.to_nat (zlen x + zlen pre)) with (length (x ++ pre)) by (rewrite app_length; unfold zlen; lia).
      pose proof (vec_erase_ok (x ++ pre) [a] (post ++ z)) as V. cbn [length] in V. rewrite V.
      pose proof (IH post st1 (x ++ pre) ltac:(lia)) as X.
      replace (zlen (x ++ pre)) with (zlen x + zlen pre) in X by (now rewrite zlen_app).
      replace (zlen ((x ++ pre) ++ post ++ z) - zlen z) with (zlen x + zlen pre + zlen post) by (rewrite !zlen_app; lia).
      destruct X as [(bs' & st' & T' & E')|(st' & B & E')].
      + left. exists (bs ++ m :: bs'), st'. split.
        { eapply tested_app; [exact T|]. econstructor; eassumption. }
        rewrite E'. do 2 f_equal. pose proof (tested_length _ _ _ _ T) as L.
        rewrite kept_app, (kept_none m pre bs L N) by exact L.
        cbn [kept]. rewrite Bool.eqb_reflx. now rewrite <- !app_assoc.
      + right. exists st'. split; [|exact E']. eapply broken_app; [exact T|]. eapply B_later; eassumption.
    - right. exists st1. split; [|reflexivity]. eapply broken_app; [exact T|]. now apply B_here.
  Qed.

  Lemma array_count_ok m st l from len : fits l -> opt_int64 from -> opt_int64 len ->
    let w := window (range_low (zlen l) from) (range_high (zlen l) from len) 0 l in
    (exists bs st', tested st w bs st' /\
      array_count test m st l from len = (st', Ok (Z.of_nat (count_occ Bool.bool_dec bs m)))) \/
    (exists st', broken st w st' /\ array_count test m st l from len = (st', Throw)).
  Proof.
    intros Hl Hf Hn w. destruct (slice_split l from len Hl Hf Hn) as (E & x & y & z & El & Ex & Ey & W1 & W2 & W3).
    unfold array_count, sliced. rewrite E. unfold w. rewrite W2, <- Ey, <- Ex.
    rewrite El. apply (count_ok m z (S (length (x ++ y ++ z))) y st x 0). pose proof (length_parts x y z). lia.
  Qed.
  Lemma array_exclude_ok m st l from len : fits l -> opt_int64 from -> opt_int64 len ->
    let n := zlen l in let lo := range_low n from in let hi := range_high n from len in
    let w := window lo hi 0 l in
    (exists bs st', tested st w bs st' /\
      array_exclude test m st l from len = (st', Ok (window 0 lo 0 l ++ kept m w bs ++ window hi n 0 l))) \/
    (exists st', broken st w st' /\ array_exclude test m st l from len = (st', Throw)).
  Proof.
    intros Hl Hf Hn n lo hi w. destruct (slice_split l from len Hl Hf Hn) as (E & x & y & z & El & Ex & Ey & W1 & W2 & W3).
    unfold array_exclude, sliced. fold n in E, Ex, Ey, W1, W2, W3 |- *. rewrite E. unfold w.
    fold lo hi in Ex, Ey, W1, W2, W3. fold lo hi. rewrite W1, W2, W3.
    replace (n - hi) with (zlen z) by (unfold n; rewrite El, !zlen_app; lia).
    rewrite <- Ey, <- Ex, El. apply exclude_ok. pose proof (length_parts x y z). lia.
  Qed.
End Find.

Section PureFind.
  Context {A St : Type}.
  Variable p : A -> bool.
  Lemma tested_pure (st : St) l : forall bs st', tested (pure_test p) st l bs st' -> bs = map p l /\ st' = st.
  Proof.
    induction l as [|x l IH]; intros bs st' H; inversion H as [|? ? ? ? ? ? ? E H']; subst; [now split|].
    unfold pure_test in E. injection E as <- <-. apply IH in H' as [-> ->]. now split.
  Qed.
  Lemma broken_pure (st : St) l st' : ~ broken (pure_test p) st l st'.
  Proof. intros H. induction H as [? ? ? ? E|]; [|assumption]. discriminate. Qed.
  Lemma kept_pure m (l : list A) : kept m l (map p l) = filter (fun x => negb (Bool.eqb (p x) m)) l.
  Proof. induction l as [|x l IH]; [reflexivity|]. cbn. destruct (Bool.eqb (p x) m); cbn; now rewrite IH. Qed.
  Lemma count_pure m (l : list A) : count_occ Bool.bool_dec (map p l) m = length (filter (fun x => Bool.eqb (p x) m) l).
  Proof.
    induction l as [|x l IH]; [reflexivity|]. cbn. destruct (Bool.bool_dec (p x) m) as [->|N].
    - rewrite Bool.eqb_reflx. cbn. now rewrite IH.
    - apply Bool.eqb_false_iff in N. now rewrite N.
  Qed.
  Lemma exclude_pure m (st : St) l from len : fits l -> opt_int64 from -> opt_int64 len ->
    let n := zlen l in let lo := range_low n from in let hi := range_high n from len in
    array_exclude (pure_test p) m st l from len = (st, Ok (window 0 lo 0 l
      ++ filter (fun x => negb (Bool.eqb (p x) m)) (window lo hi 0 l) ++ window hi n 0 l)).
  Proof.
    intros Hl Hf Hn n lo hi. destruct (array_exclude_ok (pure_test p) m st l from len Hl Hf Hn) as [(bs & st' & T & E)|(st' & B & _)].
    - apply tested_pure in T as [-> ->]. rewrite E, kept_pure. reflexivity.
    - now apply broken_pure in B.
  Qed.
  Lemma count_pure_ok m (st : St) l from len : fits l -> opt_int64 from -> opt_int64 len ->
    array_count (pure_test p) m st l from len = (st, Ok (zlen (filter (fun x => Bool.eqb (p x) m)
      (window (range_low (zlen l) from) (range_high (zlen l) from len) 0 l)))).
  Proof.
    intros Hl Hf Hn. destruct (array_count_ok (pure_test p) m st l from len Hl Hf Hn) as [(bs & st' & T & E)|(st' & B & _)].
    - apply tested_pure in T as [-> ->]. rewrite E, count_pure. reflexivity.
    - now apply broken_pure in B.
  Qed.
End PureFind.

Section Extreme.
  Context {A St : Type}.
  Variable c : A -> A -> compare.
  Hypothesis P : total_preorder c.

  Lemma flip_flip r : flip (flip r) = r.
  Proof. destruct r; reflexivity. Qed.
  Lemma flip_l x y : c x y = Less <-> c y x = Greater.
  Proof. rewrite (tp_flip c P x y). destruct (c x y); cbn; split; congruence. Qed.
  Lemma less_trans x y z : c x y = Less -> c y z <> Greater -> c x z = Less.
  Proof.
    intros H1 H2. assert (H : c x z <> Greater) by (apply (tp_trans c P x y z); congruence).
    destruct (c x z) eqn:E; try congruence; [|now apply (tp_total c P) in E].
    exfalso. assert (Ezx : c z x = Equal) by (rewrite (tp_flip c P x z), E; reflexivity).
    assert (X : c y x <> Greater) by (apply (tp_trans c P y z x); congruence). apply flip_l in H1. congruence.
  Qed.
  Lemma less_trans2 x y z : c x y <> Greater -> c y z = Less -> c x z = Less.
  Proof.
    intros H1 H2. assert (H : c x z <> Greater) by (apply (tp_trans c P x y z); congruence).
    destruct (c x z) eqn:E; try congruence; [|now apply (tp_total c P) in E].
    exfalso. assert (Ezx : c z x = Equal) by (rewrite (tp_flip c P x z), E; reflexivity).
    assert (X : c z y <> Greater) by (apply (tp_trans c P z x y); congruence). apply flip_l in H2. congruence.
  Qed.

  (* the order in which the result is sought *)
  Definition better (w : compare) (x y : A) : Prop := c y x = w.
  Lemma better_step w : w = Less \/ w = Greater -> forall a b l r,
    (c a b = w -> first_best (better w) (b :: l) r -> first_best (better w) (a :: b :: l) r) /\
    (c a b <> w -> first_best (better w) (a :: l) r -> first_best (better w) (a :: b :: l) r).
  Proof.
    intros W a b l r. unfold better.
    assert (T : forall x y z, c x y = w -> c z y <> w -> c x z = w).
    { intros x y z H1 H2. destruct W as [-> | ->].
      - apply less_trans with (y := y); [exact H1|]. rewrite (tp_flip c P z y). pose proof (tp_total c P z y). destruct (c z y); cbn; congruence.
      - apply flip_l. apply flip_l in H1. apply less_trans2 with (y := y); [|exact H1]. intros X. apply H2.
        exact X. }
    assert (T2 : forall x y z, c x y <> w -> c y z <> w -> c x z <> w).
    { intros x y z H1 H2 H3. destruct W as [-> | ->].
      - apply H1. apply (less_trans x z y); [exact H3|]. rewrite (tp_flip c P y z). pose proof (tp_total c P y z). destruct (c y z); cbn; congruence.
      - apply (tp_trans c P x y z); auto. }
    split; intros H F; destruct r as [x|]; cbn [first_best] in *; try discriminate.
    - destruct F as (pre & post & E & H1 & H2). exists (a :: pre), post. split; [cbn; now rewrite E|]. split; [|exact H2].
      intros y [<-|I]; [|auto]. destruct pre as [|b' pre]; injection E as <- E; [exact H|].
      assert (Hb : c b x = w) by (apply H1; now left). destruct W as [-> | ->].
      + apply less_trans with (y := b); congruence.
      + apply flip_l. apply flip_l in H, Hb. apply less_trans with (y := b); congruence.
    - destruct F as (pre & post & E & H1 & H2). destruct pre as [|a' pre]; injection E as <- E.
      + subst post. exists [], (b :: l). split; [reflexivity|]. split; [intros y []|]. intros y [<-|I]; auto.
      + exists (a :: b :: pre), post. split; [cbn; now rewrite E|]. split; [|exact H2].
        intros y [<-|[<-|I]]; [apply H1; now left| |apply H1; now right].
        assert (Ha : c a x = w) by (apply H1; now left).
        destruct (c b x) eqn:Eb; destruct W as [-> | ->]; try reflexivity; exfalso;
          try (now apply (tp_total c P) in Eb); (eapply (T2 a b x); [exact H|congruence|exact Ha]).
  Qed.

  Lemma first_best_one w x : first_best (better w) [x] (Some x).
  Proof. exists [], []. split; [reflexivity|]. split; intros y []. Qed.

  Lemma extreme_ok w (st : St) l : w = Less \/ w = Greater -> forall res,
    exists r, extreme_loop (pure c) w st res l = (st, Ok r) /\
      first_best (better w) (present (res :: l)) r.
  Proof.
    intros W. induction l as [|[b|] l IH]; intros res; cbn [extreme_loop].
    - exists res. split; [reflexivity|]. destruct res; cbn; [apply first_best_one|reflexivity].
    - destruct res as [a|].
      + cbn [pure]. destruct (cmp_eqb (c a b) w) eqn:Q.
        * destruct (IH (Some b)) as (r & E1 & F1). exists r. split; [exact E1|]. apply (proj1 (better_step w W a b (present l) r)); [|exact F1].
          destruct (c a b); destruct W as [-> | ->]; cbn in Q; congruence.
        * destruct (IH (Some a)) as (r & E1 & F1). exists r. split; [exact E1|]. apply (proj2 (better_step w W a b (present l) r)); [|exact F1].
          destruct (c a b); destruct W as [-> | ->]; cbn in Q; congruence.
      + destruct (IH (Some b)) as (r & E1 & F1). exists r. split; [exact E1|exact F1].
    - destruct res as [a|].
      + destruct (IH (Some a)) as (r & E1 & F1). exists r. split; [exact E1|exact F1].
      + destruct (IH None) as (r & E1 & F1). exists r. split; [exact E1|exact F1].
  Qed.
  Lemma max_ok (st : St) l : exists r, array_max_of (pure c) st l = (st, Ok r) /\
    first_best (fun x y => c y x = Less) (present l) r.
  Proof. exact (extreme_ok Less st l (or_introl eq_refl) None). Qed.
  Lemma min_ok (st : St) l : exists r, array_min_of (pure c) st l = (st, Ok r) /\
    first_best (fun x y => c y x = Greater) (present l) r.
  Proof. exact (extreme_ok Greater st l (or_intror eq_refl) None). Qed.
End Extreme.

Section Generate.
  Context {A St : Type}.
  Variable gen : St -> Z -> option A -> St * option A.
  Lemma last_snoc (l : list A) x : last_of (l ++ [x]) = Some x.
  Proof. unfold last_of. now rewrite rev_app_distr. Qed.

  Lemma generate_loop_ok n : forall st i data, exists st' r,
    generate_loop gen n st i (i + Z.of_nat n) data = (st', r) /\
    ((exists l, generated gen st i (last_of data) l st' /\ length l = n /\ r = Ok (data ++ l)) \/
     (r = Throw /\ exists l st1 k, generated gen st i (last_of data) l st1 /\ (length l < n)%nat /\
        k = i + zlen l /\ gen st1 k (last_of (data ++ l)) = (st', None))).
  Proof.
    induction n as [|n IH]; intros st i data; cbn [generate_loop].
    - destruct (Z.ltb_spec i (i + Z.of_nat 0)); [lia|]. exists st, (Ok data). split; [reflexivity|]. left.
      exists []. split; [constructor|]. now rewrite app_nil_r.
    - destruct (Z.ltb_spec i (i + Z.of_nat (S n))); [|lia]. fold (last_of data).
      destruct (gen st i (last_of data)) as [st1 [v|]] eqn:G.
      + replace (i + Z.of_nat (S n)) with (i + 1 + Z.of_nat n) by lia.
        destruct (IH st1 (i + 1) (data ++ [v])) as (st' & r & E & D). exists st', r. split; [exact E|].
        rewrite last_snoc in D. destruct D as [(l & G' & L & ->)|(-> & l & st2 & k & G' & L & -> & G2)].
        * left. exists (v :: l). split; [econstructor; eassumption|]. split; [cbn; lia|]. now rewrite <- app_assoc.
        * right. split; [reflexivity|]. exists (v :: l), st2, (i + 1 + zlen l).
          split; [econstructor; eassumption|]. split; [cbn; lia|]. split; [unfold zlen; cbn [length]; lia|].
          now rewrite <- app_assoc in G2.
      + exists st1, Throw. split; [reflexivity|]. right. split; [reflexivity|]. exists [], st, i.
        split; [constructor|]. split; [cbn; lia|]. split; [cbn; lia|]. now rewrite app_nil_r.
  Qed.
  Lemma generate_ok max_size st n : 0 <= n <= max_size -> max_size < 2 ^ 63 -> exists st' r,
    array_generate gen max_size st n = (st', r) /\
    ((exists l, generated gen st 0 None l st' /\ zlen l = n /\ r = Ok l) \/
     (r = Throw /\ exists l st1, generated gen st 0 None l st1 /\ zlen l < n /\
        gen st1 (zlen l) (last_of l) = (st', None))).
  Proof.
    intros Hn Hm. unfold array_generate, to_u64. rewrite Z.mod_small by (lia).
    destruct (Z.ltb_spec max_size n); [lia|].
    destruct (generate_loop_ok (Z.to_nat n) st 0 []) as (st' & r & E & D). rewrite Z2Nat.id in E by lia.
    exists st', r. split; [exact E|]. cbn in D. destruct D as [(l & G' & L & ->)|(-> & l & st2 & k & G' & L & -> & G2)].
    - left. exists l. split; [exact G'|]. split; [unfold zlen; lia|reflexivity].
    - right. split; [reflexivity|]. exists l, st2. split; [exact G'|]. split; [unfold zlen; lia|]. exact G2.
  Qed.
  Lemma generate_too_long max_size st n : 0 <= max_size < 2 ^ 63 -> is_int64 n -> n < 0 \/ max_size < n ->
    array_generate gen max_size st n = (st, Throw).
  Proof.
    intros Hm Hn H. unfold is_int64, int64_min, int64_max in Hn. unfold array_generate, to_u64. destruct H.
    - replace (n mod _) with (n + 2 ^ 64).
      + destruct (Z.ltb_spec max_size (n + 2 ^ 64)); [reflexivity|]. lia.
      + apply (Z.mod_unique_pos _ _ (-1)); lia.
    - rewrite Z.mod_small by (lia). destruct (Z.ltb_spec max_size n); [reflexivity|lia].
  Qed.
End Generate.

Lemma max_unordered : exists (a b : value),
  compare_partial 10 a b = Some (Ok Unordered) /\
  array_max_of builtin_compare tt [Some a; Some b] = (tt, Throw).
Proof. exists (VInt 1), (VStr [97]). split; reflexivity. Qed.
