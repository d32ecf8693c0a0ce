From Verif Require Import Base Monad Text SortModel ValueModel ArgModel ArgSpec.
From Coq Require Import Lia.

Lemma saved_at : forall R (r : @reader R) i, nth_error (saved (save_state i r)) i = Some (cur_state r).
Proof.
  intros R r i. unfold save_state. cbn [saved]. set (l := saved r ++ repeat empty_state (S i - length (saved r))).
  assert (L : (i < length l)%nat) by (unfold l; rewrite app_length, repeat_length; lia).
  rewrite nth_error_app2 by (rewrite firstn_length; lia). rewrite firstn_length.
  replace (i - Nat.min i (length l))%nat with 0%nat by lia. reflexivity.
Qed.
Lemma saved_else : forall R (r : @reader R) i j s, nth_error (saved r) j = Some s -> i <> j -> nth_error (saved (save_state i r)) j = Some s.
Proof.
  intros R r i j s H D. unfold save_state. cbn [saved]. set (l := saved r ++ repeat empty_state (S i - length (saved r))).
  assert (Hl : nth_error l j = Some s).
  { unfold l. rewrite nth_error_app1; [exact H|]. apply nth_error_Some. congruence. }
  assert (Li : (i < length l)%nat) by (unfold l; rewrite app_length, repeat_length; lia).
  destruct (Nat.lt_ge_cases j i) as [C|C].
  - rewrite nth_error_app1 by (rewrite firstn_length; lia).
    rewrite <- Hl. rewrite <- (firstn_skipn i l) at 2. rewrite nth_error_app1 by (rewrite firstn_length; lia). reflexivity.
  - rewrite nth_error_app2 by (rewrite firstn_length; lia). rewrite firstn_length.
    replace (j - Nat.min i (length l))%nat with (S (j - S i)) by lia. cbn [nth_error].
    rewrite <- Hl. rewrite <- (firstn_skipn (S i) l) at 2. rewrite nth_error_app2 by (rewrite firstn_length; lia).
    f_equal. rewrite firstn_length. lia.
Qed.

Section Reader.
Context {R : Type}.
Variables (deref : R -> option value) (r_of : Z -> real).
Notation reader := (@reader R).
Notation takes := (takes deref r_of).
Notation take := (take deref r_of).
Notation accept := (accept deref r_of).

Definition text (l : list bytes) : bytes := concat (map (fun nm => nm ++ str ", ") l).

(* between start and end: k parameters, whose names have been collected *)
Record at_ (r : reader) (args : list R) (k : nat) (m : bool) (names : list bytes) (sv : list state) (ov : bytes) : Prop := {
  a_stack : stack r = rev args;
  a_finish : finish (cur_state r) = false;
  a_match : match_ (cur_state r) = m;
  a_num : nparams (cur_state r) = Z.of_nat k;
  a_params : params (cur_state r) = text names;
  a_saved : saved r = sv;
  a_ov : overloads r = ov }.

Lemma text_app : forall a b, text (a ++ b) = text a ++ text b.
Proof. intros. unfold text. now rewrite map_app, concat_app. Qed.

Lemma hd_skipn : forall (l : list R) k, hd_error (skipn k l) = nth_error l k.
Proof. induction l as [|x l IH]; intros [|k]; try reflexivity. apply IH. Qed.
Lemma tl_skipn : forall (l : list R) k, tl (skipn k l) = skipn (S k) l.
Proof. induction l as [|x l IH]; intros [|k]; try reflexivity. cbn [skipn]. now rewrite IH. Qed.

Lemma prepare_at : forall r args k m names sv ov nm, at_ r args k m names sv ov -> Z.of_nat (S k) < 2 ^ 32 ->
  exists r', prepare nm r = Ok r' /\ at_ r' args (S k) m (names ++ [nm]) sv ov.
Proof.
  intros r args k m names sv ov nm [H1 H2 H3 H4 H5 H6 H7] L. unfold prepare. rewrite H2. eexists. split; [reflexivity|].
  constructor; cbn; try assumption; try reflexivity.
  - rewrite H4. unfold u32. rewrite Z.mod_small by lia. lia.
  - rewrite H5, text_app. f_equal. unfold text. cbn. now rewrite app_nil_r.
Qed.
Lemma peek_at : forall r args k names sv ov, at_ r args (S k) true names sv ov -> Z.of_nat (S k) < 2 ^ 32 ->
  Z.of_nat (length args) < 2 ^ 32 -> peek r = nth_error args k.
Proof.
  intros r args k names sv ov [H1 H2 H3 H4 H5 H6 H7] L La. unfold peek, ssize. rewrite H3, H1, H4, rev_length. cbn [negb].
  destruct (Nat.ltb_spec k (length args)) as [C|C].
  - unfold u32. rewrite Z.mod_small by lia.
    replace (Z.of_nat (length args) <=? Z.of_nat (length args) - Z.of_nat (S k)) with false by (symmetry; apply Z.leb_gt; lia).
    replace (Z.to_nat (Z.of_nat (length args) - Z.of_nat (S k))) with (length args - S k)%nat by lia.
    destruct (nth_error args k) as [x|] eqn:E.
    2: { apply nth_error_None in E. lia. }
    rewrite <- (rev_involutive args) in E.
    assert (E2 : nth_error (rev args) (length args - S k) = Some x); [|exact E2].
    rewrite <- E. clear E x.
    destruct (nth_error (rev args) (length args - S k)) as [y|] eqn:E2.
    2: { apply nth_error_None in E2. rewrite rev_length in E2. lia. }
    symmetry. rewrite rev_involutive.
    assert (Hy : nth (length args - S k) (rev args) y = y) by (eapply nth_error_nth; exact E2).
    rewrite rev_nth in Hy by lia. replace (length args - S (length args - S k))%nat with k in Hy by lia.
    rewrite <- Hy at 1. apply nth_error_nth'. exact C.
  - assert (M : u32 (Z.of_nat (length args) - Z.of_nat (S k)) = Z.of_nat (length args) - Z.of_nat (S k) + 2 ^ 32).
    { unfold u32. rewrite <- (Z_mod_plus_full _ 1). rewrite Z.mod_small by lia. lia. }
    rewrite M. replace (Z.of_nat (length args) <=? Z.of_nat (length args) - Z.of_nat (S k) + 2 ^ 32) with true
      by (symmetry; apply Z.leb_le; lia).
    symmetry. apply nth_error_None. exact C.
Qed.
Lemma peek_off : forall r args k names sv ov, at_ r args k false names sv ov -> peek r = None.
Proof. intros r args k names sv ov [H1 H2 H3 H4 H5 H6 H7]. unfold peek. now rewrite H3. Qed.
Lemma mark_at : forall r args k m names sv ov, at_ r args k m names sv ov -> at_ (mark_failure r) args k false names sv ov.
Proof. intros r args k m names sv ov [H1 H2 H3 H4 H5 H6 H7]. constructor; cbn; try assumption. reflexivity. Qed.

Lemma param_shown : forall p, param_name p = shown p.
Proof. intros [| |[]|[]]; reflexivity. Qed.
Lemma given_kind : forall k v, given r_of k v = if has_kind k v then Some (as_kind r_of k v) else None.
Proof. intros [] []; reflexivity. Qed.
Lemma take_on : forall p r args k names sv ov, at_ r args k true names sv ov -> Z.of_nat (S k) < 2 ^ 32 ->
  Z.of_nat (length args) < 2 ^ 32 ->
  match fits deref r_of p (nth_error args k) with
  | Takes o => exists r', take p r = Ok (r', o) /\ at_ r' args (S k) true (names ++ [shown p]) sv ov
  | Differs => exists r' o, take p r = Ok (r', o) /\ at_ r' args (S k) false (names ++ [shown p]) sv ov
  | Unreadable => take p r = Throw
  end.
Proof.
  intros p r args k names sv ov H L La. unfold take. rewrite param_shown.
  destruct (prepare_at _ _ _ _ _ _ _ (shown p) H L) as (r' & -> & H'). cbn [obind].
  rewrite (peek_at _ _ _ _ _ _ H' L La). pose proof (mark_at _ _ _ _ _ _ _ H') as Hm.
  unfold fits, of_kind. destruct p as [| |kd|kd]; (destruct (nth_error args k) as [q|]; [|cbn [option_map]]);
    try (cbn [option_map]; destruct (deref q) as [v|]);
    try (destruct (is_null v) eqn:En; destruct v; try discriminate En);
    rewrite ?given_kind;
    try match goal with |- context [has_kind kd ?v] => destruct (has_kind kd v) end; cbv beta iota; try reflexivity;
    first [solve [exists r'; split; [reflexivity|exact H']] | eexists; eexists; split; [reflexivity|exact Hm]].
Qed.
Lemma take_off : forall p r args k names sv ov, at_ r args k false names sv ov -> Z.of_nat (S k) < 2 ^ 32 ->
  exists r' o, take p r = Ok (r', o) /\ at_ r' args (S k) false (names ++ [shown p]) sv ov.
Proof.
  intros p r args k names sv ov H L. unfold take. rewrite param_shown.
  destruct (prepare_at _ _ _ _ _ _ _ (shown p) H L) as (r' & -> & H'). cbn [obind].
  rewrite (peek_off _ _ _ _ _ _ H'). pose proof (mark_at _ _ _ _ _ _ _ H') as Hm.
  destruct p; eexists; eexists; (split; [reflexivity|]); assumption.
Qed.

Lemma takes_off : forall ps r args k names sv ov, at_ r args k false names sv ov -> Z.of_nat (k + length ps) < 2 ^ 32 ->
  exists r' os, takes ps r = Ok (r', os) /\ at_ r' args (k + length ps) false (names ++ map shown ps) sv ov.
Proof.
  induction ps as [|p ps IH]; intros r args k names sv ov H L.
  - exists r, []. split; [reflexivity|]. cbn [map length]. now rewrite app_nil_r, Nat.add_0_r.
  - cbn [length] in L. destruct (take_off p _ _ _ _ _ _ H) as (r1 & o & E1 & H1); [lia|].
    destruct (IH _ _ _ _ _ _ H1) as (r2 & os & E2 & H2); [lia|].
    exists r2, (o :: os). cbn [ArgModel.takes]. rewrite E1. cbn [obind fst snd]. rewrite E2. cbn [obind fst snd].
    split; [reflexivity|]. cbn [map length]. rewrite <- app_assoc in H2. cbn [app] in H2.
    now rewrite Nat.add_succ_r.
Qed.
Lemma takes_on : forall ps r args k names sv ov, at_ r args k true names sv ov -> Z.of_nat (k + length ps) < 2 ^ 32 ->
  Z.of_nat (length args) < 2 ^ 32 ->
  match accept ps (skipn k args) with
  | Accepts os rest => exists r', takes ps r = Ok (r', os) /\ rest = skipn (k + length ps) args /\
      at_ r' args (k + length ps) true (names ++ map shown ps) sv ov
  | Refuses => exists r' os, takes ps r = Ok (r', os) /\ at_ r' args (k + length ps) false (names ++ map shown ps) sv ov
  | Fails => takes ps r = Throw
  end.
Proof.
  induction ps as [|p ps IH]; intros r args k names sv ov H L La.
  - cbn [ArgSpec.accept]. exists r. cbn [map length]. rewrite app_nil_r, Nat.add_0_r. repeat split; try reflexivity; apply H.
  - cbn [length] in L. cbn [ArgSpec.accept ArgModel.takes]. rewrite hd_skipn, tl_skipn.
    pose proof (take_on p _ _ _ _ _ _ H ltac:(lia) La) as T.
    assert (Eq : (k + length (p :: ps) = S k + length ps)%nat) by (cbn [length]; lia).
    destruct (fits deref r_of p (nth_error args k)) as [o| |].
    + destruct T as (r1 & E1 & H1). rewrite E1. cbn [obind fst snd].
      pose proof (IH _ _ _ _ _ _ H1 ltac:(lia) La) as K.
      rewrite <- app_assoc in K. cbn [app] in K. cbn [map].
      destruct (accept ps (skipn (S k) args)) as [os rest| |].
      * destruct K as (r2 & E2 & Er & H2). exists r2. rewrite E2. cbn [obind fst snd]. rewrite Eq. repeat split; try reflexivity; try exact Er; apply H2.
      * destruct K as (r2 & os & E2 & H2). exists r2, (o :: os). rewrite E2. cbn [obind fst snd]. rewrite Eq. split; [reflexivity|exact H2].
      * rewrite K. reflexivity.
    + destruct T as (r1 & o & E1 & H1). rewrite E1. cbn [obind fst snd].
      destruct (takes_off ps _ _ _ _ _ _ H1) as (r2 & os & E2 & H2); [lia|].
      exists r2, (o :: os). rewrite E2. cbn [obind fst snd map]. rewrite Eq. rewrite <- app_assoc in H2. split; [reflexivity|exact H2].
    + now rewrite T.
Qed.

Lemma start_at : forall (r : reader) args, stack r = rev args -> at_ (start r) args 0 true [] (saved r) (overloads r).
Proof. intros r args H. constructor; cbn; try reflexivity. exact H. Qed.

(* ---- the list of overloads ---- *)

Lemma text_listing : forall l, l <> [] -> text l = listing l ++ str ", ".
Proof.
  induction l as [|x l IH]; intros H; [congruence|]. destruct l as [|y l].
  - unfold text. cbn. now rewrite app_nil_r.
  - change (text (x :: y :: l)) with ((x ++ str ", ") ++ text (y :: l)). rewrite IH by discriminate.
    change (listing (x :: y :: l)) with (x ++ str ", " ++ listing (y :: l)). now rewrite <- !app_assoc.
Qed.
Lemma append_text : forall ov l, Z.of_nat (length (text l)) < 2 ^ 64 -> append_sub ov (text l) (Z.of_nat (length (text l)) - 2) = ov ++ listing l.
Proof.
  intros ov l L. unfold append_sub. f_equal. destruct l as [|x l]; [reflexivity|].
  rewrite text_listing in * by discriminate. rewrite app_length in *. cbn [length str] in *.
  change (length (str ", ")) with 2%nat in *.
  rewrite Z.mod_small by lia. rewrite Z.min_l by lia.
  replace (Z.to_nat (Z.of_nat (length (listing (x :: l)) + 2) - 2)) with (length (listing (x :: l))) by lia.
  rewrite firstn_app, firstn_all, Nat.sub_diag, firstn_O, app_nil_r. reflexivity.
Qed.
Lemma terminate_at : forall r args k m names sv ov, at_ r args k m names sv ov -> Z.of_nat (length (text names)) < 2 ^ 64 ->
  exists r', terminate r = Ok r' /\ stack r' = rev args /\ finish (cur_state r') = true /\ match_ (cur_state r') = m /\
    nparams (cur_state r') = Z.of_nat k /\ saved r' = sv /\ overloads r' = ov ++ listing names ++ str "|".
Proof.
  intros r args k m names sv ov [H1 H2 H3 H4 H5 H6 H7] L. unfold terminate. rewrite H2. eexists. split; [reflexivity|].
  cbn. repeat split; try assumption. rewrite H5, H7, append_text by exact L. now rewrite app_assoc.
Qed.

(* ---- overloads ---- *)

Definition small (ps : list param) (args : list R) : Prop :=
  Z.of_nat (length ps) < 2 ^ 32 - 1 /\ Z.of_nat (length args) < 2 ^ 32.
Lemma name_short : forall p, (length (shown p ++ str ", ") <= 16)%nat.
Proof. intros [| |[]|[]]; cbn; lia. Qed.
Lemma text_short : forall ps l, (Z.of_nat (length (text (map shown ps ++ l))) <= 16 * Z.of_nat (length ps) + Z.of_nat (length (text l))).
Proof.
  induction ps as [|p ps IH]; intros l; [cbn [map app length]; lia|]. cbn [map app].
  change (text (shown p :: map shown ps ++ l)) with ((shown p ++ str ", ") ++ text (map shown ps ++ l)).
  rewrite app_length. pose proof (name_short p). specialize (IH l). cbn [length]. lia.
Qed.

(* what is common to the three ways to end an overload *)
Definition after (r r' : reader) (names : list bytes) : Prop :=
  stack r' = stack r /\ saved r' = saved r /\ overloads r' = overloads r ++ listing names ++ str "|".

Lemma skipn_nil_len : forall (l : list R) k, (length l <= k)%nat -> skipn k l = [].
Proof. intros. now apply skipn_all2. Qed.

Lemma try_overload_ok : forall ps r args, stack r = rev args -> small ps args ->
  match overload deref r_of ps args with
  | Ok v => exists r', try_overload deref r_of ps r = Ok (r', v) /\ after r r' (map shown ps)
  | _ => try_overload deref r_of ps r = Throw
  end.
Proof.
  intros ps r args Hs [L1 L2]. unfold overload, try_overload.
  pose proof (takes_on ps (start r) args 0 [] _ _ (start_at r args Hs) ltac:(cbn; lia) L2) as K. cbn [skipn app Nat.add] in K.
  pose proof (text_short ps []) as T. rewrite app_nil_r in T. cbn [text map concat length] in T.
  assert (T2 : Z.of_nat (length (text (map shown ps))) < 2 ^ 64) by lia. clear T.
  destruct (accept ps args) as [os rest| |].
  - destruct K as (r1 & E1 & Er & H1). rewrite E1. cbn [obind fst snd].
    unfold end_overload. destruct (terminate_at _ _ _ _ _ _ _ H1 T2) as (r2 & -> & A1 & A2 & A3 & A4 & A5 & A6).
    cbn [obind]. rewrite A3, A4. unfold ssize. rewrite A1, rev_length. cbn [negb].
    destruct rest as [|q rest].
    + replace (Z.of_nat (length ps) <? Z.of_nat (length args)) with false.
      2: { symmetry. apply Z.ltb_ge. assert (length (skipn (length ps) args) = 0%nat) by (rewrite <- Er; reflexivity).
           rewrite skipn_length in H. lia. }
      cbn [obind fst snd]. eexists. split; [reflexivity|]. unfold after. rewrite A1, Hs. repeat split; assumption.
    + replace (Z.of_nat (length ps) <? Z.of_nat (length args)) with true.
      2: { symmetry. apply Z.ltb_lt. assert (length (skipn (length ps) args) = S (length rest)) by (rewrite <- Er; reflexivity).
           rewrite skipn_length in H. lia. }
      cbn [obind fst snd]. eexists. split; [reflexivity|]. unfold after. cbn. rewrite A1, Hs. repeat split; assumption.
  - destruct K as (r1 & os & E1 & H1). rewrite E1. cbn [obind fst snd].
    unfold end_overload. destruct (terminate_at _ _ _ _ _ _ _ H1 T2) as (r2 & -> & A1 & A2 & A3 & A4 & A5 & A6).
    cbn [obind]. rewrite A3. cbn [negb obind fst snd]. eexists. split; [reflexivity|].
    unfold after. rewrite A1, Hs. repeat split; assumption.
  - rewrite K. reflexivity.
Qed.

Lemma end_refs_on : forall r args ps sv ov, at_ r args (length ps) true (map shown ps) sv ov -> small ps args ->
  exists r', end_refs r = Ok (r', Some (skipn (length ps) args)) /\ stack r' = rev args /\ saved r' = sv /\
    overloads r' = ov ++ listing (map shown ps ++ [str "..."]) ++ str "|".
Proof.
  intros r args ps sv ov H [L1 L2]. unfold end_refs.
  destruct (prepare_at _ _ _ _ _ _ _ (str "...") H ltac:(lia)) as (r1 & -> & H1). cbn [obind].
  pose proof (text_short ps [str "..."]) as T. change (length (text [str "..."])) with 5%nat in T.
  destruct (terminate_at _ _ _ _ _ _ _ H1 ltac:(lia)) as (r2 & -> & A1 & A2 & A3 & A4 & A5 & A6).
  cbn [obind]. rewrite A3, A4. cbn [negb]. unfold ssize. rewrite A1, rev_length.
  replace (u32 (Z.of_nat (S (length ps)) - 1)) with (Z.of_nat (length ps)) by (unfold u32; rewrite Z.mod_small; lia).
  eexists. split; [|repeat split; eassumption]. repeat f_equal.
  destruct (Z.ltb_spec (Z.of_nat (length ps)) (Z.of_nat (length args))).
  - replace (Z.to_nat (Z.of_nat (length args) - Z.of_nat (length ps))) with (length args - length ps)%nat by lia.
    rewrite firstn_rev, rev_involutive. f_equal. lia.
  - symmetry. apply skipn_all2. lia.
Qed.
Lemma end_refs_off : forall r args ps sv ov, at_ r args (length ps) false (map shown ps) sv ov -> small ps args ->
  exists r', end_refs r = Ok (r', None) /\ stack r' = rev args /\ saved r' = sv /\
    overloads r' = ov ++ listing (map shown ps ++ [str "..."]) ++ str "|".
Proof.
  intros r args ps sv ov H [L1 L2]. unfold end_refs.
  destruct (prepare_at _ _ _ _ _ _ _ (str "...") H ltac:(lia)) as (r1 & -> & H1). cbn [obind].
  pose proof (text_short ps [str "..."]) as T. change (length (text [str "..."])) with 5%nat in T.
  destruct (terminate_at _ _ _ _ _ _ _ H1 ltac:(lia)) as (r2 & -> & A1 & A2 & A3 & A4 & A5 & A6).
  cbn [obind]. rewrite A3. cbn [negb]. eexists. split; [reflexivity|]. repeat split; assumption.
Qed.
Lemma try_refs_ok : forall ps r args, stack r = rev args -> small ps args ->
  match overload_refs deref r_of ps args with
  | Ok v => exists r', try_refs deref r_of ps r = Ok (r', v) /\ after r r' (map shown ps ++ [str "..."])
  | _ => try_refs deref r_of ps r = Throw
  end.
Proof.
  intros ps r args Hs Hsm. pose proof Hsm as [L1 L2]. unfold overload_refs, try_refs.
  pose proof (takes_on ps (start r) args 0 [] _ _ (start_at r args Hs) ltac:(cbn; lia) L2) as K. cbn [skipn app Nat.add] in K.
  destruct (accept ps args) as [os rest| |].
  - destruct K as (r1 & E1 & Er & H1). rewrite E1. cbn [obind fst snd].
    destruct (end_refs_on _ _ _ _ _ H1 Hsm) as (r2 & -> & A1 & A2 & A3). cbn [obind fst snd option_map]. rewrite Er.
    eexists. split; [reflexivity|]. unfold after. rewrite A1, Hs. repeat split; assumption.
  - destruct K as (r1 & os & E1 & H1). rewrite E1. cbn [obind fst snd].
    destruct (end_refs_off _ _ _ _ _ H1 Hsm) as (r2 & -> & A1 & A2 & A3). cbn [obind fst snd option_map].
    eexists. split; [reflexivity|]. unfold after. rewrite A1, Hs. repeat split; assumption.
  - rewrite K. reflexivity.
Qed.
Lemma derefs_ok : forall l, derefs deref l =
  if forallb (fun q => match deref q with Some _ => true | None => false end) l
  then Ok (map (fun q => match deref q with Some v => v | None => VNull end) l) else Throw.
Proof.
  induction l as [|q l IH]; [reflexivity|]. cbn [derefs forallb map]. destruct (deref q); [|reflexivity].
  rewrite IH. cbn [andb]. destruct (forallb _ l); reflexivity.
Qed.
Lemma try_values_ok : forall ps r args, stack r = rev args -> small ps args ->
  match overload_values deref r_of ps args with
  | Ok v => exists r', try_values deref r_of ps r = Ok (r', v) /\ after r r' (map shown ps ++ [str "..."])
  | _ => try_values deref r_of ps r = Throw
  end.
Proof.
  intros ps r args Hs Hsm. pose proof Hsm as [L1 L2]. unfold overload_values, try_values.
  pose proof (takes_on ps (start r) args 0 [] _ _ (start_at r args Hs) ltac:(cbn; lia) L2) as K. cbn [skipn app Nat.add] in K.
  destruct (accept ps args) as [os rest| |].
  - destruct K as (r1 & E1 & Er & H1). rewrite E1. cbn [obind fst snd]. unfold end_values.
    destruct (end_refs_on _ _ _ _ _ H1 Hsm) as (r2 & -> & A1 & A2 & A3). cbn [obind fst snd option_map].
    rewrite derefs_ok, <- Er.
    destruct (forallb _ rest); cbn [obind fst snd option_map]; [|reflexivity].
    eexists. split; [reflexivity|]. unfold after. rewrite A1, Hs. repeat split; assumption.
  - destruct K as (r1 & os & E1 & H1). rewrite E1. cbn [obind fst snd]. unfold end_values.
    destruct (end_refs_off _ _ _ _ _ H1 Hsm) as (r2 & -> & A1 & A2 & A3). cbn [obind fst snd option_map].
    eexists. split; [reflexivity|]. unfold after. rewrite A1, Hs. repeat split; assumption.
  - rewrite K. reflexivity.
Qed.

(* ---- saved states ---- *)

(* after loading, an overload goes on as if its beginning had been read again *)
Lemma load_resumes : forall ps qs r r1 os r2 i args, stack r = rev args -> small (ps ++ qs) args ->
  takes ps (start r) = Ok (r1, os) -> nth_error (saved r2) i = Some (cur_state r1) -> stack r2 = stack r ->
  exists r3, load_state i r2 = Ok r3 /\
    match overload deref r_of (ps ++ qs) args with
    | Ok v => exists r4 os' f, takes qs r3 = Ok (r4, os') /\
        (exists r5, end_overload r4 = Ok (r5, f) /\ after r2 r5 (map shown (ps ++ qs))) /\
        v = (if f then Some (os ++ os') else None)
    | _ => takes qs r3 = Throw
    end.
Proof.
  intros ps qs r r1 os r2 i args Hs [L1 L2] Ht Hi H2. unfold load_state. rewrite Hi. eexists. split; [reflexivity|].
  set (r3 := set_state r2 (cur_state r1)). rewrite app_length in L1.
  pose proof (text_short (ps ++ qs) []) as T. rewrite app_nil_r in T. cbn [text map concat length] in T. rewrite app_length in T.
  assert (T2 : Z.of_nat (length (text (map shown ps ++ map shown qs))) < 2 ^ 64) by (rewrite <- map_app; lia). clear T.
  assert (At : forall m, at_ r1 args (length ps) m (map shown ps) (saved r) (overloads r) ->
    at_ r3 args (length ps) m (map shown ps) (saved r2) (overloads r2)).
  { intros m [B1 B2 B3 B4 B5 B6 B7]. constructor; cbn; try assumption; try reflexivity. congruence. }
  assert (Acc : accept (ps ++ qs) args =
    match accept ps args with
    | Accepts o1 rest => match accept qs rest with Accepts o2 rest => Accepts (o1 ++ o2) rest | v => v end
    | v => v
    end).
  { clear. revert args. induction ps as [|p ps IH]; intros args; cbn [app ArgSpec.accept].
    - destruct (accept qs args); reflexivity.
    - destruct (fits deref r_of p (hd_error args)); try reflexivity. rewrite IH.
      destruct (accept ps (tl args)); try reflexivity. destruct (accept qs rest); reflexivity. }
  unfold overload. rewrite Acc. clear Acc.
  pose proof (takes_on ps (start r) args 0 [] _ _ (start_at r args Hs) ltac:(cbn; lia) L2) as K. cbn [skipn app Nat.add] in K.
  destruct (accept ps args) as [os0 rest| |].
  - destruct K as (r1' & E1 & Er & H1). rewrite Ht in E1. injection E1 as <- <-. specialize (At _ H1).
    pose proof (takes_on qs r3 args _ _ _ _ At ltac:(lia) L2) as K2. rewrite <- Er in K2.
    destruct (accept qs rest) as [os2 rest2| |].
    + destruct K2 as (r4 & E4 & Er2 & H4).
      destruct (terminate_at _ _ _ _ _ _ _ H4 T2) as (r5 & E5 & A1 & A2 & A3 & A4 & A5 & A6).
      destruct rest2 as [|q rest2].
      * exists r4, os2, true. split; [exact E4|]. split; [|reflexivity]. unfold end_overload. rewrite E5. cbn [obind].
        rewrite A3, A4. unfold ssize. rewrite A1, rev_length. cbn [negb].
        replace (Z.of_nat (length ps + length qs) <? Z.of_nat (length args)) with false.
        2: { symmetry. apply Z.ltb_ge. assert (K0 : length (skipn (length ps + length qs) args) = 0%nat) by (rewrite <- Er2; reflexivity).
             rewrite skipn_length in K0. lia. }
        eexists. split; [reflexivity|]. unfold after. rewrite A1, H2, Hs, map_app. repeat split; assumption.
      * exists r4, os2, false. split; [exact E4|]. split; [|reflexivity]. unfold end_overload. rewrite E5. cbn [obind].
        rewrite A3, A4. unfold ssize. rewrite A1, rev_length. cbn [negb].
        replace (Z.of_nat (length ps + length qs) <? Z.of_nat (length args)) with true.
        2: { symmetry. apply Z.ltb_lt. assert (K0 : length (skipn (length ps + length qs) args) = S (length rest2)) by (rewrite <- Er2; reflexivity).
             rewrite skipn_length in K0. lia. }
        eexists. split; [reflexivity|]. unfold after. cbn. rewrite A1, H2, Hs, map_app. repeat split; assumption.
    + destruct K2 as (r4 & os' & E4 & H4). exists r4, os', false. split; [exact E4|]. split; [|reflexivity].
      destruct (terminate_at _ _ _ _ _ _ _ H4 T2) as (r5 & E5 & A1 & A2 & A3 & A4 & A5 & A6).
      unfold end_overload. rewrite E5. cbn [obind]. rewrite A3. cbn [negb].
      eexists. split; [reflexivity|]. unfold after. rewrite A1, H2, Hs, map_app. repeat split; assumption.
    + exact K2.
  - destruct K as (r1' & os0 & E1 & H1). rewrite Ht in E1. injection E1 as <- <-. specialize (At _ H1).
    destruct (takes_off qs r3 args _ _ _ _ At ltac:(lia)) as (r4 & os' & E4 & H4). exists r4, os', false. split; [exact E4|]. split; [|reflexivity].
    destruct (terminate_at _ _ _ _ _ _ _ H4 T2) as (r5 & E5 & A1 & A2 & A3 & A4 & A5 & A6).
    unfold end_overload. rewrite E5. cbn [obind]. rewrite A3. cbn [negb].
    eexists. split; [reflexivity|]. unfold after. rewrite A1, H2, Hs, map_app. repeat split; assumption.
  - congruence.
Qed.

(* ---- misuse ---- *)

Lemma ended_throws : forall r r' f, end_overload r = Ok (r', f) -> forall p, take p r' = Throw /\ end_overload r' = Throw.
Proof.
  intros r r' f H p. assert (Hf : finish (cur_state r') = true).
  { unfold end_overload, terminate in H. destruct (finish (cur_state r)); [discriminate H|]. cbn [obind cur_state nparams match_] in H.
    destruct (negb (match_ (cur_state r))); [injection H as <- _; reflexivity|].
    match type of H with (if ?b then _ else _) = _ => destruct b end; injection H as <- _; reflexivity. }
  unfold ArgModel.take, end_overload, prepare, terminate. rewrite Hf. split; reflexivity.
Qed.

(* ---- counting ---- *)

Lemma names_clean : forall p, ~ In 124 (shown p).
Proof. intros [| |[]|[]] H; cbn in H; repeat (destruct H as [H|H]; [discriminate H|]); exact H. Qed.
Lemma listing_clean : forall l, Forall (fun nm => ~ In 124 nm) l -> ~ In 124 (listing l).
Proof.
  induction l as [|x l IH]; intros H; [exact (fun K => K)|]. inversion H as [|? ? Hx Hl]; subst. destruct l as [|y l]; [exact Hx|].
  change (listing (x :: y :: l)) with (x ++ str ", " ++ listing (y :: l)).
  intros K. apply in_app_or in K as [K|K]; [exact (Hx K)|]. apply in_app_or in K as [K|K]; [|exact (IH Hl K)].
  cbn in K. intuition discriminate.
Qed.
Lemma counted : forall (r r' : reader) names, Forall (fun nm => ~ In 124 nm) names -> after r r' names ->
  overload_count r' = S (overload_count r).
Proof.
  intros r r' names Hn (_ & _ & E). unfold overload_count. rewrite E.
  assert (App : forall (a b : bytes), count_occ Z.eq_dec (a ++ b) 124 = Nat.add (count_occ Z.eq_dec a 124) (count_occ Z.eq_dec b 124)).
  { intros a b. induction a as [|x a IH]; [reflexivity|]. cbn. rewrite IH. destruct (Z.eq_dec x 124); reflexivity. }
  rewrite !App. rewrite (proj1 (count_occ_not_In Z.eq_dec (listing names) 124)) by now apply listing_clean.
  change (count_occ Z.eq_dec (str "|") 124) with 1%nat. lia.
Qed.

(* ---- overloads tried in turn ---- *)

Lemma resolve_ok : forall pss (r : reader) args, stack r = rev args -> Forall (fun ps => small ps args) pss ->
  match first_fit deref r_of pss args with
  | Ok (Some (i, os)) => exists r', resolve deref r_of pss r = Ok (r', Some (i, os)) /\
      overload_count r' = (S i + overload_count r)%nat
  | Ok None => exists r', resolve deref r_of pss r = Ok (r', None) /\
      overloads r' = overloads r ++ concat (map (fun ps => listing (map shown ps) ++ str "|") pss)
  | _ => resolve deref r_of pss r = Throw
  end.
Proof.
  induction pss as [|ps pss IH]; intros r args Hs Hsm.
  - cbn. exists r. split; [reflexivity|]. now rewrite app_nil_r.
  - inversion Hsm as [|? ? H1 H2]; subst. cbn [first_fit resolve].
    pose proof (try_overload_ok ps r args Hs H1) as T.
    destruct (overload deref r_of ps args) as [v| |]; try (rewrite T; reflexivity).
    destruct T as (r1 & E1 & A1). rewrite E1. cbn [obind fst snd].
    pose proof A1 as (S1 & S2 & S3).
    assert (C1 : overload_count r1 = S (overload_count r)).
    { eapply counted; [|exact A1]. apply Forall_forall. intros nm Hn. apply in_map_iff in Hn as (p & <- & _). apply names_clean. }
    destruct v as [os|].
    + exists r1. split; [reflexivity|exact C1].
    + assert (Hs1 : stack r1 = rev args) by congruence. specialize (IH r1 args Hs1 H2).
      destruct (first_fit deref r_of pss args) as [[[i os]|]| |]; cbn [obind option_map fst snd].
      * destruct IH as (r2 & E2 & C2). exists r2. rewrite E2. cbn [obind option_map fst snd]. split; [reflexivity|]. rewrite C2, C1. lia.
      * destruct IH as (r2 & E2 & C2). exists r2. rewrite E2. cbn [obind option_map fst snd]. split; [reflexivity|].
        rewrite C2, S3. cbn [map concat]. now rewrite <- !app_assoc.
      * rewrite IH. reflexivity.
      * rewrite IH. reflexivity.
Qed.
End Reader.
