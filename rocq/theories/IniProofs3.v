From Verif Require Import Base Monad IniModel IniSpec IniProofs IniProofs2.

Lemma lookup_assign : forall B k (v : B) l k', lookup k' (assign k v l) = if beqb k k' then Some v else lookup k' l.
Proof.
  induction l as [|[x y] l IH]; intros k'; [reflexivity|]. cbn [assign]. destruct (beqb x k) eqn:E.
  - apply beqb_eq in E. subst x. cbn [lookup]. destruct (beqb k k'); reflexivity.
  - cbn [lookup]. rewrite IH. destruct (beqb x k') eqn:E2; [|reflexivity]. apply beqb_eq in E2. subst x.
    destruct (beqb k k') eqn:E3; [|reflexivity]. apply beqb_eq in E3. subst k. rewrite (proj2 (beqb_eq k' k') eq_refl) in E. discriminate.
Qed.
Lemma beqb_same : forall k, beqb k k = true.
Proof. intros k. apply beqb_eq. reflexivity. Qed.
Definition sink_ok (sink : option bytes) (root : list (bytes * pval)) : Prop :=
  match sink with None => True | Some s => exists l, lookup s root = Some (PSec l) end.
Definition no_sec (root : list (bytes * pval)) : Prop := forall k l, lookup k root <> Some (PSec l).

(* where the undefined behaviour comes from *)
Lemma ub_from : forall ls b sink root, sink_ok sink root -> read_lines b sink root ls = UB ->
  exists a k c, reading b ls = a ++ [Ok (Header k)] ++ c /\ ~ In Throw a
    /\ ((exists v, lookup k root = Some (PStr v))
        \/ sink = None /\ exists a1 v a2, a = a1 ++ [Ok (Property k v)] ++ a2 /\ forall h, ~ In (Ok (Header h)) a1).
Proof.
  induction ls as [|line ls IH]; intros b sink root Hk H; [discriminate|]. cbn [read_lines reading] in *.
  destruct (read_line b line) as [w| |] eqn:E; [|discriminate|exfalso; eapply read_line_defined; exact E]. cbn [obind] in H.
  destruct w as [|h|x y].
  - destruct (IH _ _ _ Hk H) as [a [k [c [E1 [E2 E3]]]]]. rewrite E1. exists (Ok Blank :: a), k, c. split; [reflexivity|].
    split; [intros [?|?]; [discriminate|auto]|]. destruct E3 as [E3|[E3 [a1 [v [a2 [E4 E5]]]]]]; [left; assumption|right].
    split; [assumption|]. exists (Ok Blank :: a1), v, a2. split; [rewrite E4; reflexivity|]. intros h [?|?]; [discriminate|eapply E5; eassumption].
  - destruct (lookup h root) as [[s|l]|] eqn:El.
    + exists [], h, (reading false ls). split; [reflexivity|]. split; [intros []|]. left. exists s. exact El.
    + destruct (IH false (Some h) root (ex_intro _ l El) H) as [a [k [c [E1 [E2 E3]]]]]. rewrite E1. exists (Ok (Header h) :: a), k, c.
      split; [reflexivity|]. split; [intros [?|?]; [discriminate|auto]|]. left. destruct E3 as [E3|[E3 _]]; [assumption|discriminate].
    + destruct (IH false (Some h) (assign h (PSec []) root)) as [a [k [c [E1 [E2 E3]]]]]; [|exact H|].
      { exists []. rewrite lookup_assign, beqb_same. reflexivity. }
      rewrite E1. exists (Ok (Header h) :: a), k, c.
      split; [reflexivity|]. split; [intros [?|?]; [discriminate|auto]|]. left. destruct E3 as [[v E3]|[E3 _]]; [|discriminate].
      exists v. rewrite lookup_assign in E3. destruct (beqb h k); [discriminate|assumption].
  - destruct sink as [sec|].
    + destruct Hk as [l Hk]. rewrite Hk in H. edestruct (IH false (Some sec)) as [a [k [c [E1 [E2 E3]]]]]; [|exact H|].
      { eexists. rewrite lookup_assign, beqb_same. reflexivity. }
      rewrite E1. exists (Ok (Property x y) :: a), k, c. split; [reflexivity|]. split; [intros [?|?]; [discriminate|auto]|].
      left. destruct E3 as [[v E3]|[E3 _]]; [|discriminate]. exists v. rewrite lookup_assign in E3. destruct (beqb sec k); [discriminate|assumption].
    + destruct (IH false None _ I H) as [a [k [c [E1 [E2 E3]]]]]. rewrite E1. exists (Ok (Property x y) :: a), k, c.
      split; [reflexivity|]. split; [intros [?|?]; [discriminate|auto]|]. destruct E3 as [[v E3]|[_ [a1 [v [a2 [E4 E5]]]]]].
      * rewrite lookup_assign in E3. destruct (beqb x k) eqn:Ex; [|left; exists v; assumption]. apply beqb_eq in Ex. subst x.
        right. split; [reflexivity|]. exists [], y, a. split; [reflexivity|]. intros h [].
      * right. split; [reflexivity|]. exists (Ok (Property x y) :: a1), v, a2. split; [rewrite E4; reflexivity|].
        intros h [?|?]; [discriminate|eapply E5; eassumption].
Qed.

(* reading a part without errors *)
Lemma reading_app : forall p b q w, reading b p = w -> reading b (p ++ q) = w ++ reading (match p with [] => b | _ => false end) q.
Proof.
  induction p as [|l p IH]; intros b q w <-; [reflexivity|]. cbn [app reading]. f_equal. rewrite (IH false q _ eq_refl).
  destruct p; reflexivity.
Qed.
Lemma reading_split : forall ls b w1 w2, reading b ls = w1 ++ w2 ->
  exists p q, ls = p ++ q /\ reading b p = w1 /\ reading (match p with [] => b | _ => false end) q = w2.
Proof.
  induction ls as [|l ls IH]; intros b w1 w2 H.
  - symmetry in H. apply app_eq_nil in H. destruct H as [-> ->]. exists [], []. auto.
  - destruct w1 as [|o w1]; [exists [], (l :: ls); auto|]. cbn [reading app] in H. injection H as H1 H2.
    destruct (IH _ _ _ H2) as [p [q [-> [E1 E2]]]]. exists (l :: p), q. split; [reflexivity|]. cbn [reading].
    split; [rewrite H1, E1; reflexivity|]. destruct p; exact E2.
Qed.

(* a string at the root stays one, or the whole is undefined *)
Lemma str_stays : forall p b sink root q k v, ~ In Throw (reading b p) -> sink_ok sink root -> lookup k root = Some (PStr v) ->
  read_lines b sink root (p ++ q) = UB
  \/ exists sink' root' v', sink_ok sink' root' /\ lookup k root' = Some (PStr v')
       /\ read_lines b sink root (p ++ q) = read_lines (match p with [] => b | _ => false end) sink' root' q.
Proof.
  induction p as [|line p IH]; intros b sink root q k v Hn Hk Hl.
  - right. exists sink, root, v. auto.
  - cbn [reading app read_lines] in *. destruct (read_line b line) as [w| |] eqn:E; [|exfalso; apply Hn; left; reflexivity|exfalso; eapply read_line_defined; exact E].
    assert (Hn' : ~ In Throw (reading false p)) by (intros Hi; apply Hn; right; assumption). cbn [obind].
    assert (Hgo : forall sink' root' v', sink_ok sink' root' -> lookup k root' = Some (PStr v') ->
      read_lines false sink' root' (p ++ q) = UB \/ exists s2 r2 v2, sink_ok s2 r2 /\ lookup k r2 = Some (PStr v2)
        /\ read_lines false sink' root' (p ++ q) = read_lines false s2 r2 q).
    { intros s' r' v' H1 H2. destruct (IH false s' r' q k v' Hn' H1 H2) as [H|[s2 [r2 [v2 [H3 [H4 H5]]]]]]; [left; assumption|].
      right. exists s2, r2, v2. split; [assumption|]. split; [assumption|]. rewrite H5. destruct p; reflexivity. }
    destruct w as [|h|x y].
    + eapply Hgo; eassumption.
    + destruct (lookup h root) as [[s|l]|] eqn:El; [left; reflexivity| |].
      * eapply Hgo; [exists l; exact El|exact Hl].
      * eapply Hgo; [exists []; rewrite lookup_assign, beqb_same; reflexivity|]. rewrite lookup_assign. destruct (beqb h k) eqn:Eh; [|exact Hl].
        apply beqb_eq in Eh. subst h. rewrite Hl in El. discriminate.
    + destruct sink as [sec|].
      * destruct Hk as [l Hk]. rewrite Hk. eapply Hgo; [eexists; rewrite lookup_assign, beqb_same; reflexivity|].
        rewrite lookup_assign. destruct (beqb sec k) eqn:Es; [|exact Hl]. apply beqb_eq in Es. subst sec. rewrite Hl in Hk. discriminate.
      * destruct (beqb x k) eqn:Ex; eapply Hgo; try exact I; rewrite lookup_assign, Ex; [reflexivity|exact Hl].
Qed.
Lemma root_stays : forall p b root q, ~ In Throw (reading b p) -> (forall h, ~ In (Ok (Header h)) (reading b p)) ->
  exists root', read_lines b None root (p ++ q) = read_lines (match p with [] => b | _ => false end) None root' q.
Proof.
  induction p as [|line p IH]; intros b root q Hn Hh.
  - exists root. reflexivity.
  - cbn [reading app read_lines] in *. destruct (read_line b line) as [w| |] eqn:E; [|exfalso; apply Hn; left; reflexivity|exfalso; eapply read_line_defined; exact E].
    assert (Hgo : forall r, exists root', read_lines false None r (p ++ q) = read_lines false None root' q).
    { intros r. destruct (IH false r q) as [r' Hr].
      - intros Hi. apply Hn. right. assumption.
      - intros h Hi. apply (Hh h). right. assumption.
      - exists r'. rewrite Hr. destruct p; reflexivity. }
    cbn [obind]. destruct w as [|h|x y]; [apply Hgo| |apply Hgo]. exfalso. apply (Hh h). left. reflexivity.
Qed.

Theorem undefined_iff : forall text, ini_parse text = UB <-> collision (lines [] text).
Proof.
  intros text. unfold ini_parse. set (ls := lines [] text). clearbody ls. split.
  - intros H. destruct (ub_from ls true None [] I H) as [a [k [c [E1 [E2 [[v E3]|[_ [a1 [v [a2 [E4 E5]]]]]]]]]]]; [discriminate|].
    exists a1, k, v, a2, c. split; [rewrite E1, E4, <- !app_assoc; reflexivity|]. split; [assumption|].
    subst a. split; intros Hi; apply E2; rewrite !in_app_iff; auto.
  - intros [a [k [v [b [c [E [Hh [Ha Hb]]]]]]]]. apply reading_split in E. destruct E as [p [q [-> [E1 E2]]]].
    destruct (root_stays p true [] q) as [root Hr]; [rewrite E1; assumption|rewrite E1; assumption|]. rewrite Hr. clear Hr.
    set (b0 := match p with [] => true | _ => false end) in *. clearbody b0.
    destruct q as [|line q]; [discriminate|]. cbn [app reading read_lines] in *. injection E2 as E2 E3. rewrite E2. cbn [obind].
    apply reading_split in E3. destruct E3 as [p2 [q2 [-> [E4 E5]]]].
    destruct (str_stays p2 false None (assign k (PStr v) root) q2 k v) as [H|[s2 [r2 [v2 [_ [H2 H3]]]]]].
    + rewrite E4. assumption.
    + exact I.
    + rewrite lookup_assign, beqb_same. reflexivity.
    + exact H.
    + rewrite H3. destruct q2 as [|line2 q2]; [discriminate|]. cbn [reading read_lines] in *. injection E5 as E5 _. rewrite E5.
      cbn [obind]. rewrite H2. reflexivity.
Qed.
