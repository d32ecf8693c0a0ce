From Verif Require Import Base CsvModel CsvSpec.

(* ---- the loop over a line without fuel ---- *)
Lemma find_char_some : forall c s e, find_char c s = Some e ->
  (e < length s)%nat /\ exists a b, s = a ++ c :: b /\ length a = e /\ ~ In c a.
Proof.
  induction s as [|x s IH]; intros e H; [discriminate|]. simpl in H. destruct (x =? c) eqn:E.
  - injection H as <-. apply Z.eqb_eq in E. subst. split; [simpl; lia|]. exists [], s. simpl. auto.
  - destruct (find_char c s) as [e'|]; [|discriminate]. injection H as <-.
    destruct (IH e' eq_refl) as [H1 [a [b [-> [H2 H3]]]]]. split; [simpl; lia|].
    exists (x :: a), b. split; [reflexivity|]. split; [simpl; lia|]. intros [->|Hi]; [|auto].
    rewrite Z.eqb_refl in E. discriminate.
Qed.
Lemma find_char_app : forall c a b, ~ In c a -> find_char c (a ++ c :: b) = Some (length a).
Proof.
  induction a as [|x a IH]; intros b H; simpl.
  - rewrite Z.eqb_refl. reflexivity.
  - destruct (x =? c) eqn:E; [apply Z.eqb_eq in E; subst; exfalso; apply H; left; reflexivity|].
    rewrite IH; [reflexivity|]. intros Hi. apply H. right. assumption.
Qed.
Lemma find_char_none : forall c a, ~ In c a -> find_char c a = None.
Proof.
  induction a as [|x a IH]; intros H; simpl; [reflexivity|].
  destruct (x =? c) eqn:E; [apply Z.eqb_eq in E; subst; exfalso; apply H; left; reflexivity|].
  rewrite IH; [reflexivity|]. intros Hi. apply H. right. assumption.
Qed.
Lemma find_char_none' : forall c a, find_char c a = None -> ~ In c a.
Proof.
  induction a as [|x a IH]; intros H; simpl; [tauto|]. simpl in H. destruct (x =? c) eqn:E; [discriminate|].
  destruct (find_char c a); [discriminate|]. apply Z.eqb_neq in E. intros [Hx|Hx]; [congruence|]. exact (IH eq_refl Hx).
Qed.

Lemma scan_fuel : forall n m k a rest, (length rest < n)%nat -> (length rest < m)%nat ->
  scan n k a rest = scan m k a rest.
Proof.
  induction n as [|n IH]; intros m k a rest Hn Hm; [lia|]. destruct m as [|m]; [lia|].
  destruct rest as [|c tl]; [reflexivity|]. cbn [scan].
  assert (IH' : forall a r, (length r <= length tl)%nat -> scan n k a r = scan m k a r).
  { intros a' r Hr. apply IH; simpl in Hn, Hm; lia. }
  assert (Hs : forall j, (length (skipn (j + 1) (c :: tl)) <= length tl)%nat).
  { intros j. rewrite skipn_length. cbn [length]. lia. }
  assert (Hs2 : forall j, (length (skipn (j + 2) (c :: tl)) <= length tl)%nat).
  { intros j. rewrite skipn_length. cbn [length]. lia. }
  destruct (quote_at_line a =? 0).
  - destruct (last_row a) as [row|]; [|reflexivity].
    destruct (match row with [] => new_cell a | _ :: _ => Some a end) as [a1|]; [|reflexivity]. cbn [bind_st].
    destruct (quote_allowed a1 && (c =? quote)); [apply IH'; lia|].
    destruct (find_char comma (c :: tl)) as [e|]; [|reflexivity].
    destruct (append_cell a1 (firstn e (c :: tl))) as [a2|]; [|reflexivity]. cbn [bind_st].
    destruct (new_cell (allow a2 true)) as [a3|]; [|reflexivity]. cbn [bind_st]. apply IH'. apply Hs.
  - destruct (find_char quote (c :: tl)) as [e|]; [|reflexivity].
    destruct (nth (e + 1) (c :: tl) 0 =? quote).
    + destruct (append_cell a (firstn (e + 1) (c :: tl))) as [a2|]; [|reflexivity]. cbn [bind_st]. apply IH'. apply Hs2.
    + destruct (append_cell a (firstn e (c :: tl))) as [a2|]; [|reflexivity]. cbn [bind_st]. apply IH'. apply Hs.
Qed.

Definition scan' (k : Z) (a : st) (rest : bytes) : res := scan (S (length rest)) k a rest.
Lemma scan'_eq : forall k a rest, scan' k a rest =
  match rest with
  | [] => Run a
  | c :: tl =>
      if quote_at_line a =? 0 then
        match last_row a with
        | None => Undefined
        | Some row =>
            bind_st (match row with [] => new_cell a | _ => Some a end) (fun a =>
            if quote_allowed a && (c =? quote) then scan' k (at_line a k) tl
            else match find_char comma rest with
                 | None => bind_st (append_cell a rest) (fun a => Run (allow a true))
                 | Some e =>
                     bind_st (append_cell a (firstn e rest)) (fun a =>
                     bind_st (new_cell (allow a true)) (fun a =>
                     scan' k a (skipn (e + 1) rest)))
                 end)
        end
      else match find_char quote rest with
           | None =>
               bind_st (append_cell a rest) (fun a =>
               bind_st (append_cell a [lf]) Run)
           | Some e =>
               if nth (e + 1) rest 0 =? quote then
                 bind_st (append_cell a (firstn (e + 1) rest)) (fun a =>
                 scan' k a (skipn (e + 2) rest))
               else
                 bind_st (append_cell a (firstn e rest)) (fun a =>
                 scan' k (at_line (allow a false) 0) (skipn (e + 1) rest))
           end
  end.
Proof.
  intros k a rest. unfold scan' at 1. destruct rest as [|c tl]; [reflexivity|].
  set (n := length (c :: tl)). cbn [scan].
  assert (IH' : forall a r, (length r < n)%nat -> scan n k a r = scan' k a r).
  { intros a' r Hr. apply scan_fuel; [assumption|lia]. }
  assert (Hs : forall j, (length (skipn (j + 1) (c :: tl)) < n)%nat).
  { intros j. unfold n. rewrite skipn_length. cbn [length]. lia. }
  assert (Hs2 : forall j, (length (skipn (j + 2) (c :: tl)) < n)%nat).
  { intros j. unfold n. rewrite skipn_length. cbn [length]. lia. }
  destruct (quote_at_line a =? 0).
  - destruct (last_row a) as [row|]; [|reflexivity].
    destruct (match row with [] => new_cell a | _ :: _ => Some a end) as [a1|]; [|reflexivity]. cbn [bind_st].
    destruct (quote_allowed a1 && (c =? quote)); [apply IH'; unfold n; simpl; lia|].
    destruct (find_char comma (c :: tl)) as [e|]; [|reflexivity].
    destruct (append_cell a1 (firstn e (c :: tl))) as [a2|]; [|reflexivity]. cbn [bind_st].
    destruct (new_cell (allow a2 true)) as [a3|]; [|reflexivity]. cbn [bind_st]. apply IH'. apply Hs.
  - destruct (find_char quote (c :: tl)) as [e|]; [|reflexivity].
    destruct (nth (e + 1) (c :: tl) 0 =? quote).
    + destruct (append_cell a (firstn (e + 1) (c :: tl))) as [a2|]; [|reflexivity]. cbn [bind_st]. apply IH'. apply Hs2.
    + destruct (append_cell a (firstn e (c :: tl))) as [a2|]; [|reflexivity]. cbn [bind_st]. apply IH'. apply Hs.
Qed.

(* ---- states ---- *)
(* in the last cell [x] of the last row, after [cs] *)
Definition mid (R : list (list bytes)) (cs : list bytes) (x : bytes) (qa : bool) (q : Z) : st :=
  mk_st (R ++ [cs ++ [x]]) (Some (length R, length cs)) qa q.

Lemma at_nth_app : forall B (l1 : list B) x l2 f, at_nth (length l1) f (l1 ++ x :: l2)
  = option_map (fun y => l1 ++ y :: l2) (f x).
Proof.
  induction l1 as [|y l1 IH]; intros x l2 f; simpl; [destruct (f x); reflexivity|].
  rewrite IH. destruct (f x); reflexivity.
Qed.
Lemma append_mid : forall R cs x qa q s, append_cell (mid R cs x qa q) s = Some (mid R cs (x ++ s) qa q).
Proof.
  intros. unfold append_cell, mid. simpl. rewrite at_nth_app. rewrite at_nth_app. reflexivity.
Qed.
Lemma last_row_mid : forall R cs x qa q, last_row (mid R cs x qa q) = Some (cs ++ [x]).
Proof. intros. unfold last_row, mid. simpl. rewrite rev_app_distr. reflexivity. Qed.
Lemma new_cell_mid : forall R cs x qa q, new_cell (mid R cs x qa q) = Some (mid R (cs ++ [x]) [] qa q).
Proof.
  intros. unfold new_cell, mid. simpl. rewrite rev_app_distr. simpl.
  rewrite rev_involutive, rev_length. reflexivity.
Qed.
Lemma row_mid : forall R cs x qa q,
  match cs ++ [x] with [] => new_cell (mid R cs x qa q) | _ :: _ => Some (mid R cs x qa q) end = Some (mid R cs x qa q).
Proof. intros R [|c cs] x qa q; reflexivity. Qed.

(* at the start of a row *)
Definition fresh (R : list (list bytes)) (p : option (nat * nat)) (qa : bool) : st := mk_st (R ++ [[]]) p qa 0.
Lemma new_cell_fresh : forall R p qa, new_cell (fresh R p qa) = Some (mid R [] [] qa 0).
Proof.
  intros. unfold new_cell, fresh, mid. simpl. rewrite rev_app_distr. simpl.
  rewrite rev_involutive, rev_length. reflexivity.
Qed.
Lemma last_row_fresh : forall R p qa, last_row (fresh R p qa) = Some [].
Proof. intros. unfold last_row, fresh. simpl. rewrite rev_app_distr. reflexivity. Qed.

(* the first character of a row makes a cell *)
Lemma scan_fresh : forall k R p qa rest, rest <> [] ->
  scan' k (fresh R p qa) rest = scan' k (mid R [] [] qa 0) rest.
Proof.
  intros k R p qa [|c tl] H; [congruence|]. rewrite !scan'_eq.
  cbn [quote_at_line fresh mid]. simpl (0 =? 0). cbv iota.
  fold (fresh R p qa). fold (mid R [] [] qa 0).
  rewrite last_row_fresh, last_row_mid, new_cell_fresh. reflexivity.
Qed.

(* ---- never undefined, never without fuel ---- *)
Inductive form : st -> Prop :=
  | form_mid R cs x qa q : form (mid R cs x qa q)
  | form_fresh R p qa : form (fresh R p qa).
Lemma scan_form : forall n k a rest, (length rest < n)%nat -> form a ->
  exists b, scan n k a rest = Run b /\ form b.
Proof.
  induction n as [|n IH]; intros k a rest Hn Ha; [lia|]. destruct rest as [|c tl]; [exists a; auto|].
  assert (Hmid : forall R cs x qa q, exists b, scan (S n) k (mid R cs x qa q) (c :: tl) = Run b /\ form b).
  { intros R cs x qa q. cbn [scan]. cbn [quote_at_line mid]. fold (mid R cs x qa q). destruct (q =? 0) eqn:Eq.
    - rewrite last_row_mid, row_mid. cbn [bind_st quote_allowed mid]. fold (mid R cs x qa q).
      destruct (qa && (c =? quote)).
      { apply IH; [simpl in Hn; lia|]. apply (form_mid R cs x qa k). }
      destruct (find_char comma (c :: tl)) as [e|] eqn:Ef.
      + rewrite append_mid. cbn [bind_st]. change (allow (mid R cs (x ++ firstn e (c :: tl)) qa q) true)
          with (mid R cs (x ++ firstn e (c :: tl)) true q). rewrite new_cell_mid. cbn [bind_st].
        apply IH; [rewrite skipn_length; cbn [length] in *; lia|constructor].
      + rewrite append_mid. cbn [bind_st]. eexists. split; [reflexivity|].
        apply (form_mid R cs (x ++ c :: tl) true q).
    - destruct (find_char quote (c :: tl)) as [e|] eqn:Ef.
      + destruct (nth (e + 1) (c :: tl) 0 =? quote); rewrite append_mid; cbn [bind_st].
        * apply IH; [rewrite skipn_length; cbn [length] in *; lia|constructor].
        * apply IH; [rewrite skipn_length; cbn [length] in *; lia|]. apply (form_mid R cs (x ++ firstn e (c :: tl)) false 0).
      + rewrite append_mid. cbn [bind_st]. rewrite append_mid. cbn [bind_st]. eexists. split; [reflexivity|constructor]. }
  inversion Ha; subst; [apply Hmid|].
  rewrite (scan_fuel _ (S (length (c :: tl)))) by (simpl in *; lia).
  fold (scan' k (fresh R p qa) (c :: tl)). rewrite scan_fresh by discriminate.
  unfold scan'. rewrite (scan_fuel _ (S n)) by (simpl in *; lia). apply Hmid.
Qed.
Lemma over_form : forall ls n a, (form a \/ quote_at_line a = 0) ->
  exists b, over_lines n a ls = Run b.
Proof.
  induction ls as [|l ls IH]; intros n a Ha; [exists a; reflexivity|]. cbn [over_lines].
  set (a' := if quote_at_line a =? 0 then _ else a).
  assert (Hf : form a').
  { unfold a'. destruct (quote_at_line a =? 0) eqn:E.
    - apply Z.eqb_eq in E. rewrite E. apply form_fresh.
    - apply Z.eqb_neq in E. tauto. }
  match goal with |- context [scan (S (length ?l)) ?k _ _] =>
    destruct (scan_form (S (length l)) k a' l ltac:(lia) Hf) as [b [-> Hb]] end.
  apply IH. auto.
Qed.
Theorem parse_defined : forall text, csv_parse text <> Wrong /\ csv_parse text <> No_fuel.
Proof.
  intros text. unfold csv_parse, parse_from.
  destruct (over_form (lines [] text) 0 (mk_st [] None true 0) (or_intror eq_refl)) as [b ->].
  destruct (quote_at_line b =? 0); split; discriminate.
Qed.
