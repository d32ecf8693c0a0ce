(* The calendar. *)
From Verif Require Import Base ChronoModel ChronoSpec.

Definition cum (m : Z) : Z :=
  nth (Z.to_nat m) [0; 0; 31; 59; 90; 120; 151; 181; 212; 243; 273; 304; 334; 365] 0.
Definition year_start (y : Z) : Z := 365 * (y - 1970) + (y - 1) / 4 - (y - 1) / 100 + (y - 1) / 400 - 477.
Definition month_start (y m : Z) : Z := cum m + (if leap y && (2 <? m) then 1 else 0).
Definition days (D : date) : Z := let '(y, m, d) := D in year_start y + month_start y m + d - 1.

Lemma month_cases (P : Z -> Prop) : P 1 -> P 2 -> P 3 -> P 4 -> P 5 -> P 6 -> P 7 -> P 8 -> P 9 -> P 10 -> P 11 -> P 12 ->
  forall m, 1 <= m <= 12 -> P m.
Proof.
  intros. assert (C : m = 1 \/ m = 2 \/ m = 3 \/ m = 4 \/ m = 5 \/ m = 6 \/ m = 7 \/ m = 8 \/ m = 9 \/ m = 10 \/ m = 11 \/ m = 12) by lia.
  repeat (destruct C as [-> | C]; [assumption|]). subst. assumption.
Qed.

Lemma month_next y m : 1 <= m <= 12 -> month_start y m + month_length y m = month_start y (m + 1).
Proof.
  revert m. apply month_cases; unfold month_start, month_length; destruct (leap y); reflexivity.
Qed.
Lemma year_next y : year_start (y + 1) = year_start y + (if leap y then 366 else 365).
Proof.
  unfold year_start, leap. replace (y + 1 - 1) with y by lia.
  destruct (y mod 4 =? 0) eqn:E4, (y mod 100 =? 0) eqn:E100, (y mod 400 =? 0) eqn:E400; cbn [negb andb orb];
    Z.div_mod_to_equations; lia.
Qed.
Lemma month_end y : month_start y 13 = if leap y then 366 else 365.
Proof. unfold month_start. destruct (leap y); reflexivity. Qed.
Lemma month_first y : month_start y 1 = 0.
Proof. unfold month_start. rewrite Bool.andb_false_r. reflexivity. Qed.
Lemma month_len y m : 28 <= month_length y m <= 31.
Proof. unfold month_length. destruct (m =? 2); [destruct (leap y); lia|]. destruct (_ || _ || _ || _); lia. Qed.

Lemma tomorrow_valid D : valid_date D -> valid_date (tomorrow D).
Proof.
  destruct D as [[y m] d]. cbn [valid_date tomorrow]. intros [Hm Hd].
  destruct (d <? month_length y m) eqn:E; [cbn; lia|]. destruct (m <? 12) eqn:F.
  - cbn. pose proof (month_len y (m + 1)). lia.
  - cbn. pose proof (month_len (y + 1) 1). lia.
Qed.
Lemma tomorrow_days D : valid_date D -> days (tomorrow D) = days D + 1.
Proof.
  destruct D as [[y m] d]. cbn [valid_date tomorrow]. intros [Hm Hd].
  destruct (d <? month_length y m) eqn:E; [cbn; lia|]. destruct (m <? 12) eqn:F; cbn [days].
  - pose proof (month_next y m Hm). lia.
  - assert (m = 12) by lia. subst m. pose proof (month_next y 12 Hm) as N. change (12 + 1) with 13 in N.
    rewrite month_end in N. rewrite year_next, month_first. lia.
Qed.
Lemma yesterday D : valid_date D -> exists D', valid_date D' /\ tomorrow D' = D.
Proof.
  destruct D as [[y m] d]. cbn [valid_date]. intros [Hm Hd].
  destruct (Z.eq_dec d 1) as [->|N].
  - destruct (Z.eq_dec m 1) as [->|M].
    + exists (y - 1, 12, 31). split; [cbn; lia|]. cbn. f_equal. f_equal. lia.
    + exists (y, m - 1, month_length y (m - 1)). pose proof (month_len y (m - 1)). split; [cbn; lia|].
      cbn [tomorrow]. rewrite Z.ltb_irrefl. replace (m - 1 <? 12) with true by lia. f_equal. f_equal. lia.
  - exists (y, m, d - 1). split; [cbn; lia|]. cbn [tomorrow]. replace (d - 1 <? month_length y m) with true by lia. f_equal. lia.
Qed.
Lemma month_mono y m m' : 1 <= m -> m < m' -> m' <= 13 -> month_start y m + month_length y m <= month_start y m'.
Proof.
  intros H L H'. assert (exists k : nat, m' = m + 1 + Z.of_nat k) as [k ->] by (exists (Z.to_nat (m' - m - 1)); lia).
  clear L. induction k as [|k IH].
  - rewrite month_next by lia. replace (m + 1 + Z.of_nat 0) with (m + 1) by lia. lia.
  - replace (m + 1 + Z.of_nat (S k)) with (m + 1 + Z.of_nat k + 1) by lia. rewrite <- month_next by lia.
    pose proof (month_len y (m + 1 + Z.of_nat k)). lia.
Qed.
Lemma year_bounds y m d : valid_date (y, m, d) -> year_start y <= days (y, m, d) < year_start (y + 1).
Proof.
  intros [Hm Hd]. cbn [days]. rewrite year_next, <- month_end.
  pose proof (month_mono y m 13 ltac:(lia) ltac:(lia) ltac:(lia)).
  assert (0 <= month_start y m).
  { destruct (Z.eq_dec m 1) as [->|]; [rewrite month_first; lia|].
    pose proof (month_mono y 1 m ltac:(lia) ltac:(lia) ltac:(lia)) as M. rewrite month_first in M. pose proof (month_len y 1). lia. }
  lia.
Qed.
Lemma year_mono y y' : y < y' -> year_start (y + 1) <= year_start y'.
Proof. unfold year_start. intros. Z.div_mod_to_equations. lia. Qed.
Lemma days_inj D D' : valid_date D -> valid_date D' -> days D = days D' -> D = D'.
Proof.
  destruct D as [[y m] d], D' as [[y' m'] d']. intros V V' E.
  pose proof (year_bounds _ _ _ V) as B. pose proof (year_bounds _ _ _ V') as B'. rewrite E in B.
  assert (y = y').
  { destruct (Z.lt_trichotomy y y') as [L|[L|L]]; [|exact L|]; pose proof (year_mono _ _ L); lia. }
  subst y'. cbn [days] in E. destruct V as [Hm Hd], V' as [Hm' Hd'].
  assert (m = m').
  { destruct (Z.lt_trichotomy m m') as [L|[L|L]]; [|exact L|].
    - pose proof (month_mono y m m' ltac:(lia) L ltac:(lia)). lia.
    - pose proof (month_mono y m' m ltac:(lia) L ltac:(lia)). lia. }
  subst m'. replace d' with d by lia. reflexivity.
Qed.

Lemma day_no_days n D : day_no n D -> valid_date D /\ n = days D.
Proof.
  induction 1 as [|n D H [V E]|n D V H [_ E]].
  - split; [cbn; lia | reflexivity].
  - split; [apply tomorrow_valid, V|]. rewrite tomorrow_days by exact V. lia.
  - split; [exact V|]. rewrite tomorrow_days in E by exact V. lia.
Qed.
Lemma days_day_no D : valid_date D -> day_no (days D) D.
Proof.
  intros V. remember (days D) as n eqn:E. destruct (Z_le_dec 0 n) as [P|P].
  - revert D V E. pattern n. apply natlike_ind; [| |exact P].
    + intros D V E. assert (D = (1970, 1, 1)) as ->; [|constructor].
      apply days_inj; [exact V | cbn; lia|]. rewrite <- E. reflexivity.
    + intros k Hk IH D V E. destruct (yesterday D V) as (D' & V' & <-). rewrite tomorrow_days in E by exact V'.
      unfold Z.succ. apply day_after, IH; [exact V' | lia].
  - assert (exists k, 0 <= k /\ n = - k) as (k & Hk & ->) by (exists (- n); lia). clear P. revert D V E. pattern k. apply natlike_ind; [| |exact Hk].
    + intros D V E. assert (D = (1970, 1, 1)) as ->; [|constructor].
      apply days_inj; [exact V | cbn; lia|]. rewrite <- E. reflexivity.
    + intros j Hj IH D V E. replace (- Z.succ j) with (- j - 1) by lia. apply day_before; [exact V|].
      apply IH; [apply tomorrow_valid, V|]. rewrite tomorrow_days by exact V. lia.
Qed.
Lemma day_no_iff n D : day_no n D <-> valid_date D /\ n = days D.
Proof. split; [apply day_no_days|]. intros [V ->]. apply days_day_no, V. Qed.

Lemma day_exists n : exists D, day_no n D.
Proof.
  destruct (Z_le_dec 0 n) as [P|P].
  - pattern n. apply natlike_ind; [| |exact P].
    + eexists. constructor.
    + intros k _ [D H]. exists (tomorrow D). apply day_after, H.
  - assert (exists k, 0 <= k /\ n = - k) as (k & Hk & ->) by (exists (- n); lia). clear P. pattern k. apply natlike_ind; [| |exact Hk].
    + eexists. constructor.
    + intros j _ [D H]. destruct (yesterday D) as (D' & V' & <-); [apply (day_no_days _ _ H)|].
      exists D'. replace (- Z.succ j) with (- j - 1) by lia. apply day_before; assumption.
Qed.
Lemma one_date n : exists! D, day_no n D.
Proof.
  destruct (day_exists n) as [D H]. exists D. split; [exact H|]. intros D' H'.
  apply day_no_days in H as [V E], H' as [V' E']. apply days_inj; [assumption..|congruence].
Qed.
Lemma one_day D : valid_date D -> exists! n, day_no n D.
Proof.
  intros V. exists (days D). split; [apply days_day_no, V|]. intros n H. apply day_no_days in H as [_ E]. congruence.
Qed.

(* years of the instants that are written *)
Lemma instant_year t y m d h mi s : instant t (y, m, d) h mi s -> -86400 <= t < 253370851200 -> 1969 <= y <= 9999.
Proof.
  intros (Hh & Hmi & Hs & n & Hn & ->) R. apply day_no_days in Hn as [V ->]. pose proof (year_bounds _ _ _ V) as B.
  assert (Y : -1 <= days (y, m, d) <= 2932532) by lia.
  split.
  - destruct (Z_le_dec 1969 y) as [|N]; [assumption|]. assert (L : y < 1969) by lia. pose proof (year_mono _ _ L) as M.
    change (year_start 1969) with (-365) in M. lia.
  - destruct (Z_le_dec y 9999) as [|N]; [assumption|]. assert (L : 9999 < y) by lia. pose proof (year_mono _ _ L) as M.
    change (year_start (9999 + 1)) with 2932897 in M. lia.
Qed.

(* ---------- a library that computes this calendar ---------- *)
Fixpoint year_walk (k : nat) (y n : Z) : Z :=
  match k with O => y | S k => if n <? year_start (y + 1) then y else year_walk k (y + 1) n end.
Fixpoint month_walk (k : nat) (y m r : Z) : Z :=
  match k with O => m | S k => if r <? month_start y (m + 1) then m else month_walk k y (m + 1) r end.
Definition from_doe (doe : Z) : date :=
  let n := doe - 719528 in
  let y := year_walk 400 0 n in
  let r := n - year_start y in
  let m := month_walk 12 y 1 r in
  (y, m, r - month_start y m + 1).
Definition from_days (n : Z) : date :=
  let era := (n + 719528) / 146097 in
  let '(y, m, d) := from_doe ((n + 719528) mod 146097) in (y + 400 * era, m, d).
Lemma year_walk_ok n : forall k y, year_start y <= n < year_start (y + Z.of_nat k) ->
  year_start (year_walk k y n) <= n < year_start (year_walk k y n + 1).
Proof.
  induction k as [|k IH]; intros y H; cbn [year_walk].
  - replace (y + Z.of_nat 0) with y in H by lia. lia.
  - destruct (Z.ltb_spec n (year_start (y + 1))) as [L|L]; [lia|]. apply IH.
    replace (y + 1 + Z.of_nat k) with (y + Z.of_nat (S k)) by lia. lia.
Qed.
Lemma month_walk_ok y r : forall k m, month_start y m <= r < month_start y (m + Z.of_nat k) ->
  m <= month_walk k y m r < m + Z.of_nat k /\ month_start y (month_walk k y m r) <= r < month_start y (month_walk k y m r + 1).
Proof.
  induction k as [|k IH]; intros m H; cbn [month_walk].
  - replace (m + Z.of_nat 0) with m in H by lia. lia.
  - destruct (Z.ltb_spec r (month_start y (m + 1))) as [L|L]; [lia|].
    destruct (IH (m + 1)) as [A B]; [replace (m + 1 + Z.of_nat k) with (m + Z.of_nat (S k)) by lia; lia|]. split; [lia|exact B].
Qed.
Definition doe_ok (doe : Z) : Prop :=
  let '(y, m, d) := from_doe doe in
  1 <= m <= 12 /\ 1 <= d <= month_length y m /\ days (y, m, d) = doe - 719528.
Lemma all_doe doe : 0 <= doe < 146097 -> doe_ok doe.
Proof.
  intros H. unfold doe_ok, from_doe. cbv zeta. set (n := doe - 719528).
  assert (A : year_start 0 <= n < year_start (0 + Z.of_nat 400)).
  { change (year_start 0) with (-719528). change (year_start (0 + Z.of_nat 400)) with (-573431). unfold n. lia. }
  apply year_walk_ok in A. set (y := year_walk 400 0 n) in *. clearbody y. rewrite year_next, <- month_end in A.
  assert (B : month_start y 1 <= n - year_start y < month_start y (1 + Z.of_nat 12)).
  { rewrite month_first. change (1 + Z.of_nat 12) with 13. lia. }
  apply month_walk_ok in B. destruct B as [B1 B2]. set (m := month_walk 12 y 1 (n - year_start y)) in *. clearbody m.
  rewrite <- month_next in B2 by lia. cbn [days]. unfold n in *. lia.
Qed.
Lemma leap_era y e : leap (y + 400 * e) = leap y.
Proof.
  unfold leap. 
  assert (A : (y + 400 * e) mod 4 = y mod 4) by (replace (y + 400 * e) with (y + (100 * e) * 4) by lia; apply Z_mod_plus_full).
  assert (B : (y + 400 * e) mod 100 = y mod 100) by (replace (y + 400 * e) with (y + (4 * e) * 100) by lia; apply Z_mod_plus_full).
  assert (C : (y + 400 * e) mod 400 = y mod 400) by (replace (y + 400 * e) with (y + e * 400) by lia; apply Z_mod_plus_full).
  rewrite A, B, C. reflexivity.
Qed.
Lemma days_era y e m d : days (y + 400 * e, m, d) = days (y, m, d) + 146097 * e.
Proof.
  cbn [days]. unfold month_start. rewrite leap_era. unfold year_start.
  replace ((y + 400 * e - 1) / 4) with ((y - 1) / 4 + 100 * e) by (Z.div_mod_to_equations; lia).
  replace ((y + 400 * e - 1) / 100) with ((y - 1) / 100 + 4 * e) by (Z.div_mod_to_equations; lia).
  replace ((y + 400 * e - 1) / 400) with ((y - 1) / 400 + e) by (Z.div_mod_to_equations; lia). lia.
Qed.
Lemma from_days_ok n : day_no n (from_days n).
Proof.
  apply day_no_iff. unfold from_days.
  pose proof (Z.mod_pos_bound (n + 719528) 146097 ltac:(lia)) as R. pose proof (Z.div_mod (n + 719528) 146097 ltac:(lia)) as E.
  set (e := (n + 719528) / 146097) in *. set (doe := (n + 719528) mod 146097) in *.
  pose proof (all_doe doe R) as K.
  unfold doe_ok in K. destruct (from_doe doe) as [[y m] d]. split.
  - cbn [valid_date]. unfold month_length. rewrite leap_era. unfold month_length in K. lia.
  - rewrite days_era. lia.
Qed.

Definition tm_of (t : Z) : tm :=
  let '(y, m, d) := from_days (t / 86400) in
  let r := t mod 86400 in mk_tm (y - 1900) (m - 1) d (r / 3600) (r / 60 mod 60) (r mod 60).
Definition t_of (x : tm) : Z :=
  86400 * days (tm_year x + 1900, tm_mon x + 1, tm_mday x) + 3600 * tm_hour x + 60 * tm_min x + tm_sec x.
Definition toy : libc := mk_libc tm_of t_of (fun t => (tm_of (t + 3600), 3600)) (fun x => t_of x - 3600).
Lemma toy_calendar : calendar toy.
Proof.
  split.
  - intros t R. cbn [gmtime toy]. unfold tm_of. pose proof (from_days_ok (t / 86400)) as H. destruct (from_days (t / 86400)) as [[y m] d].
    exists y, m, d. eexists. eexists. eexists. split; [|reflexivity]. unfold instant.
    assert (B : 0 <= t mod 86400 < 86400) by (apply Z.mod_pos_bound; lia). set (r := t mod 86400) in *.
    assert (X : r = 3600 * (r / 3600) + 60 * (r / 60 mod 60) + r mod 60) by (Z.div_mod_to_equations; lia).
    split; [Z.div_mod_to_equations; lia|]. split; [Z.div_mod_to_equations; lia|]. split; [Z.div_mod_to_equations; lia|].
    exists (t / 86400). split; [exact H|]. pose proof (Z.div_mod t 86400 ltac:(lia)). fold r in H0. lia.
  - intros t y m d h mi s _ (_ & _ & _ & n & Hn & ->). cbn [timegm toy]. unfold t_of. cbn [tm_year tm_mon tm_mday tm_hour tm_min tm_sec].
    replace (y - 1900 + 1900) with y by lia. replace (m - 1 + 1) with m by lia. apply day_no_days in Hn as [_ ->]. lia.
Qed.
