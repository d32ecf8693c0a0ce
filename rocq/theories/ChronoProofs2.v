(* Dates as text. *)
From Verif Require Import Base Monad Text ChronoModel ChronoSpec ChronoProofs1.

(* ---------- two digits ---------- *)
Lemma digit_ok k : field k -> is_digit (48 + k / 10) = true /\ is_digit (48 + k mod 10) = true.
Proof. unfold field, is_digit. intros H. split; Z.div_mod_to_equations; lia. Qed.
Lemma put_two k : field k -> s_2digit k = Ok (two k).
Proof. unfold field, s_2digit. intros H. replace ((0 <=? k) && (k <? 100)) with true by lia. reflexivity. Qed.
Lemma read_two k r v : field k -> match_two (Some (two k ++ r)) v = Ok (Some r, v + k).
Proof.
  intros H. destruct (digit_ok k H) as [A B]. unfold two, match_two. cbn [app]. rewrite A, B. cbn [andb].
  do 2 f_equal. unfold field in H. Z.div_mod_to_equations. lia.
Qed.
Lemma two_digits a b : is_digit a = true -> is_digit b = true ->
  field (10 * (a - 48) + (b - 48)) /\ two (10 * (a - 48) + (b - 48)) = [a; b].
Proof.
  unfold is_digit, field, two. intros A B. split; [lia|].
  replace ((10 * (a - 48) + (b - 48)) / 10) with (a - 48) by (Z.div_mod_to_equations; lia).
  replace ((10 * (a - 48) + (b - 48)) mod 10) with (b - 48) by (Z.div_mod_to_equations; lia).
  f_equal; [lia|]. f_equal. lia.
Qed.
Lemma two_cases s : s = []
  \/ (exists k r, field k /\ s = two k ++ r)
  \/ forall v, match_two (Some s) v = Ok (None, v).
Proof.
  destruct s as [|a [|b r]]; [auto | right; right; reflexivity|]. right.
  destruct (is_digit a && is_digit b) eqn:E.
  - left. apply andb_prop in E as [A B]. destruct (two_digits a b A B) as [F T].
    exists (10 * (a - 48) + (b - 48)), r. split; [exact F|]. rewrite T. reflexivity.
  - right. intros v. unfold match_two. rewrite E. reflexivity.
Qed.
Lemma char_cases s c : c <> 0 -> (exists r, s = c :: r /\ match_char (Some s) c = Some r) \/ match_char (Some s) c = None.
Proof.
  intros N. destruct s as [|x r]; cbn.
  - right. destruct c; [congruence | reflexivity..].
  - destruct (Z.eqb_spec x c) as [->|]; [left; eauto | right; reflexivity].
Qed.
Lemma read_char c r : match_char (Some (c :: r)) c = Some r.
Proof. cbn. rewrite Z.eqb_refl. reflexivity. Qed.

(* ---------- the date ---------- *)
Lemma date_text_split y m d h mi s r : date_text y m d h mi s ++ r =
  two (y / 100) ++ two (y mod 100) ++ 45 :: two m ++ 45 :: two d ++ 32 :: two h ++ 58 :: two mi ++ 58 :: two s ++ r.
Proof. unfold date_text. rewrite <- !app_assoc. reflexivity. Qed.
Lemma date_fields a b : field a -> field b -> (100 * a + b) / 100 = a /\ (100 * a + b) mod 100 = b.
Proof. unfold field. intros. split; Z.div_mod_to_equations; lia. Qed.

Lemma read_date y m d h mi s r : 0 <= y <= 9999 -> field m -> field d -> field h -> field mi -> field s ->
  match_date (Some (date_text y m d h mi s ++ r)) = Ok (Some r, (y, m, d), (h, mi, s)).
Proof.
  intros Hy Hm Hd Hh Hmi Hs. rewrite date_text_split. unfold match_date.
  assert (F1 : field (y / 100)) by (unfold field; Z.div_mod_to_equations; lia).
  assert (F2 : field (y mod 100)) by (unfold field; Z.div_mod_to_equations; lia).
  rewrite read_two by exact F1. cbn [obind]. rewrite read_two by exact F2. cbn [obind].
  rewrite read_char, read_two by exact Hm. cbn [obind]. rewrite read_char, read_two by exact Hd. cbn [obind].
  rewrite read_char, read_two by exact Hh. cbn [obind]. rewrite read_char, read_two by exact Hmi. cbn [obind].
  rewrite read_char, read_two by exact Hs. cbn [obind]. repeat f_equal. Z.div_mod_to_equations. lia.
Qed.

(* a text that ends within the date *)
Definition cut_date (w : bytes) : Prop :=
  exists y1 y2 m d h mi, field y1 /\ field y2 /\ field m /\ field d /\ field h /\ field mi
  /\ (w = [] \/ w = two y1 \/ w = two y1 ++ two y2 ++ str "-"
      \/ w = two y1 ++ two y2 ++ str "-" ++ two m ++ str "-"
      \/ w = two y1 ++ two y2 ++ str "-" ++ two m ++ str "-" ++ two d ++ str " "
      \/ w = two y1 ++ two y2 ++ str "-" ++ two m ++ str "-" ++ two d ++ str " " ++ two h ++ str ":"
      \/ w = two y1 ++ two y2 ++ str "-" ++ two m ++ str "-" ++ two d ++ str " " ++ two h ++ str ":" ++ two mi ++ str ":").

Lemma match_none v : match_two None v = Ok (None, v). Proof. reflexivity. Qed.
Lemma char_none c : match_char None c = None. Proof. reflexivity. Qed.
Lemma match_empty v : match_two (Some []) v = UB. Proof. reflexivity. Qed.
Ltac fail_rest := repeat (rewrite ?char_none, ?match_none; cbn [obind]); right; right; eauto.
Ltac f0 := unfold field; lia.
Tactic Notation "flds" := repeat match goal with |- _ /\ _ => split end; try assumption; try f0.

Lemma date_cases s :
  (match_date (Some s) = UB /\ cut_date s)
  \/ (exists y m d h mi x r, 0 <= y <= 9999 /\ field m /\ field d /\ field h /\ field mi /\ field x /\ s = date_text y m d h mi x ++ r)
  \/ exists D T, match_date (Some s) = Ok (None, D, T).
Proof.
  unfold match_date.
  destruct (two_cases s) as [->|[(y1 & s1 & F1 & ->)|E]].
  { left. split; [reflexivity|]. exists 0, 0, 0, 0, 0, 0. flds. auto. }
  2:{ rewrite E. cbn [obind]. fail_rest. }
  rewrite read_two by exact F1. cbn [obind].
  destruct (two_cases s1) as [->|[(y2 & s2 & F2 & ->)|E]].
  { left. split; [reflexivity|]. exists y1, 0, 0, 0, 0, 0. flds. right; left; apply app_nil_r. }
  2:{ rewrite E. cbn [obind]. fail_rest. }
  rewrite read_two by exact F2. cbn [obind].
  destruct (char_cases s2 45) as [(s3 & -> & E)|E]; [lia | |]; rewrite E. 2:{ fail_rest. }
  destruct (two_cases s3) as [->|[(m & s4 & F3 & ->)|E3]].
  { left. split; [reflexivity|]. exists y1, y2, 0, 0, 0, 0. flds. auto. }
  2:{ rewrite E3. cbn [obind]. fail_rest. }
  rewrite read_two by exact F3. cbn [obind]. clear E.
  destruct (char_cases s4 45) as [(s5 & -> & E)|E]; [lia | |]; rewrite E. 2:{ fail_rest. }
  destruct (two_cases s5) as [->|[(d & s6 & F4 & ->)|E3]].
  { left. split; [reflexivity|]. exists y1, y2, m, 0, 0, 0. flds. auto. }
  2:{ rewrite E3. cbn [obind]. fail_rest. }
  rewrite read_two by exact F4. cbn [obind]. clear E.
  destruct (char_cases s6 32) as [(s7 & -> & E)|E]; [lia | |]; rewrite E. 2:{ fail_rest. }
  destruct (two_cases s7) as [->|[(h & s8 & F5 & ->)|E3]].
  { left. split; [reflexivity|]. exists y1, y2, m, d, 0, 0. flds. auto 10. }
  2:{ rewrite E3. cbn [obind]. fail_rest. }
  rewrite read_two by exact F5. cbn [obind]. clear E.
  destruct (char_cases s8 58) as [(s9 & -> & E)|E]; [lia | |]; rewrite E. 2:{ fail_rest. }
  destruct (two_cases s9) as [->|[(mi & s10 & F6 & ->)|E3]].
  { left. split; [reflexivity|]. exists y1, y2, m, d, h, 0. flds. auto 10. }
  2:{ rewrite E3. cbn [obind]. fail_rest. }
  rewrite read_two by exact F6. cbn [obind]. clear E.
  destruct (char_cases s10 58) as [(s11 & -> & E)|E]; [lia | |]; rewrite E. 2:{ fail_rest. }
  destruct (two_cases s11) as [->|[(x & r & F7 & ->)|E3]].
  { left. split; [reflexivity|]. exists y1, y2, m, d, h, mi. flds. auto 10. }
  2:{ rewrite E3. cbn [obind]. fail_rest. }
  right. left. exists (100 * y1 + y2), m, d, h, mi, x, r. split; [unfold field in *; lia|]. flds.
  rewrite date_text_split. destruct (date_fields y1 y2 F1 F2) as [-> ->]. reflexivity.
Qed.
Lemma cut_date_ub w : cut_date w -> match_date (Some w) = UB.
Proof.
  intros (y1 & y2 & m & d & h & mi & F1 & F2 & F3 & F4 & F5 & F6 & W). unfold match_date.
  repeat match goal with H : _ \/ _ |- _ => destruct H as [-> | H] end; [.. | subst w].
  all: try reflexivity.
  all: try (rewrite <- (app_nil_r (two y1)), read_two by exact F1; reflexivity).
  all: change (str "-") with [45]; try change (str " ") with [32]; try change (str ":") with [58]; cbn [app].
  all: rewrite read_two by exact F1; cbn [obind]; rewrite read_two by exact F2; cbn [obind]; rewrite read_char.
  all: try reflexivity.
  all: rewrite read_two by exact F3; cbn [obind]; rewrite read_char; try reflexivity.
  all: rewrite read_two by exact F4; cbn [obind]; rewrite read_char; try reflexivity.
  all: rewrite read_two by exact F5; cbn [obind]; rewrite read_char; try reflexivity.
  all: rewrite read_two by exact F6; cbn [obind]; rewrite read_char; reflexivity.
Qed.

(* ---------- spaces ---------- *)
Lemma skip_split s : exists a, spaces a /\ s = a ++ skip_spaces s /\ peek (skip_spaces s) <> 32.
Proof.
  induction s as [|c s (a & A & E & P)]; [exists []; repeat split; [constructor | cbn; lia]|]. cbn [skip_spaces].
  destruct (Z.eqb_spec c 32) as [->|N].
  - exists (32 :: a). split; [constructor; [reflexivity | exact A]|]. split; [cbn [app]; f_equal; exact E | exact P].
  - exists []. repeat split; [constructor | cbn; exact N].
Qed.
Lemma skip_app a r : spaces a -> peek r <> 32 -> skip_spaces (a ++ r) = r.
Proof.
  induction 1 as [|c a -> A IH]; intros P; cbn [app].
  - destruct r as [|c r]; [reflexivity|]. cbn in *. destruct (Z.eqb_spec c 32); [contradiction | reflexivity].
  - cbn. apply IH, P.
Qed.
Lemma skip_all b : spaces b -> skip_spaces b = [].
Proof. intros H. rewrite <- (app_nil_r b). apply skip_app; [exact H | cbn; lia]. Qed.
Lemma skip_nil b : skip_spaces b = [] -> spaces b.
Proof. intros H. destruct (skip_split b) as (a & A & E & _). rewrite H, app_nil_r in E. subst. exact A. Qed.

(* ---------- the fraction ---------- *)
Definition no_digit (r : bytes) : Prop := is_digit (peek r) = false.
Lemma fraction_rest ds : digits ds -> forall v r, no_digit r -> fraction (ds ++ r) v 0 = (r, v).
Proof.
  induction 1 as [|c ds Hc H IH]; intros v r R; cbn [app].
  - destruct r as [|x r]; [reflexivity|]. cbn [fraction]. unfold no_digit in R. cbn in R. rewrite R. reflexivity.
  - cbn [fraction]. replace (is_digit c) with true by (unfold is_digit; lia). change (0 / 10) with 0. rewrite Z.mul_0_r, Z.add_0_r. apply IH, R.
Qed.
Lemma fraction_ok ds r : digits ds -> no_digit r -> exists a b c,
  firstn 3 (ds ++ str "000") = [48 + a; 48 + b; 48 + c] /\ fraction (ds ++ r) 0 100 = (r, 100 * a + 10 * b + c).
Proof.
  intros H R. destruct ds as [|x [|y [|z ds]]].
  - exists 0, 0, 0. split; [reflexivity|]. destruct r as [|c r]; [reflexivity|]. cbn [app fraction]. unfold no_digit in R. cbn in R. rewrite R. reflexivity.
  - exists (x - 48), 0, 0. split; [cbn; repeat f_equal; lia|]. inversion H; subst. cbn [app fraction]. replace (is_digit x) with true by (unfold is_digit; lia).
    destruct r as [|c r]; [cbn [fraction]; f_equal; lia|]. cbn [fraction]. unfold no_digit in R. cbn in R. rewrite R. f_equal; lia.
  - exists (x - 48), (y - 48), 0. split; [cbn; repeat f_equal; lia|]. inversion H as [|? ? H1 H2]; subst. inversion H2; subst. cbn [app fraction].
    replace (is_digit x) with true by (unfold is_digit; lia). replace (is_digit y) with true by (unfold is_digit; lia).
    destruct r as [|c r]; [cbn [fraction]; f_equal; change (100 / 10) with 10; lia|]. cbn [fraction]. unfold no_digit in R. cbn in R. rewrite R. change (100 / 10) with 10. f_equal; lia.
  - exists (x - 48), (y - 48), (z - 48). split; [cbn; repeat f_equal; lia|]. inversion H as [|? ? H1 H2]; subst. inversion H2 as [|? ? H3 H4]; subst. inversion H4 as [|? ? H5 H6]; subst.
    cbn [app fraction]. replace (is_digit x) with true by (unfold is_digit; lia). replace (is_digit y) with true by (unfold is_digit; lia). replace (is_digit z) with true by (unfold is_digit; lia).
    change (100 / 10 / 10 / 10) with 0. rewrite fraction_rest by assumption. change (100 / 10) with 10. change (10 / 10) with 1. f_equal. lia.
Qed.
Lemma digits_split s : exists ds r, s = ds ++ r /\ digits ds /\ no_digit r.
Proof.
  induction s as [|c s (ds & r & -> & D & N)]; [exists [], []; repeat split; constructor|].
  destruct (is_digit c) eqn:E.
  - exists (c :: ds), r. repeat split; [constructor; [unfold is_digit in E; lia | exact D] | exact N].
  - exists [], (c :: ds ++ r). repeat split; [constructor | exact E].
Qed.
Lemma read_frac w v r : read_fraction w v -> no_digit r -> peek r <> 46 -> match_fraction (Some (w ++ r)) = (Some r, v).
Proof.
  intros [[-> ->]|(ds & a & b & c & -> & D & F & ->)] N P; cbn [app match_fraction].
  - destruct (Z.eqb_spec (peek r) 46); [contradiction | reflexivity].
  - cbn [peek hd tl]. change (46 =? 46) with true. cbv iota. destruct (fraction_ok ds r D N) as (a' & b' & c' & F' & E). rewrite E.
    rewrite F in F'. injection F' as A B C. repeat f_equal; lia.
Qed.
Lemma frac_cases s : exists w v r, s = w ++ r /\ read_fraction w v /\ match_fraction (Some s) = (Some r, v).
Proof.
  cbn [match_fraction]. destruct (Z.eqb_spec (peek s) 46) as [E|N].
  - destruct s as [|c s]; [discriminate|]. cbn in E. subst c. cbn [tl]. destruct (digits_split s) as (ds & r & -> & D & N).
    destruct (fraction_ok ds r D N) as (a & b & c & F & E). rewrite E. exists (46 :: ds), (100 * a + 10 * b + c), r.
    split; [reflexivity|]. split; [|reflexivity]. right. exists ds, a, b, c. auto.
  - exists [], 0, s. split; [reflexivity|]. split; [left; auto | reflexivity].
Qed.

(* ---------- the zone ---------- *)
Lemma starts_split w : forall s, starts w s = true -> s = w ++ skipn (length w) s.
Proof.
  induction w as [|a w IH]; intros s H; [reflexivity|]. destruct s as [|b s]; [discriminate|]. cbn [starts] in H. apply andb_prop in H as [E H].
  cbn [length skipn app]. f_equal; [lia | apply IH, H].
Qed.
Definition zone_of (sg off : Z) : option Z := if sg =? 0 then None else Some (sg * off).
Lemma spaces_peek b : spaces b -> peek b = 0 \/ peek b = 32.
Proof. intros H. inversion H; subst; [left | right]; reflexivity. Qed.

Lemma read_zone_ok w o b : read_zone w o -> spaces b ->
  exists sg off r, match_zone (Some (w ++ b)) = Ok (Some r, sg, off) /\ spaces r /\ zone_of sg off = o.
Proof.
  intros [[-> ->]|[[[-> | ->] ->]|(h & m & Fh & Fm & [[-> ->]|[-> ->]])]] B.
  - cbn [app]. inversion B as [|c b' Hc B' E]; subst.
    + exists 0, 0, []. repeat split. constructor.
    + exists 0, 0, b'. split; [|split; [exact B' | reflexivity]]. unfold match_zone. cbn [peek hd tl].
      assert (S : forall x w, x <> 32 -> starts (x :: w) b' = false).
      { intros x w N. inversion B' as [|y b2 Hy B2]; subst; [reflexivity|]. cbn [starts]. replace (x =? 32) with false by lia. reflexivity. }
      change (32 =? 32) with true. cbv iota. change (str "GMT") with [71; 77; 84]. change (str "UTC") with [85; 84; 67].
      rewrite (S 71), (S 85) by lia. cbn [orb]. destruct (spaces_peek b' B') as [P|P]; rewrite P; reflexivity.
  - exists 1, 0, b. split; [reflexivity | auto].
  - exists 1, 0, b. split; [reflexivity | auto].
  - exists 1, (60 * h + m), b. split; [|split; [exact B | unfold zone_of; change (1 =? 0) with false; cbv iota; f_equal; lia]]. rewrite <- !app_assoc. change (str " +") with [32; 43]. cbn [app match_zone peek hd tl].
    change (32 =? 32) with true. cbv iota. change (starts (str "GMT") (43 :: two h ++ two m ++ b) || starts (str "UTC") (43 :: two h ++ two m ++ b)) with false. cbv iota.
    cbn [peek hd tl]. change ((43 =? 43) || (43 =? 45)) with true. change (43 =? 43) with true. cbv iota.
    rewrite read_two by exact Fh. cbn [obind]. rewrite read_two by exact Fm. cbn [obind]. do 2 f_equal. lia.
  - exists (-1), (60 * h + m), b. split; [|split; [exact B |]].
    2:{ unfold zone_of. change (-1 =? 0) with false. cbv iota. f_equal. }
    rewrite <- !app_assoc. change (str " -") with [32; 45]. cbn [app match_zone peek hd tl].
    change (32 =? 32) with true. cbv iota. change (starts (str "GMT") (45 :: two h ++ two m ++ b) || starts (str "UTC") (45 :: two h ++ two m ++ b)) with false. cbv iota.
    cbn [peek hd tl]. change ((45 =? 43) || (45 =? 45)) with true. change (45 =? 43) with false. cbv iota.
    rewrite read_two by exact Fh. cbn [obind]. rewrite read_two by exact Fm. cbn [obind]. do 2 f_equal. lia.
Qed.
Definition cut_zone (w : bytes) : Prop :=
  exists sg zh z, w = str " " ++ [sg] ++ z /\ (sg = 43 \/ sg = 45) /\ field zh /\ (z = [] \/ z = two zh).
Lemma cut_zone_ub w : cut_zone w -> match_zone (Some w) = UB.
Proof.
  intros (sg & zh & z & -> & S & F & [-> | ->]).
  - destruct S as [-> | ->]; reflexivity.
  - change (str " ") with [32]. cbn [app match_zone peek hd tl]. change (32 =? 32) with true. cbv iota. destruct S as [-> | ->].
    + change (starts (str "GMT") (43 :: two zh) || starts (str "UTC") (43 :: two zh)) with false. cbv iota. cbn [peek hd tl]. change ((43 =? 43) || (43 =? 45)) with true. cbv iota.
      rewrite <- (app_nil_r (two zh)), read_two by exact F. reflexivity.
    + change (starts (str "GMT") (45 :: two zh) || starts (str "UTC") (45 :: two zh)) with false. cbv iota. cbn [peek hd tl]. change ((45 =? 43) || (45 =? 45)) with true. cbv iota.
      rewrite <- (app_nil_r (two zh)), read_two by exact F. reflexivity.
Qed.
Lemma zone_cases s :
  (match_zone (Some s) = UB /\ cut_zone s)
  \/ (exists w r sg off, match_zone (Some s) = Ok (Some r, sg, off)
      /\ s = w ++ r /\ (read_zone w (zone_of sg off) \/ (w = [32] /\ sg = 0)))
  \/ exists sg off, match_zone (Some s) = Ok (None, sg, off).
Proof.
  cbn [match_zone]. destruct (Z.eqb_spec (peek s) 32) as [E|N].
  2:{ right. left. exists [], s, 0, 0. split; [reflexivity|]. split; [reflexivity|]. left. left. auto. }
  destruct s as [|c s]; [discriminate|]. cbn in E. subst c. cbn [tl].
  destruct (starts (str "GMT") s) eqn:G.
  { cbn [orb]. right. left. exists (str " GMT"), (skipn 3 s), 1, 0. split; [reflexivity|]. split.
    - apply starts_split in G. change (length (str "GMT")) with 3%nat in G. rewrite G at 1. reflexivity.
    - left. right. left. auto. }
  destruct (starts (str "UTC") s) eqn:U.
  { cbn [orb]. right. left. exists (str " UTC"), (skipn 3 s), 1, 0. split; [reflexivity|]. split.
    - apply starts_split in U. change (length (str "UTC")) with 3%nat in U. rewrite U at 1. reflexivity.
    - left. right. left. auto. }
  cbn [orb]. destruct ((peek s =? 43) || (peek s =? 45)) eqn:P.
  2:{ right. left. exists [32], s, 0, 0. split; [reflexivity|]. split; [reflexivity|]. right. auto. }
  assert (exists sg, s = sg :: tl s /\ (sg = 43 \/ sg = 45)) as (sg & Es & Hs).
  { destruct s as [|c s]; [discriminate|]. cbn in P. exists c. split; [reflexivity | lia]. }
  destruct (two_cases (tl s)) as [E|[(h & r & F & E)|E]].
  - left. rewrite E. split; [reflexivity|]. exists sg, 0, []. rewrite Es, E. split; [reflexivity|]. split; [exact Hs|]. split; [f0 | auto].
  - rewrite E, read_two by exact F. cbn [obind]. destruct (two_cases r) as [->|[(m & r' & F' & ->)|E']].
    + left. split; [reflexivity|]. exists sg, h, (two h). rewrite Es, E, app_nil_r. auto.
    + rewrite read_two by exact F'. cbn [obind]. right. left. exists (32 :: sg :: two h ++ two m), r'. 
      eexists. eexists. split; [reflexivity|]. split; [rewrite Es, E; cbn [app]; rewrite <- app_assoc; reflexivity|]. left. right. right. exists h, m. split; [exact F|]. split; [exact F'|].
      rewrite Es. cbn [peek hd]. unfold zone_of. destruct Hs as [-> | ->].
      * left. split; [reflexivity|]. change (43 =? 43) with true. cbv iota. change (1 =? 0) with false. cbv iota. f_equal. lia.
      * right. split; [reflexivity|]. change (45 =? 43) with false. cbv iota. change (-1 =? 0) with false. cbv iota. f_equal. lia.
    + rewrite E'. cbn [obind]. right. right. eexists. eexists. reflexivity.
  - rewrite E. cbn [obind]. right. right. eexists. eexists. reflexivity.
Qed.
