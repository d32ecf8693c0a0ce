(* Dates as text: the whole. *)
From Verif Require Import Base Monad Text ChronoModel ChronoSpec ChronoProofs1 ChronoProofs2.

Lemma clamp_limited t : limited t (clamp_time t).
Proof.
  unfold limited, clamp_time. change max_time with first_of_9999. destruct (t <? 0) eqn:A; [left; split; [lia | reflexivity]|].
  destruct (first_of_9999 <=? t) eqn:B; [right; left; split; [lia | reflexivity] | right; right; lia].
Qed.
Lemma limited_unique t v w : limited t v -> limited t w -> v = w.
Proof. unfold limited, first_of_9999. lia. Qed.

Lemma date_peek y m d h mi s r : 0 <= y <= 9999 -> peek (date_text y m d h mi s ++ r) <> 32.
Proof. intros H. rewrite date_text_split. cbn [two app peek hd]. Z.div_mod_to_equations. lia. Qed.
Lemma zone_peek w o b : read_zone w o -> spaces b -> peek (w ++ b) = 0 \/ peek (w ++ b) = 32.
Proof.
  intros [[-> _]|[[[-> | ->] _]|(h & m & _ & _ & [[-> _]|[-> _]])]] B; [apply spaces_peek, B | right; reflexivity..].
Qed.

Lemma parse_stamp L text y m d h mi s ms off : stamp text y m d h mi s ms off ->
  chrono_parse L text = Ok (clamp_time (when L y m d h mi s ms off)).
Proof.
  intros (Hy & Hm & Hd & Hh & Hmi & Hs & a & fr & zo & b & -> & A & B & F & Zo).
  unfold chrono_parse. rewrite skip_app by (try exact A; apply date_peek, Hy).
  rewrite read_date by assumption. cbn [obind].
  destruct (zone_peek zo off b Zo B) as [P|P].
  all: rewrite (read_frac fr ms (zo ++ b) F) by (unfold no_digit; rewrite P; (reflexivity || lia)); cbv beta iota.
  all: destruct (read_zone_ok zo off b Zo B) as (sg & o & r & Ez & R & <-); unfold bytes in *; rewrite Ez; cbn [obind]; rewrite skip_all by exact R.
  all: unfold when, zone_of; destruct (Z.eqb_spec sg 0); do 2 f_equal; lia.
Qed.
Lemma cut_short_ub L text : cut_short text -> chrono_parse L text = UB.
Proof.
  intros (a & w & -> & A & y1 & y2 & m & d & h & mi & s & F1 & F2 & F3 & F4 & F5 & F6 & F7 & W).
  assert (Pt : forall k r, field k -> peek (two k ++ r) <> 32) by (intros k r Hk; cbn; unfold field in Hk; Z.div_mod_to_equations; lia).
  unfold chrono_parse. rewrite skip_app; [|exact A|].
  - assert (C : cut_date w \/ exists fr v sg z zh, w = date_text (100 * y1 + y2) m d h mi s ++ fr ++ str " " ++ [sg] ++ z
         /\ read_fraction fr v /\ (sg = 43 \/ sg = 45) /\ field zh /\ (z = [] \/ z = two zh)).
    { repeat match type of W with _ \/ _ => destruct W as [W|W] end; [left; exists y1, y2, m, d, h, mi; flds; auto 10 .. | right; exact W]. }
    destruct C as [C|(fr & v & sg & z & zh & -> & Fr & Sg & Fz & Hz)].
    + rewrite (cut_date_ub w C). reflexivity.
    + rewrite read_date by (try assumption; unfold field in *; lia). cbn [obind].
      rewrite (read_frac fr v (str " " ++ [sg] ++ z) Fr) by (reflexivity || (cbn; lia)). cbv beta iota.
      rewrite cut_zone_ub; [reflexivity|]. exists sg, zh, z. auto.
  - repeat match type of W with _ \/ _ => destruct W as [W|W] end; try subst w; try (apply Pt, F1).
    + cbn. lia.
    + destruct W as (fr & v & sg & z & zh & -> & _). apply date_peek. unfold field in *. lia.
Qed.

Lemma parse_cases L text :
  (chrono_parse L text = UB /\ cut_short text)
  \/ (exists y m d h mi s ms off, stamp text y m d h mi s ms off)
  \/ chrono_parse L text = Throw.
Proof.
  destruct (skip_split text) as (a & A & E & P). unfold chrono_parse. set (t := skip_spaces text) in *. clearbody t. subst text.
  destruct (date_cases t) as [[U C]|[(y & m & d & h & mi & s & r & Hy & Hm & Hd & Hh & Hmi & Hs & ->)|(D & T & N)]].
  - left. rewrite U. split; [reflexivity|]. destruct C as (y1 & y2 & m & d & h & mi & F1 & F2 & F3 & F4 & F5 & F6 & W).
    exists a, t. split; [reflexivity|]. split; [exact A|]. exists y1, y2, m, d, h, mi, 0. flds.
    repeat match type of W with _ \/ _ => destruct W as [W|W] end; auto 12.
  - rewrite read_date by assumption. cbn [obind]. destruct (frac_cases r) as (fr & v & q & -> & F & Ef). unfold bytes in *. rewrite Ef. cbv beta iota.
    destruct (zone_cases q) as [[U C]|[(w & z & sg & off & Q & -> & R)|(sg & off & Q)]]; unfold bytes in *.
    + left. rewrite U. split; [reflexivity|]. exists a, (date_text y m d h mi s ++ fr ++ q). split; [reflexivity|]. split; [exact A|].
      destruct C as (sg & zh & z & -> & Sg & Fz & Hz).
      assert (Fy1 : field (y / 100)) by (unfold field; Z.div_mod_to_equations; lia).
      assert (Fy2 : field (y mod 100)) by (unfold field; Z.div_mod_to_equations; lia).
      exists (y / 100), (y mod 100), m, d, h, mi, s. flds. do 7 right. exists fr, v, sg, z, zh.
      replace (100 * (y / 100) + y mod 100) with y by (Z.div_mod_to_equations; lia). auto 10.
    + right. rewrite Q. cbn [obind]. destruct (skip_spaces z) as [|c z'] eqn:Sz; [left | right; reflexivity]. apply skip_nil in Sz.
      destruct R as [R|[-> ->]].
      * exists y, m, d, h, mi, s, v, (zone_of sg off). repeat (split; [assumption|]). exists a, fr, w, z. auto.
      * exists y, m, d, h, mi, s, v, None. repeat (split; [assumption|]). exists a, fr, [], (32 :: z). split; [reflexivity|]. split; [exact A|].
        split; [constructor; [reflexivity | exact Sz]|]. split; [exact F|]. left. auto.
    + right. right. rewrite Q. reflexivity.
  - right. right. rewrite N. destruct D as [[]], T as [[]]. reflexivity.
Qed.

Lemma parse_exact L text v : chrono_parse L text = Ok v <->
  exists y m d h mi s ms off, stamp text y m d h mi s ms off /\ limited (when L y m d h mi s ms off) v.
Proof.
  split.
  - intros H. destruct (parse_cases L text) as [[U _]|[(y & m & d & h & mi & s & ms & off & S)|U]]; [congruence | | congruence].
    exists y, m, d, h, mi, s, ms, off. split; [exact S|]. rewrite (parse_stamp L _ _ _ _ _ _ _ _ _ S) in H. injection H as <-. apply clamp_limited.
  - intros (y & m & d & h & mi & s & ms & off & S & H). rewrite (parse_stamp L _ _ _ _ _ _ _ _ _ S). f_equal.
    apply (limited_unique _ _ _ (clamp_limited _) H).
Qed.
Lemma parse_overrun L text : chrono_parse L text = UB <-> cut_short text.
Proof.
  split; [|apply cut_short_ub]. intros H. destruct (parse_cases L text) as [[_ C]|[(y & m & d & h & mi & s & ms & off & S)|U]]; [exact C | | congruence].
  rewrite (parse_stamp L _ _ _ _ _ _ _ _ _ S) in H. discriminate.
Qed.
Lemma empty_overrun L : chrono_parse L [] = UB.
Proof. reflexivity. Qed.

(* ---------- writing ---------- *)
Lemma put_ok y m d h mi s ms sg ab with_ms : 0 <= y <= 9999 -> field m -> field d -> field h -> field mi -> field s -> 0 <= ms <= 999 ->
  0 <= ab < 6000 -> (sg = 1 \/ sg = -1) \/ ab = 0 ->
  put_parts (mk_broken y m d h mi s ms sg ab) with_ms = Ok (date_text y m d h mi s ++ fraction_text with_ms ms ++ zone_text (sg * ab)).
Proof.
  intros Hy Hm Hd Hh Hmi Hs Hms Hab Hsg. unfold put_parts. cbn [year mon day hour min sec gmtoff_sign gmtoff_abs ChronoModel.ms].
  rewrite (put_two (y / 100)) by (unfold field; Z.div_mod_to_equations; lia).
  rewrite (put_two (y mod 100)) by (unfold field; Z.div_mod_to_equations; lia).
  rewrite (put_two m), (put_two d), (put_two h), (put_two mi), (put_two s) by assumption. cbn [obind].
  assert (X : (if with_ms then do m1 <- s_2digit (ms / 100); do m2 <- s_2digit (ms mod 100); Ok (46 :: tl m1 ++ m2) else Ok []) = Ok (fraction_text with_ms ms)).
  { destruct with_ms; [|reflexivity]. rewrite (put_two (ms / 100)) by (unfold field; Z.div_mod_to_equations; lia).
    rewrite (put_two (ms mod 100)) by (unfold field; Z.div_mod_to_equations; lia). cbn [obind two tl app]. unfold fraction_text, three, two.
    do 3 f_equal. Z.div_mod_to_equations. lia. }
  rewrite X. cbn [obind].
  assert (Y : (if ab =? 0 then Ok (str " UTC") else do z1 <- s_2digit (ab / 60); do z2 <- s_2digit (ab mod 60); Ok ((if sg <? 0 then str " -" else str " +") ++ z1 ++ z2)) = Ok (zone_text (sg * ab))).
  { unfold zone_text. destruct (Z.eqb_spec ab 0) as [->|N]; [rewrite Z.mul_0_r; reflexivity|].
    destruct (Z.eqb_spec (sg * ab) 0); [lia|].
    rewrite (put_two (ab / 60)) by (unfold field; Z.div_mod_to_equations; lia). rewrite (put_two (ab mod 60)) by (unfold field; Z.div_mod_to_equations; lia). cbn [obind].
    replace (Z.abs (sg * ab)) with ab by lia. replace (sg * ab <? 0) with (sg <? 0) by lia. reflexivity. }
  rewrite Y. cbn [obind]. rewrite date_text_split. reflexivity.
Qed.

Lemma u32_small z : 0 <= z < 2 ^ 32 -> u32 z = z. Proof. intros. apply Z.mod_small. assumption. Qed.
Lemma instant_fields t y m d h mi s : instant t (y, m, d) h mi s -> field m /\ field d /\ field h /\ field mi /\ field s /\ valid_date (y, m, d).
Proof.
  intros (Hh & Hmi & Hs & n & Hn & _). apply day_no_days in Hn as [V _]. pose proof V as [Hm Hd]. pose proof (month_len y m). unfold field.
  repeat match goal with |- _ /\ _ => split end; try lia; exact V.
Qed.

(* the broken-down parts of a moment that gmtime gives *)
Lemma shown L t g sg ab with_ms : calendar L -> 0 <= t < first_of_9999 -> -86400 < g < 86400 ->
  0 <= ab < 6000 -> (sg = 1 \/ sg = -1) \/ ab = 0 -> exists y m d h mi s, instant (t / 1000 + g) (y, m, d) h mi s /\ 0 <= y <= 9999 /\
  put_parts (let tr := gmtime L (t / 1000 + g) in mk_broken (u32 (tm_year tr + 1900)) (u32 (tm_mon tr + 1)) (u32 (tm_mday tr))
        (u32 (tm_hour tr)) (u32 (tm_min tr)) (u32 (tm_sec tr)) (t mod 1000) sg ab) with_ms
  = Ok (date_text y m d h mi s ++ fraction_text with_ms (t mod 1000) ++ zone_text (sg * ab)).
Proof.
  intros [C _] Ht Hg Hab Hsg. unfold first_of_9999 in Ht.
  assert (R : -86400 <= t / 1000 + g < 253370851200) by (Z.div_mod_to_equations; lia).
  destruct (C _ R) as (y & m & d & h & mi & s & I & ->). pose proof (instant_year _ _ _ _ _ _ _ I R) as Y.
  destruct (instant_fields _ _ _ _ _ _ _ I) as (Hm & Hd & Hh & Hmi & Hs & _).
  exists y, m, d, h, mi, s. split; [exact I|]. split; [lia|]. cbn [tm_year tm_mon tm_mday tm_hour tm_min tm_sec].
  replace (y - 1900 + 1900) with y by lia. replace (m - 1 + 1) with m by lia. unfold field in *. rewrite !u32_small by lia.
  apply put_ok; unfold field; try lia; try assumption; Z.div_mod_to_equations; lia.
Qed.

Lemma format_ok L t off with_ms : calendar L -> 0 <= t < first_of_9999 -> -1440 < off < 1440 ->
  exists y m d h mi s, instant (t / 1000 + 60 * off) (y, m, d) h mi s
  /\ 0 <= y <= 9999 /\ chrono_format L t (Some off) with_ms = Ok (date_text y m d h mi s ++ fraction_text with_ms (t mod 1000) ++ zone_text off).
Proof.
  intros C Ht Ho. destruct (shown L t (60 * off) (if off <? 0 then -1 else 1) (Z.abs off) with_ms C Ht) as (y & m & d & h & mi & s & I & Y & E);
    [lia | lia | destruct (off <? 0); auto |].
  exists y, m, d, h, mi, s. split; [exact I|]. split; [exact Y|]. unfold chrono_format, break_down. change max_time with first_of_9999.
  replace (t <? 0) with false by lia. replace (first_of_9999 <=? t) with false by lia. replace ((off <=? -1440) || (1440 <=? off)) with false by lia. cbn [obind].
  replace (off * 60) with (60 * off) by lia. cbv zeta in E. rewrite E. do 4 f_equal. destruct (off <? 0) eqn:S; lia.
Qed.
Lemma format_limits L t off with_ms :
  (t < 0 -> chrono_format L t off with_ms = Ok (date_text 0 1 1 0 0 0 ++ fraction_text with_ms 0 ++ zone_text 0))
  /\ (first_of_9999 <= t -> chrono_format L t off with_ms = Ok (date_text 9999 1 1 0 0 0 ++ fraction_text with_ms 0 ++ zone_text 0)).
Proof.
  split; intros H; unfold chrono_format, break_down; change max_time with first_of_9999.
  - replace (t <? 0) with true by lia. cbn [obind]. apply (put_ok 0 1 1 0 0 0 0 0 0); unfold field; lia.
  - replace (t <? 0) with false by (unfold first_of_9999 in H; lia). replace (first_of_9999 <=? t) with true by lia. cbn [obind].
    apply (put_ok 9999 1 1 0 0 0 0 0 0); unfold field; lia.
Qed.
Lemma format_throws L t off with_ms : 0 <= t < first_of_9999 -> off <= -1440 \/ 1440 <= off ->
  chrono_format L t (Some off) with_ms = Throw.
Proof.
  intros H Ho. unfold chrono_format, break_down. change max_time with first_of_9999.
  replace (t <? 0) with false by lia. replace (first_of_9999 <=? t) with false by lia. replace ((off <=? -1440) || (1440 <=? off)) with true by lia. reflexivity.
Qed.

(* ---------- there and back ---------- *)
Lemma fraction_read with_ms ms : 0 <= ms <= 999 -> read_fraction (fraction_text with_ms ms) (if with_ms then ms else 0).
Proof.
  intros H. destruct with_ms; [|left; auto]. right. exists (three ms), (ms / 100), (ms mod 100 / 10), (ms mod 100 mod 10). split; [reflexivity|].
  split; [|split; [reflexivity | Z.div_mod_to_equations; lia]]. unfold three, two. repeat (constructor; [Z.div_mod_to_equations; lia|]). constructor.
Qed.
Lemma zone_read off : -6000 < off < 6000 -> read_zone (zone_text off) (Some off).
Proof.
  intros H. unfold zone_text. destruct (Z.eqb_spec off 0) as [->|N]; [right; left; auto|]. right. right.
  exists (Z.abs off / 60), (Z.abs off mod 60). split; [unfold field; Z.div_mod_to_equations; lia|]. split; [unfold field; Z.div_mod_to_equations; lia|].
  destruct (off <? 0) eqn:E; [right | left]; (split; [reflexivity|]); f_equal; Z.div_mod_to_equations; lia.
Qed.
Lemma written_stamp y m d h mi s with_ms ms off : 0 <= y <= 9999 -> field m -> field d -> field h -> field mi -> field s -> 0 <= ms <= 999 -> -6000 < off < 6000 ->
  stamp (date_text y m d h mi s ++ fraction_text with_ms ms ++ zone_text off) y m d h mi s (if with_ms then ms else 0) (Some off).
Proof.
  intros. repeat (split; [assumption|]). exists [], (fraction_text with_ms ms), (zone_text off), []. rewrite app_nil_r. split; [reflexivity|].
  split; [constructor|]. split; [constructor|]. split; [apply fraction_read; assumption | apply zone_read; assumption].
Qed.
Lemma shown_back L t off with_ms y m d h mi s : calendar L -> 0 <= t < first_of_9999 -> -6000 < off < 6000 ->
  instant (t / 1000 + 60 * off) (y, m, d) h mi s -> 0 <= y <= 9999 ->
  chrono_parse L (date_text y m d h mi s ++ fraction_text with_ms (t mod 1000) ++ zone_text off) = Ok (if with_ms then t else t - t mod 1000).
Proof.
  intros [_ C] Ht Ho I Y. apply parse_exact. destruct (instant_fields _ _ _ _ _ _ _ I) as (Hm & Hd & Hh & Hmi & Hs & _).
  exists y, m, d, h, mi, s. eexists. eexists. split; [apply written_stamp; try assumption; Z.div_mod_to_equations; lia|].
  unfold when. rewrite (C _ _ _ _ _ _ _ Y I). right. right. pose proof (Z.div_mod t 1000 ltac:(lia)). pose proof (Z.mod_pos_bound t 1000 ltac:(lia)).
  destruct with_ms; lia.
Qed.
Lemma round_trip L t off with_ms : calendar L -> 0 <= t < first_of_9999 -> -1440 < off < 1440 ->
  exists text, chrono_format L t (Some off) with_ms = Ok text /\ chrono_parse L text = Ok (if with_ms then t else t - t mod 1000).
Proof.
  intros C Ht Ho. destruct (format_ok L t off with_ms C Ht Ho) as (y & m & d & h & mi & s & I & Y & E). eexists. split; [exact E|].
  apply shown_back; try assumption; lia.
Qed.
Lemma round_trip_limits L t off with_ms : calendar L -> t < 0 \/ first_of_9999 <= t ->
  exists text, chrono_format L t off with_ms = Ok text /\ chrono_parse L text = Ok (if t <? 0 then int64_min else int64_max).
Proof.
  intros [_ C] H. assert (T : forall y, 0 <= y <= 9999 -> valid_date (y, 1, 1) ->
    chrono_parse L (date_text y 1 1 0 0 0 ++ fraction_text with_ms 0 ++ zone_text 0) = Ok (clamp_time (1000 * (86400 * days (y, 1, 1))))).
  { intros y Hy V. rewrite (parse_stamp L _ y 1 1 0 0 0 (if with_ms then 0 else 0) (Some 0)) by (apply written_stamp; unfold field; lia).
    unfold when. rewrite (C (86400 * days (y, 1, 1)) y 1 1 0 0 0 Hy); [do 2 f_equal; destruct with_ms; lia|].
    unfold instant. repeat (split; [lia|]). exists (days (y, 1, 1)). split; [apply days_day_no, V | lia]. }
  destruct H as [H|H].
  - eexists. split; [apply (proj1 (format_limits L t off with_ms)), H|]. rewrite T by (cbn; lia). replace (t <? 0) with true by lia. reflexivity.
  - eexists. split; [apply (proj2 (format_limits L t off with_ms)), H|]. rewrite T by (cbn; lia). replace (t <? 0) with false by (unfold first_of_9999 in H; lia). reflexivity.
Qed.

(* local time *)
Lemma local_round_trip L t o with_ms : calendar L -> 0 <= t < first_of_9999 -> -1440 < o < 1440 ->
  localtime L (t / 1000) = (gmtime L (t / 1000 + 60 * o), 60 * o) ->
  exists text, chrono_format L t None with_ms = Ok text /\ chrono_parse L text = Ok (if with_ms then t else t - t mod 1000).
Proof.
  intros C Ht Ho El. destruct (shown L t (60 * o) (if 60 * o <? 0 then -1 else 1) (u32 (Z.abs (60 * o)) / 60) with_ms C Ht) as (y & m & d & h & mi & s & I & Y & E);
    [lia | rewrite u32_small by lia; Z.div_mod_to_equations; lia | destruct (60 * o <? 0); auto |].
  exists (date_text y m d h mi s ++ fraction_text with_ms (t mod 1000) ++ zone_text o). split.
  - unfold chrono_format, break_down. change max_time with first_of_9999.
    replace (t <? 0) with false by lia. replace (first_of_9999 <=? t) with false by lia. rewrite El. cbn [obind].
    cbv zeta in E. rewrite E. do 4 f_equal. rewrite u32_small by lia. destruct (60 * o <? 0) eqn:S; Z.div_mod_to_equations; lia.
  - apply shown_back; try assumption. lia.
Qed.

Lemma read_moment L text t y m d h mi s ms o : calendar L -> stamp text y m d h mi s ms (Some o) -> instant t (y, m, d) h mi s ->
  exists v, chrono_parse L text = Ok v /\ limited (1000 * (t - 60 * o) + ms) v.
Proof.
  intros [_ C] S I. eexists. split; [apply (parse_stamp _ _ _ _ _ _ _ _ _ _ S)|]. unfold when. rewrite (C _ _ _ _ _ _ _ (proj1 S) I).
  replace (1000 * (t - 60 * o) + ms) with (ms + 1000 * t - 60000 * o) by lia. apply clamp_limited.
Qed.
(* a zone 44 minutes and 30 seconds west *)
Definition monrovia : libc :=
  mk_libc (gmtime toy) (timegm toy) (fun t => (gmtime toy (t - 2670), -2670)) (fun tr => timegm toy tr + 2670).
Lemma local_refuted : exists L t text, calendar L /\ 0 <= t < first_of_9999
  /\ (forall u, localtime L u = (gmtime L (u - 2670), -2670))
  /\ chrono_format L t None true = Ok text /\ chrono_parse L text = Ok (t - 30000).
Proof.
  exists monrovia, 30000, (str "1969-12-31 23:16:00.000 -0044"). split; [exact toy_calendar|]. split; [vm_compute; split; congruence|].
  split; [reflexivity|]. split; vm_compute; reflexivity.
Qed.
