(* C26: dates as text (library/chrono.cpp). *)
From Verif Require Import Base Monad Text ChronoModel ChronoSpec ChronoProofs1 ChronoProofs2 ChronoProofs3.

(* The calendar that the statements use is one: each day has one date and each
   date is one day. *)
Theorem C26_calendar : (forall n, exists! D, day_no n D) /\ (forall D, valid_date D -> exists! n, day_no n D).
Proof. exact (conj one_date one_day). Qed.
Print Assumptions C26_calendar.

(* What is written is the date and the time of the moment at the offset. *)
Theorem C26_format L t off with_ms : calendar L -> 0 <= t < first_of_9999 -> -1440 < off < 1440 ->
  exists y m d h mi s, instant (t / 1000 + 60 * off) (y, m, d) h mi s
  /\ 0 <= y <= 9999 /\ chrono_format L t (Some off) with_ms = Ok (date_text y m d h mi s ++ fraction_text with_ms (t mod 1000) ++ zone_text off).
Proof. exact (format_ok L t off with_ms). Qed.
Print Assumptions C26_format.

(* Moments before 1970 or after 9998, and offsets of a day or more *)
Theorem C26_format_limits L t off with_ms :
  (t < 0 -> chrono_format L t off with_ms = Ok (date_text 0 1 1 0 0 0 ++ fraction_text with_ms 0 ++ zone_text 0))
  /\ (first_of_9999 <= t -> chrono_format L t off with_ms = Ok (date_text 9999 1 1 0 0 0 ++ fraction_text with_ms 0 ++ zone_text 0)).
Proof. exact (format_limits L t off with_ms). Qed.
Print Assumptions C26_format_limits.
Theorem C26_format_throws L t off with_ms : 0 <= t < first_of_9999 -> off <= -1440 \/ 1440 <= off ->
  chrono_format L t (Some off) with_ms = Throw.
Proof. exact (format_throws L t off with_ms). Qed.
Print Assumptions C26_format_throws.

(* Which texts are read, and as what *)
Theorem C26_parse L text v : chrono_parse L text = Ok v <->
  exists y m d h mi s ms off, stamp text y m d h mi s ms off /\ limited (when L y m d h mi s ms off) v.
Proof. exact (parse_exact L text v). Qed.
Print Assumptions C26_parse.
Theorem C26_moment L text t y m d h mi s ms o : calendar L -> stamp text y m d h mi s ms (Some o) -> instant t (y, m, d) h mi s ->
  exists v, chrono_parse L text = Ok v /\ limited (1000 * (t - 60 * o) + ms) v.
Proof. exact (read_moment L text t y m d h mi s ms o). Qed.
Print Assumptions C26_moment.

(* The reader leaves the string exactly if it ends where two digits are due;
   it does so for the empty string. *)
Theorem C26_overrun L text : chrono_parse L text = UB <-> cut_short text.
Proof. exact (parse_overrun L text). Qed.
Print Assumptions C26_overrun.
Theorem C26_defined_refuted : exists text, forall L, chrono_parse L text = UB.
Proof. exact (ex_intro _ [] empty_overrun). Qed.
Print Assumptions C26_defined_refuted.

(* There and back *)
Theorem C26_round_trip L t off with_ms : calendar L -> 0 <= t < first_of_9999 -> -1440 < off < 1440 ->
  exists text, chrono_format L t (Some off) with_ms = Ok text /\ chrono_parse L text = Ok (if with_ms then t else t - t mod 1000).
Proof. exact (round_trip L t off with_ms). Qed.
Print Assumptions C26_round_trip.
Theorem C26_round_trip_limits L t off with_ms : calendar L -> t < 0 \/ first_of_9999 <= t ->
  exists text, chrono_format L t off with_ms = Ok text /\ chrono_parse L text = Ok (if t <? 0 then int64_min else int64_max).
Proof. exact (round_trip_limits L t off with_ms). Qed.
Print Assumptions C26_round_trip_limits.

(* In local time this holds if the zone is a number of whole minutes from UTC
   at that moment, and not otherwise. *)
Theorem C26_local L t o with_ms : calendar L -> 0 <= t < first_of_9999 -> -1440 < o < 1440 ->
  localtime L (t / 1000) = (gmtime L (t / 1000 + 60 * o), 60 * o) ->
  exists text, chrono_format L t None with_ms = Ok text /\ chrono_parse L text = Ok (if with_ms then t else t - t mod 1000).
Proof. exact (local_round_trip L t o with_ms). Qed.
Print Assumptions C26_local.
Theorem C26_local_refuted : exists L t text, calendar L /\ 0 <= t < first_of_9999
  /\ (forall u, localtime L u = (gmtime L (u - 2670), -2670))
  /\ chrono_format L t None true = Ok text /\ chrono_parse L text = Ok (t - 30000).
Proof. exact local_refuted. Qed.
Print Assumptions C26_local_refuted.

Example C26_ex_calendar : calendar toy /\ day_no 0 (1970, 1, 1) /\ valid_date (2024, 2, 29).
Proof. split; [exact toy_calendar|]. split; [constructor | vm_compute; repeat split; congruence]. Qed.
Example C26_ex_format :
  chrono_format toy 1709210096789 (Some 0) true = Ok (str "2024-02-29 12:34:56.789 UTC")
  /\ chrono_format toy 1709210096789 (Some (-570)) false = Ok (str "2024-02-29 03:04:56 -0930")
  /\ chrono_format toy (-1) None true = Ok (str "0000-01-01 00:00:00.000 UTC")
  /\ chrono_format toy 253370764800000 None false = Ok (str "9999-01-01 00:00:00 UTC").
Proof. vm_compute. auto. Qed.
Example C26_ex_parse :
  chrono_parse toy (str "  2024-02-29 12:34:56.7891 GMT ") = Ok 1709210096789
  /\ chrono_parse toy (str "2024-02-29 03:04:56 -0930") = Ok 1709210096000
  /\ chrono_parse toy (str "1969-12-31 23:59:59 UTC") = Ok int64_min
  /\ chrono_parse toy (str "2024-02-29T12:34:56") = Throw
  /\ chrono_parse toy (str "2024-02-29 12:34:") = UB.
Proof. vm_compute. auto 6. Qed.
