(* The Gregorian calendar, and the form of dates as text. *)
From Verif Require Import Base Text ChronoModel.

(* ---------- the calendar ---------- *)
Definition date := (Z * Z * Z)%type.         (* year, month, day *)
Definition leap (y : Z) : bool :=
  ((y mod 4 =? 0) && negb (y mod 100 =? 0)) || (y mod 400 =? 0).
Definition month_length (y m : Z) : Z :=
  if m =? 2 then if leap y then 29 else 28
  else if (m =? 4) || (m =? 6) || (m =? 9) || (m =? 11) then 30 else 31.
Definition valid_date (D : date) : Prop :=
  let '(y, m, d) := D in 1 <= m <= 12 /\ 1 <= d <= month_length y m.
Definition tomorrow (D : date) : date :=
  let '(y, m, d) := D in
  if d <? month_length y m then (y, m, d + 1)
  else if m <? 12 then (y, m + 1, 1) else (y + 1, 1, 1).

(* day n, counted from 1970-01-01, is D *)
Inductive day_no : Z -> date -> Prop :=
| day_epoch : day_no 0 (1970, 1, 1)
| day_after n D : day_no n D -> day_no (n + 1) (tomorrow D)
| day_before n D : valid_date D -> day_no n (tomorrow D) -> day_no (n - 1) D.

(* The second `t`, counted from the beginning of 1970 without leap seconds, is
   on the date D at h:mi:s *)
Definition instant (t : Z) (D : date) (h mi s : Z) : Prop :=
  0 <= h <= 23 /\ 0 <= mi <= 59 /\ 0 <= s <= 59
  /\ exists n, day_no n D /\ t = 86400 * n + 3600 * h + 60 * mi + s.

(* What is assumed of the C library: gmtime_r and timegm compute this calendar
   where they are asked to *)
Definition calendar (L : libc) : Prop :=
  (forall t, -86400 <= t < 253370851200 -> exists y m d h mi s,
     instant t (y, m, d) h mi s /\ gmtime L t = mk_tm (y - 1900) (m - 1) d h mi s)
  /\ (forall t y m d h mi s, 0 <= y <= 9999 -> instant t (y, m, d) h mi s ->
     timegm L (mk_tm (y - 1900) (m - 1) d h mi s) = t).

(* ---------- text ---------- *)
(* two decimal digits *)
Definition two (k : Z) : bytes := [48 + k / 10; 48 + k mod 10].
Definition field (k : Z) : Prop := 0 <= k <= 99.
Definition date_text (y m d h mi s : Z) : bytes :=
  two (y / 100) ++ two (y mod 100) ++ str "-" ++ two m ++ str "-" ++ two d ++ str " "
  ++ two h ++ str ":" ++ two mi ++ str ":" ++ two s.
Definition three (k : Z) : bytes := (48 + k / 100) :: two (k mod 100).

(* the offset from UTC, in minutes *)
Definition zone_text (off : Z) : bytes :=
  if off =? 0 then str " UTC"
  else (if off <? 0 then str " -" else str " +") ++ two (Z.abs off / 60) ++ two (Z.abs off mod 60).

(* ---------- texts that are read ---------- *)
Definition spaces (w : bytes) : Prop := Forall (fun c => c = 32) w.
Definition digits (w : bytes) : Prop := Forall (fun c => 48 <= c <= 57) w.
(* Milliseconds: the first three digits count *)
Definition read_fraction (w : bytes) (v : Z) : Prop :=
  (w = [] /\ v = 0)
  \/ exists ds a b c, w = 46 :: ds /\ digits ds /\ firstn 3 (ds ++ str "000") = [48 + a; 48 + b; 48 + c]
     /\ v = 100 * a + 10 * b + c.
(* None: local time *)
Definition read_zone (w : bytes) (off : option Z) : Prop :=
  (w = [] /\ off = None)
  \/ ((w = str " UTC" \/ w = str " GMT") /\ off = Some 0)
  \/ exists h m, field h /\ field m
     /\ ((w = str " +" ++ two h ++ two m /\ off = Some (60 * h + m))
         \/ (w = str " -" ++ two h ++ two m /\ off = Some (- (60 * h + m)))).
Definition stamp (text : bytes) (y m d h mi s ms : Z) (off : option Z) : Prop :=
  0 <= y <= 9999 /\ field m /\ field d /\ field h /\ field mi /\ field s
  /\ exists a fr zo b, text = a ++ date_text y m d h mi s ++ fr ++ zo ++ b
     /\ spaces a /\ spaces b /\ read_fraction fr ms /\ read_zone zo off.

(* milliseconds since 1970 that can be represented; others become the least or
   the greatest integer *)
Definition first_of_9999 : Z := 253370764800000.
Definition limited (t v : Z) : Prop :=
  (t < 0 /\ v = int64_min) \/ (first_of_9999 <= t /\ v = int64_max) \/ (0 <= t < first_of_9999 /\ v = t).

(* a text that ends where two digits are expected *)
Definition cut_short (text : bytes) : Prop :=
  exists a w, text = a ++ w /\ spaces a
  /\ exists y1 y2 m d h mi s, field y1 /\ field y2 /\ field m /\ field d /\ field h /\ field mi /\ field s
  /\ (w = [] \/ w = two y1 \/ w = two y1 ++ two y2 ++ str "-"
      \/ w = two y1 ++ two y2 ++ str "-" ++ two m ++ str "-"
      \/ w = two y1 ++ two y2 ++ str "-" ++ two m ++ str "-" ++ two d ++ str " "
      \/ w = two y1 ++ two y2 ++ str "-" ++ two m ++ str "-" ++ two d ++ str " " ++ two h ++ str ":"
      \/ w = two y1 ++ two y2 ++ str "-" ++ two m ++ str "-" ++ two d ++ str " " ++ two h ++ str ":" ++ two mi ++ str ":"
      \/ exists fr v sg z zh, w = date_text (100 * y1 + y2) m d h mi s ++ fr ++ str " " ++ [sg] ++ z
         /\ read_fraction fr v /\ (sg = 43 \/ sg = 45) /\ field zh /\ (z = [] \/ z = two zh)).

Definition fraction_text (with_ms : bool) (ms : Z) : bytes := if with_ms then 46 :: three ms else [].

(* the moment, in milliseconds: the C library is asked about the date even if
   there is no such date *)
Definition when (L : libc) (y m d h mi s ms : Z) (off : option Z) : Z :=
  let tr := mk_tm (y - 1900) (m - 1) d h mi s in
  match off with
  | None => ms + 1000 * mktime L tr
  | Some o => ms + 1000 * timegm L tr - 60000 * o
  end.
