(* Dates as text: library/chrono.cpp.

   Simplifications.
   - The functions of the C library (gmtime_r, timegm, localtime_r, mktime) are
     an argument; what is assumed about the first two is in ChronoSpec.  A `tm`
     has only the members that are used.
   - s_2digit[k] (lines 14-26) is the two decimal digits of k; any other index
     than 0 to 99 is undefined behaviour.
   - The read pointer of std_chrono_parse is the list of the bytes from there to
     the end of the string, or None for a null pointer.  At the end there is the
     terminator; the byte after that does not belong to the string, and reading
     it is undefined behaviour.
   - Numbers that are sums of two-digit fields do not reach the limits of
     uint32_t; what timegm and mktime return, times 1000, is assumed to fit in
     an int64_t. *)
From Verif Require Import Base Monad Text.

Record tm := mk_tm { tm_year : Z; tm_mon : Z; tm_mday : Z; tm_hour : Z; tm_min : Z; tm_sec : Z }.
Record libc := mk_libc {
  gmtime : Z -> tm;
  timegm : tm -> Z;
  localtime : Z -> tm * Z;       (* and tm_gmtoff *)
  mktime : tm -> Z
}.

Definition u32 (z : Z) : Z := z mod 2 ^ 32.
Definition max_time : Z := 253370764800000.

(* xmemrpcpy(wptr, s_2digit[k], 2) *)
Definition s_2digit (k : Z) : outcome bytes :=
  if (0 <=? k) && (k <? 100) then Ok [48 + k / 10; 48 + k mod 10] else UB.

Record broken := mk_broken {
  year : Z; mon : Z; day : Z; hour : Z; min : Z; sec : Z; ms : Z;
  gmtoff_sign : Z; gmtoff_abs : Z
}.

(* chrono.cpp:31-75: the decomposed parts *)
Definition break_down (L : libc) (time_point : Z) (utc_offset : option Z) : outcome broken :=
  if time_point <? 0 then Ok (mk_broken 0 1 1 0 0 0 0 0 0)
  else if max_time <=? time_point then Ok (mk_broken 9999 1 1 0 0 0 0 0 0)
  else
    let fields (tr : tm) :=
      mk_broken (u32 (tm_year tr + 1900)) (u32 (tm_mon tr + 1)) (u32 (tm_mday tr))
        (u32 (tm_hour tr)) (u32 (tm_min tr)) (u32 (tm_sec tr)) (time_point mod 1000) in
    match utc_offset with
    | None =>
      let (tr, gmtoff) := localtime L (time_point / 1000) in
      Ok (fields tr (if gmtoff <? 0 then -1 else 1) (u32 (Z.abs gmtoff) / 60))
    | Some off =>
      if (off <=? -1440) || (1440 <=? off) then Throw
      else Ok (fields (gmtime L (time_point / 1000 + off * 60)) (if off <? 0 then -1 else 1) (Z.abs off))
    end.

(* chrono.cpp:77-115: the string *)
Definition put_parts (b : broken) (with_ms : bool) : outcome bytes :=
  do y1 <- s_2digit (year b / 100) ;
  do y2 <- s_2digit (year b mod 100) ;
  do mo <- s_2digit (mon b) ;
  do dd <- s_2digit (day b) ;
  do hh <- s_2digit (hour b) ;
  do mi <- s_2digit (min b) ;
  do ss <- s_2digit (sec b) ;
  do fr <- (if with_ms then
              do m1 <- s_2digit (ms b / 100) ;
              do m2 <- s_2digit (ms b mod 100) ;
              Ok (46 :: tl m1 ++ m2)       (* wptr[-2] = '.' *)
            else Ok []) ;
  do zo <- (if gmtoff_abs b =? 0 then Ok (str " UTC")
            else
              do z1 <- s_2digit (gmtoff_abs b / 60) ;
              do z2 <- s_2digit (gmtoff_abs b mod 60) ;
              Ok ((if gmtoff_sign b <? 0 then str " -" else str " +") ++ z1 ++ z2)) ;
  Ok (y1 ++ y2 ++ [45] ++ mo ++ [45] ++ dd ++ [32] ++ hh ++ [58] ++ mi ++ [58] ++ ss ++ fr ++ zo).

(* chrono.cpp:28-118 do_format_with_ms; std_chrono_format and _format_ms *)
Definition chrono_format (L : libc) (time_point : Z) (utc_offset : option Z) (with_ms : bool) : outcome bytes :=
  do b <- break_down L time_point utc_offset ; put_parts b with_ms.

(* ---------- reading ---------- *)
Definition ptr := option bytes.

Definition peek (s : bytes) : Z := hd 0 s.

(* chrono.cpp:120-138 do_match with one character *)
Definition match_char (p : ptr) (c : Z) : ptr :=
  match p with
  | None => None
  | Some s => if peek s =? c then Some (tl s) else None
  end.

Definition is_digit (c : Z) : bool := (48 <=? c) && (c <=? 57).

(* chrono.cpp:140-164 do_match with s_2digit: memcmp reads two bytes *)
Definition match_two (p : ptr) (v : Z) : outcome (ptr * Z) :=
  match p with
  | None => Ok (None, v)
  | Some [] => UB
  | Some [_] => Ok (None, v)
  | Some (a :: b :: s) =>
    if is_digit a && is_digit b then Ok (Some s, v + (10 * (a - 48) + (b - 48)))
    else Ok (None, v)
  end.

Fixpoint skip_spaces (s : bytes) : bytes :=
  match s with
  | [] => s
  | c :: s' => if c =? 32 then skip_spaces s' else s
  end.

(* chrono.cpp:210-219: fractional seconds *)
Fixpoint fraction (s : bytes) (v weight : Z) : bytes * Z :=
  match s with
  | [] => (s, v)
  | c :: s' => if is_digit c then fraction s' (v + (c - 48) * weight) (weight / 10) else (s, v)
  end.
Definition match_fraction (p : ptr) : ptr * Z :=
  match p with
  | None => (p, 0)
  | Some s => if peek s =? 46 then let (s', v) := fraction (tl s) 0 100 in (Some s', v) else (p, 0)
  end.

Fixpoint starts (w s : bytes) : bool :=
  match w, s with
  | [], _ => true
  | a :: w', b :: s' => (a =? b) && starts w' s'
  | _, [] => false
  end.

(* chrono.cpp:221-241: the zone *)
Definition match_zone (p : ptr) : outcome (ptr * Z * Z) :=
  match p with
  | None => Ok (p, 0, 0)
  | Some r =>
    if peek r =? 32 then
      let s := tl r in
      if starts (str "GMT") s || starts (str "UTC") s then Ok (Some (skipn 3 s), 1, 0)
      else if (peek s =? 43) || (peek s =? 45) then
        let sg := if peek s =? 43 then 1 else -1 in
        do (p1, v1) <- match_two (Some (tl s)) 0 ;
        do (p2, v2) <- match_two p1 (v1 * 60) ;
        Ok (p2, sg, v2)
      else Ok (Some s, 0, 0)
    else Ok (p, 0, 0)
  end.

(* chrono.cpp:195-206 *)
Definition match_date (p : ptr) : outcome (ptr * (Z * Z * Z) * (Z * Z * Z)) :=
  do (p, y) <- match_two p 0 ;
  do (p, y) <- match_two p (y * 100) ;
  do (p, mo) <- match_two (match_char p 45) 0 ;
  do (p, d) <- match_two (match_char p 45) 0 ;
  do (p, h) <- match_two (match_char p 32) 0 ;
  do (p, mi) <- match_two (match_char p 58) 0 ;
  do (p, s) <- match_two (match_char p 58) 0 ;
  Ok (p, (y, mo, d), (h, mi, s)).

Definition clamp_time (t : Z) : Z :=
  if t <? 0 then int64_min else if max_time <=? t then int64_max else t.

(* chrono.cpp:182-276 std_chrono_parse *)
Definition chrono_parse (L : libc) (time_str : bytes) : outcome Z :=
  do (p, (y, mo, d), (h, mi, s)) <- match_date (Some (skip_spaces time_str)) ;
  let (p, ms) := match_fraction p in
  do (p, sg, off) <- match_zone p ;
  match p with
  | None => Throw
  | Some r =>
    match skip_spaces r with
    | _ :: _ => Throw
    | [] =>
      let tr := mk_tm (y - 1900) (mo - 1) d h mi s in
      Ok (clamp_time
            (if sg =? 0 then ms + mktime L tr * 1000
             else ms + timegm L tr * 1000 - sg * off * 60000))
    end
  end.
