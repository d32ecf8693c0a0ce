(* The formatting of template strings and of log records:
   asteria/rocket/tinyfmt.hpp:655-868 formatv, asteria/rocket/details/tinyfmt.ipp,
   asteria/src/library/string.cpp:1650-1671 std.string.format,
   asteria/src/library/debug.cpp:11-33 std.debug.logf,
   asteria/src/utils.cpp:50-154 write_log_to_stderr.

   Simplifications.  Only char is modelled.  A pointer into the template is the list of the
   bytes from there to the terminator, which is not in the list.  The clock, the time zone and
   errno do not change during a call.  The sink is a tinyfmt_str: what is put is appended.
   What an argument prints is a list of bytes that does not depend on the sink. *)
From Verif Require Import Base Text Monad NumPutModel ValueModel.

Local Open Scope Z_scope.

Definition to_u32 (z : Z) : Z := z mod 2 ^ 32.
Definition uint32_max : Z := 4294967295.

(* ascii_numput.cpp:1415-1433, put_DU *)
Definition put_DU (value precision : Z) : outcome bytes :=
  if (precision =? 1) && (value <? 2048) then small_decimal value
  else write_digits_backwards (Z.min precision 20) 10 value.

(* struct tm, as far as it is used *)
Record tm := Tm { tm_year : Z; tm_mon : Z; tm_mday : Z; tm_hour : Z; tm_min : Z; tm_sec : Z;
                  tm_gmtoff : Z }.

(* what is read from the system: errno, strerror_r(), clock_gettime(), localtime_r() and
   gmtime_r() of the current time *)
Record system := Sys { errno : Z; strerror : bytes; tv_nsec : Z; local_tm : tm; utc_tm : tm }.

(* memcpy(stor + off, data, n) *)
Definition memcpy (stor : bytes) (off : Z) (data : bytes) (n : Z) : outcome bytes :=
  if (off <? 0) || (Z.of_nat (length stor) <? off + n) || (Z.of_nat (length data) <? n) then UB
  else Ok (firstn (Z.to_nat off) stor ++ firstn (Z.to_nat n) data ++
           skipn (Z.to_nat (off + n)) stor).

(* tinyfmt.ipp:43-81, do_format_time_iso; the array has its terminator as 36th element *)
Definition format_time_iso (t : tm) (nsec : Z) : outcome bytes :=
  let stemp := str "2014-09-26 00:58:26.123456789 +0000" ++ [0] in
  let date := to_u32 (to_u32 (tm_year t) + 1900) in
  let date := to_u64 (date * 1000) in
  let date := to_u64 (date + to_u32 (to_u32 (tm_mon t) + 1)) in
  let date := to_u64 (date * 1000) in
  let date := to_u64 (date + to_u32 (tm_mday t)) in
  let date := to_u64 (date * 1000) in
  let date := to_u64 (date + to_u32 (tm_hour t)) in
  let date := to_u64 (date * 1000) in
  let date := to_u64 (date + to_u32 (tm_min t)) in
  let date := to_u64 (date * 1000) in
  let date := to_u64 (date + to_u32 (tm_sec t)) in
  do nump <- put_DU date 19 ;
  do stemp <- memcpy stemp 0 nump 19 ;
  do stemp <- memcpy stemp 4 [45] 1 ;
  do stemp <- memcpy stemp 7 [45] 1 ;
  do stemp <- memcpy stemp 10 [32] 1 ;
  do stemp <- memcpy stemp 13 [58] 1 ;
  do stemp <- memcpy stemp 16 [58] 1 ;
  do nump <- put_DU (to_u32 nsec) 9 ;
  do stemp <- memcpy stemp 20 nump 9 ;
  do stemp <-
    (if tm_gmtoff t =? 0 then memcpy stemp 30 (str "UTC" ++ [0]) 4
     else
       do nump <- put_DI (Z.quot (tm_gmtoff t) 3600 * 100 + Z.rem (Z.quot (tm_gmtoff t) 60) 60) 4 ;
       let n := Z.of_nat (length nump) in
       memcpy stemp (35 - n) nump n) ;
  Ok (firstn 35 stemp).

(* tinyfmt.ipp:19-26 do_format_errno *)
Definition format_errno (s : system) : outcome bytes := put_DI (errno s) 1.

(* the loops at tinyfmt.hpp:700-701 and 758-759: the bytes up to the terminator or [stop],
   and where they end *)
Fixpoint run_to (stop : Z) (next : bytes) : bytes * bytes :=
  match next with
  | [] => ([], [])
  | c :: p =>
    if (c =? 0) || (c =? stop) then ([], next)
    else let (run, q) := run_to stop p in (c :: run, q)
  end.

(* *next *)
Definition peek (next : bytes) : Z := match next with [] => 0 | c :: _ => c end.

(* tinyfmt.hpp:817-831: the number in a composite placeholder *)
Fixpoint index_of (base : bytes) (iarg : Z) : Z :=
  match base with
  | [] => iarg
  | c :: p =>
    if (c <? 48) || (c >? 57) then uint32_max
    else if iarg >=? 65535 then uint32_max
    else index_of p (to_u32 (to_u32 (iarg * 10) + (c - 48)))
  end.

(* tinyfmt.hpp:735-748 and 833-845 *)
Definition put_arg (stempl : bytes) (insts : list bytes) (iarg : Z) : outcome bytes :=
  if iarg =? 0 then Ok (fst (run_to 0 stempl))
  else if iarg <=? Z.of_nat (length insts) then
    match nth_error insts (Z.to_nat (iarg - 1)) with
    | Some text => Ok text
    | None => UB
    end
  else Ok (str "(no arg)").

Fixpoint bytes_eqb (a b : bytes) : bool :=
  match a, b with
  | [], [] => true
  | x :: a, y :: b => (x =? y) && bytes_eqb a b
  | _, _ => false
  end.

(* tinyfmt.hpp:766-846: what the composite placeholder [name] puts *)
Definition put_composite (s : system) (stempl : bytes) (insts : list bytes) (name : bytes)
  : outcome bytes :=
  if bytes_eqb name (str "errno") then format_errno s
  else if bytes_eqb name (str "errno:str") then Ok (strerror s)
  else if bytes_eqb name (str "errno:full") then
    do n <- format_errno s ;
    Ok (strerror s ++ str " (errno " ++ n ++ str ")")
  else if bytes_eqb name (str "time") then format_time_iso (local_tm s) (tv_nsec s)
  else if bytes_eqb name (str "time:utc") then format_time_iso (utc_tm s) (tv_nsec s)
  else if bytes_eqb name [] then Ok []
  else put_arg stempl insts (index_of name 0).

(* tinyfmt.hpp:686-859, formatv.  Every round of the outer loop consumes at least one byte
   of the template; UB if the fuel is used up. *)
Fixpoint formatv_loop (fuel : nat) (s : system) (stempl : bytes) (insts : list bytes)
  (next : bytes) : outcome bytes :=
  match fuel with
  | O => UB
  | S fuel =>
    let (run, next) := run_to 36 next in
    if peek next =? 0 then Ok run
    else
      let next := tl next in
      let c := peek next in
      do r <-
        (if c =? 0 then Throw
         else if c =? 36 then Ok ([36], next)
         else if (48 <=? c) && (c <=? 57) then
           do t <- put_arg stempl insts (c - 48) ; Ok (t, next)
         else if c =? 123 then
           let (name, next) := run_to 125 (tl next) in
           if peek next =? 0 then Throw
           else do t <- put_composite s stempl insts name ; Ok (t, next)
         else Throw) ;
      do rest <- formatv_loop fuel s stempl insts (tl (snd r)) ;
      Ok (run ++ fst r ++ rest)
  end.

Definition formatv (s : system) (stempl : bytes) (insts : list bytes) : outcome bytes :=
  formatv_loop (S (length stempl)) s stempl insts stempl.

(* cow_string.hpp:1168-1178, safe_c_str *)
Definition safe_c_str (text : bytes) : outcome bytes :=
  if Z.of_nat (length (fst (run_to 0 text))) =? Z.of_nat (length text) then Ok text else Throw.

Section Print.
  (* Value::print_to, value.cpp:420-535 *)
  Variable print_to : value -> bytes.

  (* string.cpp:1657-1663 and debug.cpp:18-24, the callback *)
  Definition insert (v : value) : bytes :=
    match v with VStr s => s | _ => print_to v end.

  Definition string_format (s : system) (templ : bytes) (values : list value) : outcome bytes :=
    do stempl <- safe_c_str templ ;
    formatv s stempl (map insert values).
End Print.

(* utils.cpp:96-142: what a byte of the message becomes *)
Definition neutralize (c : Z) : bytes :=
  match c with
  | 0 => str "[NUL]" | 1 => str "[SOH]" | 2 => str "[STX]" | 3 => str "[ETX]"
  | 4 => str "[EOT]" | 5 => str "[ENQ]" | 6 => str "[ACK]" | 7 => str "[BEL]"
  | 8 => str "[BS]" | 9 => [9] | 10 => [27; 69; 9] | 11 => str "[VT]"
  | 12 => str "[FF]" | 13 => [] | 14 => str "[SO]" | 15 => str "[SI]"
  | 16 => str "[DLE]" | 17 => str "[DC1]" | 18 => str "[DC2]" | 19 => str "[DC3]"
  | 20 => str "[DC4]" | 21 => str "[NAK]" | 22 => str "[SYN]" | 23 => str "[ETB]"
  | 24 => str "[CAN]" | 25 => str "[EM]" | 26 => str "[SUB]" | 27 => str "[ESC]"
  | 28 => str "[FS]" | 29 => str "[GS]" | 30 => str "[RS]" | 31 => str "[US]"
  | 127 => str "[DEL]"
  | _ => [c]
  end.

(* utils.cpp:145, data.erase(data.rfind_not_of(" \f\n\r\t\v") + 1) *)
Definition is_blank (c : Z) : bool :=
  (c =? 32) || (c =? 12) || (c =? 10) || (c =? 13) || (c =? 9) || (c =? 11).
Fixpoint skip_blank (l : bytes) : bytes :=
  match l with
  | c :: p => if is_blank c then skip_blank p else l
  | [] => []
  end.
Definition erase_trailing (data : bytes) : bytes := rev (skip_blank (rev data)).

(* data.append(nump.data() + off, n) *)
Definition part (nump : bytes) (off n : Z) : outcome bytes :=
  if Z.of_nat (length nump) <? off + n then UB
  else Ok (firstn (Z.to_nat n) (skipn (Z.to_nat off) nump)).

(* utils.cpp:57-86: the timestamp *)
Definition log_time (t : tm) (nsec : Z) : outcome bytes :=
  let datetime := to_u32 (to_u32 (tm_year t) + 1900) in
  let datetime := to_u64 (datetime * 100) in
  let datetime := to_u64 (datetime + to_u32 (to_u32 (tm_mon t) + 1)) in
  let datetime := to_u64 (datetime * 100) in
  let datetime := to_u64 (datetime + to_u32 (tm_mday t)) in
  let datetime := to_u64 (datetime * 100) in
  let datetime := to_u64 (datetime + to_u32 (tm_hour t)) in
  let datetime := to_u64 (datetime * 100) in
  let datetime := to_u64 (datetime + to_u32 (tm_min t)) in
  let datetime := to_u64 (datetime * 100) in
  let datetime := to_u64 (datetime + to_u32 (tm_sec t)) in
  do nump <- put_DU datetime 1 ;
  do yy <- part nump 0 4 ;
  do mo <- part nump 4 2 ;
  do dd <- part nump 6 2 ;
  do hh <- part nump 8 2 ;
  do mi <- part nump 10 2 ;
  do ss <- part nump 12 2 ;
  do nump <- put_DU (to_u32 nsec) 9 ;
  do ns <- part nump 0 9 ;
  Ok (yy ++ [45] ++ mo ++ [45] ++ dd ++ [32] ++ hh ++ [58] ++ mi ++ [58] ++ ss ++
      [46] ++ ns ++ [32]).

(* utils.cpp:50-154, write_log_to_stderr: the bytes given to write() *)
Definition log_record (s : system) (file : bytes) (line : Z) (func msg : bytes) : outcome bytes :=
  do time <- log_time (local_tm s) (tv_nsec s) ;
  do nump <- put_DU (to_u64 line) 1 ;
  let data := time ++ [40] ++ func ++ str ") @ " ++ file ++ [58] ++ nump ++ [27; 69; 9] in
  let data := data ++ concat (map neutralize msg) in
  Ok (erase_trailing data ++ [27; 69; 10]).

(* debug.cpp:11-33, std.debug.logf: the bytes written, before the result of write() *)
Definition debug_logf (print_to : value -> bytes) (s : system) (file : bytes) (line : Z)
  (templ : bytes) (values : list value) : outcome bytes :=
  do msg <- string_format print_to s templ values ;
  log_record s file line (str "std_debug_logf") msg.
