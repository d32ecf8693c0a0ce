(* Searching in strings.
   Sources: asteria/src/library/string.cpp, asteria/rocket/cow_string.hpp,
   asteria/rocket/details/cow_string.ipp.

   A range of a string is the list of its bytes; an iterator is an offset in
   that range.  Iterating backwards is iterating over the reversed list. *)
From Verif Require Import Base Monad SeqModel.

(* Reading outside the range is UB. *)
Definition rd (t : bytes) (i : Z) : outcome Z :=
  if 0 <=? i then match nth_error t (Z.to_nat i) with Some x => Ok x | None => UB end else UB.

(* ---- string.cpp:62-163 BMH_Searcher ---- *)

Definition upd (tbl : Z -> Z) (c v : Z) : Z -> Z := fun x => if x =? c then v else tbl x.

(* string.cpp:82-83: the second loop of the constructor, at index k; p is the
   rest of the pattern.  The table of 256 entries is a function. *)
Fixpoint bcr_fill (p : bytes) (plen k : Z) (tbl : Z -> Z) : Z -> Z :=
  match p with
  | [] => tbl
  | c :: p => if k =? plen - 1 then tbl else bcr_fill p plen (k + 1) (upd tbl c (plen - 1 - k))
  end.

(* string.cpp:71-84: the constructor; throws when the pattern is empty *)
Definition bmh_table (p : bytes) : outcome (Z -> Z) :=
  let plen := zlen p in
  if plen <=? 0 then Throw else Ok (bcr_fill p plen 0 (fun _ => plen)).

(* a 64-bit little-endian word in memory; the code notes that endianness does
   not matter *)
Fixpoint le_word (l : bytes) : Z :=
  match l with [] => 0 | b :: l => b + 256 * le_word l end.

(* string.cpp:87-105 do_xload_word; rv selects the overload for reverse
   iterators, which reads the word ending at the cursor *)
Definition load_word (rv : bool) (t : bytes) (cur : Z) : outcome Z :=
  do w <- subrange t cur (cur + 8); Ok (le_word (if rv then rev w else w)).

(* string.cpp:120: UINTPTR_MAX / 0xFF *)
Definition bmask : Z := (2 ^ 64 - 1) / 0xFF.

(* string.cpp:135 *)
Definition may_have_zero (w : Z) : bool :=
  let m7 := Z.shiftl bmask 7 mod 2 ^ 64 in
  negb (Z.land (Z.land ((w - bmask) mod 2 ^ 64) (Z.lxor w m7)) m7 =? 0).

(* string.cpp:127-140: the loop looking for the first pattern byte *)
Fixpoint skip_words (fuel : nat) (rv : bool) (t : bytes) (bcomp final cur : Z) : outcome Z :=
  if 8 <=? final - cur then
    match fuel with
    | O => UB
    | S fuel =>
      do w <- load_word rv t cur;
      if may_have_zero (Z.lxor w bcomp) then Ok cur
      else skip_words fuel rv t bcomp final (cur + 8)
    end
  else Ok cur.

(* string.cpp:147-152: the comparison at one candidate.  None = found, Some =
   the shift. *)
Fixpoint bmh_compare (fuel : nat) (tbl : Z -> Z) (t p : bytes) (cur tml off : Z) : outcome (option Z) :=
  match fuel with
  | O => UB
  | S fuel =>
    do a <- rd t (cur + tml);
    do b <- rd p tml;
    if a =? b then
      let tml := tml - 1 in
      if tml <? 0 then Ok None
      else
        do c <- rd t (cur + tml);
        bmh_compare fuel tbl t p cur tml (Z.max off (tbl c - (zlen p - 1 - tml)))
    else Ok (Some off)
  end.

(* string.cpp:142-156: the second loop *)
Fixpoint bmh_scan (fuel : nat) (tbl : Z -> Z) (t p : bytes) (final cur : Z) : outcome (option Z) :=
  if 0 <=? final - cur then
    match fuel with
    | O => UB
    | S fuel =>
      let tml := zlen p - 1 in
      do c <- rd t (cur + tml);
      do r <- bmh_compare (length p) tbl t p cur tml (tbl c);
      match r with
      | None => Ok (Some cur)
      | Some off => do cur <- iter (zlen t) (cur + off); bmh_scan fuel tbl t p final cur
      end
    end
  else Ok None.

(* string.cpp:108-162 search_opt.  Running out of fuel shows up as UB, which
   the theorems exclude. *)
Definition search_opt (tbl : Z -> Z) (rv : bool) (t p : bytes) : outcome (option Z) :=
  let plen := zlen p in
  if zlen t <? plen then Ok None
  else
    do p0 <- rd p 0;
    let bcomp := (bmask * p0) mod 2 ^ 64 in
    let final := zlen t - plen in
    do cur <- skip_words (length t) rv t bcomp final 0;
    bmh_scan (S (length t)) tbl t p final cur.

(* string.cpp:165-181 do_find_opt *)
Definition do_find_opt (rv : bool) (t p : bytes) : outcome (option Z) :=
  match p with
  | [] => Ok (Some 0)
  | _ =>
    match t with
    | [] => Ok None
    | _ => do tbl <- bmh_table p; search_opt tbl rv t p
    end
  end.

(* string.cpp:795-801 std_string_find *)
Definition string_find (text : bytes) (from len : option Z) (pattern : bytes) : outcome (option Z) :=
  do (b, e) <- do_slice (zlen text) from len;
  do r <- subrange text b e;
  do q <- do_find_opt false r pattern;
  Ok (match q with Some k => Some (b + k) | None => None end).

(* string.cpp:803-811 std_string_rfind: `text.rend() - *qit` is the offset of
   the base of the reverse iterator *)
Definition string_rfind (text : bytes) (from len : option Z) (pattern : bytes) : outcome (option Z) :=
  do (b, e) <- do_slice (zlen text) from len;
  do r <- subrange text b e;
  do q <- do_find_opt true (rev r) (rev pattern);
  Ok (match q with Some k => Some (e - k - zlen pattern) | None => None end).

(* ---- string.cpp:813-845 std_string_replace ---- *)

(* string.cpp:826-830 *)
Fixpoint insert_beside (rep res s : bytes) : bytes :=
  match s with [] => res | c :: s => insert_beside rep (res ++ rep ++ [c]) s end.

(* string.cpp:837-841, with the append after the loop *)
Fixpoint replace_loop (fuel : nat) (tbl : Z -> Z) (text pattern rep : bytes) (first last : Z) (res : bytes)
    : outcome bytes :=
  match fuel with
  | O => UB
  | S fuel =>
    do r <- subrange text first last;
    do q <- search_opt tbl false r pattern;
    match q with
    | None => do s <- subrange text first (zlen text); Ok (res ++ s)
    | Some k =>
      do s <- subrange text first (first + k);
      replace_loop fuel tbl text pattern rep (first + k + zlen pattern) last (res ++ s ++ rep)
    end
  end.

Definition string_replace (text : bytes) (from len : option Z) (pattern rep : bytes) : outcome bytes :=
  do (b, e) <- do_slice (zlen text) from len;
  if b =? e then Ok text
  else
    do res <- subrange text 0 b;
    match pattern with
    | [] =>
      do r <- subrange text b e;
      do s <- subrange text e (zlen text);
      Ok (insert_beside rep res r ++ rep ++ s)
    | _ =>
      do tbl <- bmh_table pattern;
      replace_loop (S (length text)) tbl text pattern rep b e res
    end.

(* ---- explode and implode ---- *)

(* string.cpp:1068-1075 *)
Fixpoint explode_bytes (rlimit : Z) (segs : list bytes) (t : bytes) : list bytes :=
  match t with
  | [] => segs
  | c :: t' =>
    if zlen segs + 1 <? rlimit then explode_bytes rlimit (segs ++ [[c]]) t' else segs ++ [t]
  end.

(* string.cpp:1082-1087; tcur is the offset in the text *)
Fixpoint explode_loop (fuel : nat) (tbl : Z -> Z) (text delim : bytes) (rlimit tcur : Z) (segs : list bytes)
    : outcome (list bytes) :=
  match fuel with
  | O => UB
  | S fuel =>
    do r <- subrange text tcur (zlen text);
    if zlen segs + 1 <? rlimit then
      do q <- search_opt tbl false r delim;
      match q with
      | None => Ok (segs ++ [r])
      | Some k =>
        do s <- subrange text tcur (tcur + k);
        explode_loop fuel tbl text delim rlimit (tcur + k + zlen delim) (segs ++ [s])
      end
    else Ok (segs ++ [r])
  end.

(* string.cpp:1046-1090 std_string_explode *)
Definition string_explode (text : bytes) (delim : option bytes) (limit : option Z) : outcome (list bytes) :=
  do rlimit <- match limit with
               | Some l => if l <=? 0 then Throw else Ok l
               | None => Ok (2 ^ 64 - 1)
               end;
  match text with
  | [] => Ok []
  | _ =>
    match delim with
    | None | Some [] => Ok (explode_bytes rlimit [] text)
    | Some d => do tbl <- bmh_table d; explode_loop (S (length text)) tbl text d rlimit 0 []
    end
  end.

(* string.cpp:1103-1107 *)
Fixpoint implode_loop (delim : option bytes) (text : bytes) (segs : list bytes) : bytes :=
  match segs with
  | [] => text
  | s :: segs =>
    let text := match delim with Some d => text ++ d | None => text end in
    implode_loop delim (text ++ s) segs
  end.

(* string.cpp:1091-1109 std_string_implode; the segments are strings *)
Definition string_implode (segs : list bytes) (delim : option bytes) : bytes :=
  match segs with [] => [] | s :: segs => implode_loop delim s segs end.

(* ---- cow_string.hpp: find and rfind of substrings ---- *)

(* cow_string.ipp:506-512: offsets of NT = 64 entries; off is `pcur - pbegin`
   after the increment and p the rest of the pattern *)
Fixpoint cow_offsets (p : bytes) (off : Z) (tbl : Z -> Z) : Z -> Z :=
  match p with
  | [] | [_] => tbl
  | c :: p => cow_offsets p (off + 1) (upd tbl (c mod 64) (off + 1))
  end.

(* cow_string.ipp:520-524: whether the pattern matches at tcomp *)
Fixpoint cow_match (t : bytes) (tcomp : Z) (p : bytes) : outcome bool :=
  match p with
  | [] => Ok true
  | c :: p => do a <- rd t tcomp; if a =? c then cow_match t (tcomp + 1) p else Ok false
  end.

(* cow_string.ipp:514-532.  `wrap` truncates a table entry to the type of the
   entries (cow_string.hpp:1278-1283: uint8_t when n <= 0x100). *)
Fixpoint cow_search_loop (fuel : nat) (tbl : Z -> Z) (t p : bytes) (tcur : Z) : outcome (option Z) :=
  match fuel with
  | O => UB
  | S fuel =>
    do m <- cow_match t tcur p;
    if m then Ok (Some tcur)
    else
      do c <- rd t (tcur + zlen p - 1);
      let tcur := tcur + zlen p - tbl (c mod 64) in
      if zlen p <=? zlen t - tcur then cow_search_loop fuel tbl t p tcur else Ok None
  end.

Definition cow_search (t p : bytes) : outcome (option Z) :=
  let wrap := fun x => if zlen p <=? 0x100 then x mod 2 ^ 8 else x mod 2 ^ 64 in
  let tbl := cow_offsets p 0 (fun _ => 0) in
  cow_search_loop (S (length t)) (fun c => wrap (tbl c)) t p 0.

(* cow_string.hpp:1258-1284 find(from, s, n); None is npos *)
Definition cow_find (t : bytes) (from : Z) (p : bytes) : outcome (option Z) :=
  if zlen t <? from then Ok None
  else if zlen p =? 0 then Ok (Some from)
  else if zlen t - from <? zlen p then Ok None
  else do r <- subrange t from (zlen t); cow_search r p.

(* cow_string.hpp:1360-1384 rfind(to, s, n); the not-a-position `d - npos` of
   the search makes the result npos *)
Definition cow_rfind (t : bytes) (to : Z) (p : bytes) : outcome (option Z) :=
  if zlen t <? zlen p then Ok None
  else if zlen p =? 0 then Ok (Some (Z.min to (zlen t)))
  else
    let d := Z.min to (zlen t - zlen p) in
    do r <- subrange t 0 (d + zlen p);
    do q <- cow_search (rev r) (rev p);
    Ok (match q with Some k => Some (d - k) | None => None end).
