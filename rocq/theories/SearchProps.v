(* C17, C18, C45: searching, replacing and splitting strings *)
From Verif Require Import Base Text SeqModel SeqSpec SearchModel SearchSpec SearchProofs.

Theorem C17_find : forall text from len pat, fits text -> opt_int64 from -> opt_int64 len ->
  all_bytes text -> all_bytes pat ->
  exists r, string_find text from len pat = Ok r /\
    leftmost (occurs_in pat text (range_low (zlen text) from) (range_high (zlen text) from len)) r.
Proof. exact string_find_ok. Qed.
Print Assumptions C17_find.

Theorem C17_rfind : forall text from len pat, fits text -> opt_int64 from -> opt_int64 len ->
  all_bytes text -> all_bytes pat ->
  exists r, string_rfind text from len pat = Ok r /\
    rightmost (occurs_in pat text (range_low (zlen text) from) (range_high (zlen text) from len)) r.
Proof. exact string_rfind_ok. Qed.
Print Assumptions C17_rfind.

Example C17_ex_find : string_find (str "hello, hello world: ello w") None None (str "ello w") = Ok (Some 8).
Proof. vm_compute. reflexivity. Qed.
Example C17_ex_range : string_find (str "abcabcabc") (Some (-8)) (Some 4) (str "ca") = Ok (Some 2).
Proof. vm_compute. reflexivity. Qed.
Example C17_ex_none : string_find (str "abcabcabc") (Some (-8)) (Some 2) (str "ca") = Ok None.
Proof. vm_compute. reflexivity. Qed.
Example C17_ex_rfind : string_rfind (str "hello, hello world") None None (str "hello") = Ok (Some 7).
Proof. vm_compute. reflexivity. Qed.
Example C17_ex_empty : string_rfind (str "abc") (Some 1) (Some 1) [] = Ok (Some 2).
Proof. vm_compute. reflexivity. Qed.
(* the byte test of eight bytes at once may stop early: \x01 follows a match *)
Example C17_ex_early : may_have_zero (le_word [1; 2; 3; 4; 5; 6; 7; 8]) = false /\
  may_have_zero (le_word [0; 1; 3; 4; 5; 6; 7; 8]) = true.
Proof. vm_compute. auto. Qed.

Theorem C18_replace : forall text from len pat rep, fits text -> opt_int64 from -> opt_int64 len ->
  all_bytes text -> all_bytes pat -> pat <> [] ->
  let lo := range_low (zlen text) from in
  let hi := range_high (zlen text) from len in
  exists mid, substituted pat rep (window lo hi 0 text) mid /\
    string_replace text from len pat rep = Ok (window 0 lo 0 text ++ mid ++ window hi (zlen text) 0 text).
Proof. exact string_replace_ok. Qed.
Print Assumptions C18_replace.

Theorem C18_replace_unique : forall p r t x y, substituted p r t x -> substituted p r t y -> x = y.
Proof. exact (fun p r t x y H => substituted_fun p r t x H y). Qed.
Print Assumptions C18_replace_unique.

Theorem C18_replace_empty_pattern : forall text from len rep, fits text -> opt_int64 from -> opt_int64 len ->
  let lo := range_low (zlen text) from in
  let hi := range_high (zlen text) from len in
  string_replace text from len [] rep =
    Ok (if lo =? hi then text
        else window 0 lo 0 text ++ interleaved rep (window lo hi 0 text) ++ window hi (zlen text) 0 text).
Proof. exact string_replace_empty_ok. Qed.
Print Assumptions C18_replace_empty_pattern.

Theorem C18_implode_explode : forall text delim limit, fits text -> all_bytes text ->
  match delim with Some d => all_bytes d | None => True end -> opt_int64 limit ->
  match limit with Some l => 0 < l | None => True end ->
  exists l, string_explode text delim limit = Ok l /\ string_implode l delim = text /\
    zlen l <= match limit with Some l => l | None => 2 ^ 64 - 1 end.
Proof. exact explode_implode_ok. Qed.
Print Assumptions C18_implode_explode.

Theorem C18_explode_segments : forall text delim limit, fits text ->
  all_bytes text -> all_bytes delim -> delim <> [] -> text <> [] -> opt_int64 limit ->
  match limit with Some l => 0 < l | None => True end ->
  exists l, string_explode text (Some delim) limit = Ok l /\
    segmented delim (match limit with Some l => l | None => 2 ^ 64 - 1 end) text l.
Proof. exact explode_delim_ok. Qed.
Print Assumptions C18_explode_segments.

Theorem C18_implode : forall d l, string_implode l d = joined (match d with Some d => d | None => [] end) l.
Proof. exact implode_ok. Qed.
Print Assumptions C18_implode.

Example C18_ex_replace : string_replace (str "aaabaaaab") (Some 1) None (str "aa") (str "-") = Ok (str "a-b--b").
Proof. vm_compute. reflexivity. Qed.
Example C18_ex_empty : string_replace (str "abcd") (Some 1) (Some 2) [] (str "-") = Ok (str "a-b-c-d").
Proof. vm_compute. reflexivity. Qed.
Example C18_ex_explode : string_explode (str "a,,b,") (Some (str ",")) None =
  Ok [str "a"; []; str "b"; []].
Proof. vm_compute. reflexivity. Qed.
Example C18_ex_limit : string_explode (str "a,,b,c") (Some (str ",")) (Some 2) = Ok [str "a"; str ",b,c"].
Proof. vm_compute. reflexivity. Qed.
Example C18_ex_bytes : string_explode (str "abcd") None (Some 3) = Ok [str "a"; str "b"; str "cd"].
Proof. vm_compute. reflexivity. Qed.
Example C18_ex_zero : string_explode (str "abcd") None (Some 0) = Throw.
Proof. reflexivity. Qed.
Example C18_ex_implode : string_implode [str "a"; []; str "bc"] (Some (str ", ")) = str "a, , bc".
Proof. reflexivity. Qed.

Theorem C45_find_from_start : forall t p, fits t ->
  exists r, cow_find t 0 p = Ok r /\ leftmost (occurs p t) r.
Proof. exact cow_find_start. Qed.
Print Assumptions C45_find_from_start.

(* The result is relative to the start of the search. *)
Theorem C45_find_from_partial : forall t from p, fits t -> 0 <= from -> p <> [] ->
  exists r, cow_find t from p = Ok r /\
    leftmost (occurs_in p t from (zlen t)) (match r with Some k => Some (from + k) | None => None end).
Proof. exact cow_find_ok. Qed.
Print Assumptions C45_find_from_partial.

Theorem C45_find_from_refuted : exists t from p r, fits t /\ 0 <= from <= zlen t /\ p <> [] /\
  cow_find t from p = Ok (Some r) /\ ~ occurs p t r.
Proof. exact cow_find_refuted. Qed.
Print Assumptions C45_find_from_refuted.

Theorem C45_rfind : forall t to p, fits t -> 0 <= to ->
  exists r, cow_rfind t to p = Ok r /\ rightmost (fun k => occurs p t k /\ k <= to) r.
Proof. exact cow_rfind_ok. Qed.
Print Assumptions C45_rfind.

Example C45_ex_find : cow_find (str "xxabxabc") 0 (str "abc") = Ok (Some 5).
Proof. vm_compute. reflexivity. Qed.
Example C45_ex_rfind : cow_rfind (str "xxabcxabc") 5 (str "abc") = Ok (Some 2).
Proof. vm_compute. reflexivity. Qed.
