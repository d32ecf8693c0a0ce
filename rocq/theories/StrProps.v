(* C46, C47: byte sets, trimming, padding, case, translation, comparison and
   the replacement of parts of strings *)
From Verif Require Import Base Text SeqModel SeqSpec SearchSpec StrModel StrSpec StrProofs.

Theorem C46_find_of : forall text from len set want, fits text -> opt_int64 from -> opt_int64 len ->
  exists r, string_find_of text from len set want = Ok r /\
    leftmost (holds_at text set want (range_low (zlen text) from) (range_high (zlen text) from len)) r.
Proof. exact string_find_of_ok. Qed.
Print Assumptions C46_find_of.

Theorem C46_rfind_of : forall text from len set want, fits text -> opt_int64 from -> opt_int64 len ->
  exists r, string_rfind_of text from len set want = Ok r /\
    rightmost (holds_at text set want (range_low (zlen text) from) (range_high (zlen text) from len)) r.
Proof. exact string_rfind_of_ok. Qed.
Print Assumptions C46_rfind_of.

Theorem C46_triml : forall text reject, fits text ->
  exists a m, string_triml text reject = Ok m /\ text = a ++ m /\
    Forall (fun x => In x (get_reject reject)) a /\ no_head (get_reject reject) m.
Proof. exact triml_ok. Qed.
Print Assumptions C46_triml.

Theorem C46_trimr : forall text reject, fits text ->
  exists m b, string_trimr text reject = Ok m /\ text = m ++ b /\
    Forall (fun x => In x (get_reject reject)) b /\ no_last (get_reject reject) m.
Proof. exact trimr_ok. Qed.
Print Assumptions C46_trimr.

Theorem C46_trim : forall text reject, fits text ->
  exists a m b, string_trim text reject = Ok m /\ text = a ++ m ++ b /\
    Forall (fun x => In x (get_reject reject)) (a ++ b) /\
    no_head (get_reject reject) m /\ no_last (get_reject reject) m.
Proof. exact trim_ok. Qed.
Print Assumptions C46_trim.

Theorem C46_pad : forall max_size left text length padding, fits text -> is_int64 length ->
  string_pad max_size left text length padding =
    match padding with
    | Some [] => Throw
    | _ =>
      let pad := match padding with Some p => p | None => [0x20] end in
      if length <=? 0 then Ok text
      else if max_size <? Z.max (zlen text) length then Throw
      else let n := Z.to_nat ((length - zlen text) / zlen pad) in
           Ok (if left : bool then times n pad ++ text else text ++ times n pad)
    end.
Proof. exact string_pad_ok. Qed.
Print Assumptions C46_pad.

Theorem C46_to_upper : forall text, all_bytes text -> string_to_upper text = Ok (map upper text).
Proof. exact to_upper_ok. Qed.
Print Assumptions C46_to_upper.
Theorem C46_to_lower : forall text, all_bytes text -> string_to_lower text = Ok (map lower text).
Proof. exact to_lower_ok. Qed.
Print Assumptions C46_to_lower.

Theorem C46_translate : forall text inputs outputs,
  exists pieces, Forall2 (translated inputs (match outputs with Some o => o | None => [] end)) text pieces /\
    string_translate text inputs outputs = Ok (concat pieces).
Proof. exact translate_ok. Qed.
Print Assumptions C46_translate.

Theorem C46_compare : forall a b len, fits a -> fits b -> opt_int64 len ->
  string_compare a b len = Ok (match len with
    | None => lexcmp a b
    | Some n => lexcmp (firstn (Z.to_nat n) a) (firstn (Z.to_nat n) b)
    end).
Proof. exact string_compare_ok. Qed.
Print Assumptions C46_compare.

Theorem C46_starts_with : forall t p, exists r, starts_with t p = Ok r /\ (r = true <-> exists b, t = p ++ b).
Proof. exact starts_with_ok. Qed.
Print Assumptions C46_starts_with.
Theorem C46_ends_with : forall t p, exists r, ends_with t p = Ok r /\ (r = true <-> exists a, t = a ++ p).
Proof. exact ends_with_ok. Qed.
Print Assumptions C46_ends_with.

Example C46_ex_any : string_find_of (str "hello world") (Some 5) None (str "lo") true = Ok (Some 7).
Proof. reflexivity. Qed.
Example C46_ex_rnot : string_rfind_of (str "hello world") (Some (-6)) (Some 4) (str " orl") false = Ok (Some 6).
Proof. reflexivity. Qed.
Example C46_ex_trim : string_trim (str " 	 a b ") None = Ok (str "a b").
Proof. vm_compute. reflexivity. Qed.
Example C46_ex_trim_all : string_trimr (str "xyxyx") (Some (str "yx")) = Ok [].
Proof. vm_compute. reflexivity. Qed.
Example C46_ex_pad : string_pad (2 ^ 60) true (str "abc") 8 (Some (str "-+")) = Ok (str "-+-+abc").
Proof. vm_compute. reflexivity. Qed.
Example C46_ex_case : string_to_upper (str "Az{`[@09" ++ [0xE1]) = Ok (str "AZ{`[@09" ++ [0xE1]).
Proof. vm_compute. reflexivity. Qed.
Example C46_ex_translate : string_translate (str "banana") (str "an") (Some (str "o")) = Ok (str "booo").
Proof. vm_compute. reflexivity. Qed.
Example C46_ex_compare : string_compare (str "abcz") (str "abca") (Some 3) = Ok 0 /\
  string_compare (str "ab") (str "abc") None = Ok (-1) /\ string_compare [0xFF] (str "abc") None = Ok 1.
Proof. vm_compute. auto. Qed.

Theorem C47_replace : forall a m b s, cow_replace (a ++ m ++ b) (length a) (length m) s = Ok (a ++ s ++ b, Some 0).
Proof. exact cow_replace_ok. Qed.
Print Assumptions C47_replace.

Example C47_ex : cow_replace (str "hello world") 2 5 (str "XY") = Ok (str "heXYorld", Some 0).
Proof. vm_compute. reflexivity. Qed.
