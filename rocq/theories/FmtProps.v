(* C67: std.string.format composes exactly what the template says. *)
From Verif Require Import Base Text Monad ValueModel FmtModel FmtSpec FmtProofs4 FmtProofs6.

Local Open Scope Z_scope.

(* the result, for every template, every system and all arguments *)
Theorem C67_exact : forall print s templ values o,
  sys_ok s -> Z.of_nat (length values) <= max_args ->
  (string_format print s templ values = Ok o <->
   exists ps, template templ ps /\ composed s templ (map (arg_text print) values) ps o).
Proof. exact exact_any. Qed.
Print Assumptions C67_exact.

(* what is not a template is refused, and nothing else happens *)
Theorem C67_refused : forall print s templ values,
  sys_ok s -> Z.of_nat (length values) <= max_args ->
  string_format print s templ values <> UB /\
  (string_format print s templ values = Throw <-> forall ps, ~ template templ ps).
Proof. exact refused_any. Qed.
Print Assumptions C67_refused.

(* a template means one thing *)
Theorem C67_unambiguous : forall templ ps qs, template templ ps -> template templ qs -> ps = qs.
Proof. exact unambiguous. Qed.
Print Assumptions C67_unambiguous.

(* whether a template is accepted does not depend on the arguments *)
Theorem C67_acceptance : forall print s templ vs ws,
  sys_ok s -> Z.of_nat (length vs) <= max_args -> Z.of_nat (length ws) <= max_args ->
  (string_format print s templ vs = Throw <-> string_format print s templ ws = Throw).
Proof. exact acceptance_any. Qed.
Print Assumptions C67_acceptance.

(* every text has a template that puts it, whatever the arguments are *)
Theorem C67_quote : forall print s text values,
  sys_ok s -> Z.of_nat (length values) <= max_args -> ~ In 0 text ->
  string_format print s (quote text) values = Ok text.
Proof. exact quote_any. Qed.
Print Assumptions C67_quote.

(* templates that do not refer to themselves can be joined *)
Theorem C67_append : forall print s a b ps qs x y values,
  sys_ok s -> Z.of_nat (length values) <= max_args ->
  template a ps -> template b qs -> ~ In (Num 0) ps -> ~ In (Num 0) qs ->
  string_format print s a values = Ok x -> string_format print s b values = Ok y ->
  string_format print s (a ++ b) values = Ok (x ++ y).
Proof. exact append_any. Qed.
Print Assumptions C67_append.

(* ${N} is the Nth argument; what it contains is not looked at *)
Theorem C67_number : forall print s n text v values,
  sys_ok s -> Z.of_nat (length values) <= max_args -> 1 <= n ->
  nth_error values (Z.to_nat (n - 1)) = Some v -> decimal n text ->
  string_format print s (str "${" ++ text ++ str "}") values = Ok (arg_text print v).
Proof. exact number_any. Qed.
Print Assumptions C67_number.

(* of more arguments than 655349, the others cannot be referred to *)
Theorem C67_limit_refuted : exists print s n text v values,
  sys_ok s /\ 1 <= n /\ nth_error values (Z.to_nat (n - 1)) = Some v /\ decimal n text /\
  string_format print s (str "${" ++ text ++ str "}") values <> Ok (arg_text print v).
Proof. exact limit_refuted. Qed.
Print Assumptions C67_limit_refuted.

(* the time in UTC is followed by a null byte and a stray zero *)
Theorem C67_utc_refuted : exists print s, sys_ok s /\
  string_format print s (str "${time:utc}") [] <>
    Ok (date_text (utc_tm s) (tv_nsec s) ++ str " UTC").
Proof. exact utc_refuted. Qed.
Print Assumptions C67_utc_refuted.

(* names that mean nothing are not refused, although the documentation says so *)
Theorem C67_name_refuted : exists print s name, sys_ok s /\
  (forall p, ~ builtin name p) /\ (forall n, ~ numeral name n) /\
  string_format print s (str "${" ++ name ++ str "}") [] <> Throw.
Proof. exact name_refuted. Qed.
Print Assumptions C67_name_refuted.

Example C67_ex :
  string_format (fun _ => str "null") shanghai (str "$1 + ${02} = $$$3 [${}$0] ${errno:full}")
    [VStr (str "$2"); VNull] =
  Ok (str "$2 + null = $(no arg) [$1 + ${02} = $$$3 [${}$0] ${errno:full}] No such file or directory (errno 2)").
Proof. reflexivity. Qed.

Example C67_ex_refused : forall print,
  string_format print shanghai (str "100$") [] = Throw /\
  string_format print shanghai (str "a $b") [] = Throw /\
  string_format print shanghai (str "${1") [VNull] = Throw /\
  string_format print shanghai [36; 49; 0] [VNull] = Throw.
Proof. repeat split. Qed.

Example C67_ex_time : forall print,
  string_format print shanghai (str "${time}") [] = Ok (str "2014-09-26 08:58:26.123456789 +0800") /\
  string_format print shanghai (str "${time:utc}") [] =
    Ok (str "2014-09-26 00:58:26.123456789 UTC" ++ [0; 48]).
Proof. split; reflexivity. Qed.

Example C67_ex_sys : sys_ok shanghai.
Proof. exact shanghai_ok. Qed.
