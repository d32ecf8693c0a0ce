(* Properties of the tokenizer and of quoting. *)
From Verif Require Import Base Text UtfModel UtfSpec TokModel TokSpec TokProofs1 TokProofs2 TokProofs3 TokProofs4.

(* ---------- C11: quoted strings ---------- *)
(* A string as a value is written is one string literal: whatever follows, the
   tokenizer reads exactly the literal and gets the same bytes. *)
Theorem C11_literal : forall s rest, all_bytes s ->
  accept_string 34 (print_string s ++ rest) = Ok (Some (T_string s, rest)).
Proof. exact accept_string_print. Qed.
Print Assumptions C11_literal.

(* As a source text it is that one token. *)
Theorem C11_source : forall conv s, all_bytes s -> tokenize conv (print_string s) = Lexed [T_string s].
Proof. exact quote_tokenized. Qed.
Print Assumptions C11_source.

(* It consists of printable ASCII characters only. *)
Theorem C11_printable : forall s, all_bytes s -> Forall (fun c => 32 <= c <= 126) (print_string s).
Proof. exact print_string_printable. Qed.
Print Assumptions C11_printable.

Theorem C11_injective : forall s t, all_bytes s -> all_bytes t -> c_quote s = c_quote t -> s = t.
Proof. exact c_quote_injective. Qed.
Print Assumptions C11_injective.

Example C11_ex : print_string [0; 10; 34; 39; 92; 65; 0x1B; 0xE2; 63] =
  str """\0\n\""\'\\A\e\xE2?""".
Proof. reflexivity. Qed.

(* ---------- C51: punctuators and names ---------- *)
(* The documented punctuator that is accepted is the longest one the input
   starts with; nothing is accepted iff the input starts with none. *)
Theorem C51_longest : forall s t r, accept_punctuator s = Ok (Some (t, r)) <->
  exists p w, t = T_punctuator p /\ In (p, w) documented_punctuators /\ s = w ++ r
  /\ forall p' w', In (p', w') documented_punctuators -> is_prefix w' s -> (length w' <= length w)%nat.
Proof. exact punctuator_longest. Qed.
Print Assumptions C51_longest.

Theorem C51_none : forall s, accept_punctuator s = Ok None <->
  forall p w, In (p, w) documented_punctuators -> ~ is_prefix w s.
Proof. exact punctuator_none. Qed.
Print Assumptions C51_none.

(* A name extends as far as letters, digits and underscores go; it is a keyword
   iff it is spelled like one. *)
Theorem C51_name : forall w r, name w -> no_name_follows r ->
  (forall k, In (k, w) documented_keywords -> accept_name (w ++ r) = Ok (Some (T_keyword k, r)))
  /\ ((forall k, ~ In (k, w) documented_keywords) -> accept_name (w ++ r) = Ok (Some (T_identifier w, r))).
Proof. exact name_accepted. Qed.
Print Assumptions C51_name.

Theorem C51_no_name : forall s, accept_name s = Ok None <-> forall w r, s = w ++ r -> ~ name w.
Proof. exact name_rejected. Qed.
Print Assumptions C51_no_name.

Example C51_ex_punctuator :
  accept_punctuator (str "<<<<=x") = Ok (Some (T_punctuator 12, str "<=x"))
  /\ accept_punctuator (str "?:") = Ok (Some (T_punctuator 39, str ":")).
Proof. split; reflexivity. Qed.
Example C51_ex_name :
  accept_name (str "format+1") = Ok (Some (T_identifier (str "format"), str "+1"))
  /\ accept_name (str "for(") = Ok (Some (T_keyword 10, str "(")).
Proof. split; reflexivity. Qed.

(* ---------- C52: source texts ---------- *)
(* A text of tokens with spaces, line feeds and comments in between is taken
   apart into exactly those tokens. *)
Theorem C52_text : forall conv ts s, text_of conv None ts s -> tokenize conv s = Lexed ts.
Proof. exact text_tokenized. Qed.
Print Assumptions C52_text.
(* So it is after a byte order mark and after a line for the shell, and a line
   that begins like a conflict is refused. *)
Theorem C52_bom : forall conv ts s, text_of conv None ts s -> tokenize conv ([0xEF; 0xBB; 0xBF] ++ s) = Lexed ts.
Proof. exact bom_skipped. Qed.
Print Assumptions C52_bom.
Theorem C52_shebang : forall conv u l ts s, u = [] \/ u = [0xEF; 0xBB; 0xBF] -> ~ In 10 l -> text_of conv None ts s ->
  tokenize conv (u ++ str "#!" ++ l ++ 10 :: s) = Lexed ts.
Proof. exact shebang_skipped. Qed.
Print Assumptions C52_shebang.
Theorem C52_conflict : forall conv m a b,
  In m [str "<<<<<<<"; str "|||||||"; str "======="; str ">>>>>>>"] -> ~ In 10 a ->
  tokenize conv (m ++ a ++ 10 :: b) = Lex_error.
Proof. exact marker_refused. Qed.
Print Assumptions C52_conflict.

(* `var x = -1`0.5e+3 ; // done` on two lines *)
Definition ex_conv (hp : bool) (w : bytes) : option token := Some (if hp then T_real (Z.of_nat (length w)) else T_integer (Z.of_nat (length w))).
Definition ex_text : bytes := str "var x = " ++ [10] ++ str "-1`0.5e+3 /* 1 */; // done".
Example C52_ex : tokenize ex_conv ex_text =
  Lexed [T_keyword 0; T_identifier (str "x"); T_punctuator 41; T_real 8; T_punctuator 50].
Proof. reflexivity. Qed.
Example C52_ex_sign : (* the sign belongs to the number only after an operator *)
  tokenize ex_conv (str "a -1") = Lexed [T_identifier (str "a"); T_punctuator 2; T_integer 1]
  /\ tokenize ex_conv (str "a = -1") = Lexed [T_identifier (str "a"); T_punctuator 41; T_integer 2].
Proof. split; reflexivity. Qed.
(* such a text is laid out as the theorem requires *)
Example C52_ex_laid_out :
  text_of ex_conv None [T_punctuator 41; T_integer 3; T_identifier (str "x"); T_string [10]]
    (str "= /* + */-1`2 " ++ 10 :: str " x ""\n""").
Proof.
  change [T_punctuator 41; T_integer 3; T_identifier (str "x"); T_string [10]]
    with ([T_punctuator 41; T_integer 3] ++ [T_identifier (str "x"); T_string [10]]).
  apply text_line.
  - change (str "= /* + */-1`2 ") with (str "=" ++ 32 :: str "/*" ++ str " + " ++ str "*/" ++ (str "-" ++ str "1`2") ++ 32 :: []).
    apply line_token; [apply spelled_punctuator; cbn; tauto | left; reflexivity|].
    apply line_block_comment.
    + change (str " + ") with [32; 43; 32]. repeat (constructor; [lia|]). constructor.
    + cbn. lia.
    + apply line_token; [|left; reflexivity | apply line_end].
      apply (spelled_number _ _ (str "-") false (str "1`2")).
      * right; right; reflexivity.
      * right. cbn. intros (w & H & W).
        assert (E : w = str "=").
        { repeat (destruct H as [H | H]; [first [discriminate | injection H as <-; reflexivity] |]). destruct H. }
        subst w. cbn in W. repeat (destruct W as [W | W]; [discriminate|]). exact W.
      * change (str "1`2") with (49 :: str "`2" ++ [] ++ []).
        apply decimal_numeral; [unfold digit; lia | unfold run, digit; cbn; repeat (constructor; [lia|]); constructor | left; auto | left; reflexivity].
      * reflexivity.
  - apply text_end. apply line_space; [left; reflexivity|].
    apply (line_token _ _ _ (str "x") 32); [|left; reflexivity | apply line_last_token].
    + apply spelled_identifier.
      * exists 120, []. split; [reflexivity|]. split; [unfold name_start, letter; lia | constructor].
      * intros k H. repeat (destruct H as [H | H]; [discriminate|]). exact H.
      * intros H. repeat (destruct H as [H | H]; [discriminate|]). exact H.
    + apply (spelled_literal _ _ [92; 110]).
      * repeat (constructor; [lia|]). constructor.
      * apply (denotes_escape 110 10); [cbn; tauto | constructor].
Qed.

(* ---------- C53: definedness and termination ---------- *)
Theorem C53_terminates : forall conv text, all_bytes text -> tokenize conv text <> Lex_no_fuel.
Proof. exact tokenize_terminates. Qed.
Print Assumptions C53_terminates.

Theorem C53_well_formed : forall conv text, utf8_wf text -> tokenize conv text <> Lex_undefined.
Proof. exact tokenize_defined. Qed.
Print Assumptions C53_well_formed.

(* It is not enough that the check for UTF-8 passes. *)
Theorem C53_validated_refuted : forall conv, exists text,
  utf8_validate text = Some true /\ tokenize conv text = Lex_undefined.
Proof. exact undefined_refuted. Qed.
Print Assumptions C53_validated_refuted.

(* Text that is accepted passes the check for UTF-8 in every line after the
   first, and has no NUL and no mark of a merge conflict. *)
Theorem C53_checked : forall conv text ts l ls, tokenize conv text = Lexed ts -> CsvModel.lines [] text = l :: ls ->
  Forall (fun l => utf8_validate l = Some true /\ ~ In 0 l /\
    forall m, In m [str "<<<<<<<"; str "|||||||"; str "======="; str ">>>>>>>"] -> starts_with m l = false) ls.
Proof. exact tokenize_checked. Qed.
Print Assumptions C53_checked.
Example C53_ex_checked : forall conv, (exists ts, tokenize conv (str "a" ++ [10] ++ str "b") = Lexed ts)
  /\ CsvModel.lines [] (str "a" ++ [10] ++ str "b") = [str "a"; str "b"]
  /\ tokenize conv (str "a" ++ [10] ++ str "/*" ++ [0xFF] ++ str "*/") = Lex_error.
Proof. intros conv. split; [eexists; vm_compute; reflexivity|split; vm_compute; reflexivity]. Qed.

Example C53_ex : utf8_wf (str "a=""" ++ [0xC3; 0xA9] ++ str """")
  /\ tokenize ex_conv (str "a=""" ++ [0xC3; 0xA9] ++ str """")
     = Lexed [T_identifier (str "a"); T_punctuator 41; T_string [0xC3; 0xA9]].
Proof.
  split; [|reflexivity]. exists [97; 61; 34; 233; 34]. split; [|reflexivity].
  repeat constructor; unfold scalar; lia.
Qed.

(* ---------- C54: block comments ---------- *)
(* A comment should end at the first star followed by a slash.  It does not. *)
Theorem C54_first_end_refuted : forall conv, exists w,
  (forall a r, w <> a ++ str "*/" ++ r) /\ tokenize conv (str "/*" ++ w ++ str "*/") <> Lexed [].
Proof. exact comment_refuted. Qed.
Print Assumptions C54_first_end_refuted.

(* What happens: a comment is opened, and on every line it goes on to the first
   star.  If a slash follows that, the comment ends there.  Otherwise the rest of
   the line is dropped and the comment goes on. *)
Theorem C54_opens_partial : forall conv acc s, utf8_wf (str "/*" ++ s) ->
  lex_line conv (length (str "/*" ++ s)) (mk_lexer acc false) (str "/*" ++ s) =
  lex_line conv (length s) (mk_lexer acc true) s.
Proof. exact comment_opens. Qed.
Print Assumptions C54_opens_partial.

Theorem C54_first_star_partial : forall conv acc s, utf8_wf s ->
  (forall a r, s = a ++ str "*/" ++ r -> ~ In 42 a ->
     lex_line conv (length s) (mk_lexer acc true) s = lex_line conv (length r) (mk_lexer acc false) r)
  /\ ((forall a r, s = a ++ str "*/" ++ r -> In 42 a) ->
     lex_line conv (length s) (mk_lexer acc true) s = Lexed (mk_lexer acc true)).
Proof. exact comment_exact. Qed.
Print Assumptions C54_first_star_partial.

Example C54_ex : tokenize ex_conv (str "a /* b **/ c") = Lex_error
  /\ tokenize ex_conv (str "a /* b */ c") = Lexed [T_identifier (str "a"); T_identifier (str "c")]
  /\ tokenize ex_conv (str "a /***/ b" ++ [10] ++ str "c */ d") = Lexed [T_identifier (str "a"); T_identifier (str "d")].
Proof. repeat split; reflexivity. Qed.

(* ---------- C55: classes of characters ---------- *)
Theorem C55_classes : forall c,
  (is_cmask c cmask_space = true <-> space c)
  /\ (is_cmask c cmask_alpha = true <-> letter c)
  /\ (is_cmask c cmask_digit = true <-> digit c)
  /\ (is_cmask c cmask_xdigit = true <-> xdigit c)
  /\ (is_cmask c cmask_namei = true <-> name_start c)
  /\ (is_cmask c cmask_name = true <-> name_char c).
Proof. exact classes. Qed.
Print Assumptions C55_classes.

(* The line feed counts as blank, the tab does not count as a control
   character. *)
Theorem C55_blank_refuted : exists c, is_byte c /\ is_cmask c cmask_blank = true /\ ~ blank c.
Proof. exact blank_refuted. Qed.
Print Assumptions C55_blank_refuted.
Theorem C55_control_refuted : exists c, is_byte c /\ control c /\ is_cmask c cmask_cntrl = false.
Proof. exact control_refuted. Qed.
Print Assumptions C55_control_refuted.

Example C55_ex : is_cmask 11 cmask_space = true /\ is_cmask 103 cmask_xdigit = false.
Proof. split; reflexivity. Qed.

(* ---------- C56: string literals ---------- *)
(* Exactly the literals of the documented form are accepted, with the bytes they
   stand for. *)
Theorem C56_literal : forall s t r, accept_string 34 s = Ok (Some (t, r)) <->
  exists w v, s = 34 :: w ++ 34 :: r /\ t = T_string v /\ denotes w v.
Proof. exact literal_exact. Qed.
Print Assumptions C56_literal.
Theorem C56_raw : forall s t r, accept_string 39 s = Ok (Some (t, r)) <->
  exists w, s = 39 :: w ++ 39 :: r /\ t = T_string w /\ raw_text w.
Proof. exact raw_exact. Qed.
Print Assumptions C56_raw.
Theorem C56_unique : forall w v v', denotes w v -> denotes w v' -> v = v'.
Proof. exact denotes_unique. Qed.
Print Assumptions C56_unique.

Example C56_ex : accept_string 34 (str """\x1Fé\U01F600\Z'"";") =
    Ok (Some (T_string [0x1F; 0xC3; 0xA9; 0xF0; 0x9F; 0x98; 0x80; 26; 39], str ";"))
  /\ accept_string 34 (str """\uD800""") = Throw /\ accept_string 34 (str """\U110000""") = Throw
  /\ accept_string 39 (str "'\n""'") = Ok (Some (T_string (str "\n"""), [])).
Proof. repeat split; reflexivity. Qed.
