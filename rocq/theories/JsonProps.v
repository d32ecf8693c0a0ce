From Verif Require Import Base Text UtfModel UtfSpec JsonModel JsonSpec JsonProofs6.
From Coq Require Import Lia.

(* ------------------------------------------------------------------ *)
(* C29: a string comes back; bytes that are not UTF-8 come back as U+FFFD *)
Theorem C29_string : forall N i s, utf8_wf s ->
  exists text, json_format N i (VStr s) = Val text /\ json_parse N text = Val (VStr s).
Proof. exact wf_string. Qed.
Print Assumptions C29_string.
Theorem C29_any_string : forall N i s w, all_bytes s -> blank w ->
  exists text, json_format N i (VStr s) = Val text /\ json_parse N (text ++ w) = Val (VStr (repair s)).
Proof. exact string_parse. Qed.
Print Assumptions C29_any_string.
(* the literal is one token, and what follows it is left *)
Theorem C29_literal : forall s, all_bytes s -> exists e,
  (forall N i, json_format N i (VStr s) = Val (quote :: e ++ [quote]))
  /\ (forall q u, ch q < 0 -> eof q = false -> rest q = quote :: e ++ quote :: u ->
        exists o, do_token q = Val (quote :: repair s, mk_src (-1) false o u)).
Proof. exact string_literal. Qed.
Print Assumptions C29_literal.

(* ------------------------------------------------------------------ *)
(* C30: the buffer is overrun at 0xFF, and at 0xFC to 0xFE before five bytes *)
Theorem C30_overrun_refuted : exists text, all_bytes text /\ length text = 6%nat /\ forall N, json_parse N text = Undef.
Proof.
  exists [0xFC; 0x80; 0x80; 0x80; 0x80; 0x80]. split; [|split; [reflexivity|]].
  - repeat constructor; discriminate.
  - intros N. vm_compute. reflexivity.
Qed.
Print Assumptions C30_overrun_refuted.
Theorem C30_shift_refuted : exists text, all_bytes text /\ text = [0xFF] /\ forall N, json_parse N text = Undef.
Proof.
  eexists. split; [|split; [reflexivity|]].
  - repeat constructor; discriminate.
  - intros N. vm_compute. reflexivity.
Qed.
Print Assumptions C30_shift_refuted.
Theorem C30_load_partial : forall s, all_bytes (rest s) -> (load_next s = Undef <-> overrun (rest s)).
Proof. exact load_undef. Qed.
Print Assumptions C30_load_partial.
Theorem C30_defined_partial : forall N text, Forall (fun b => 0 <= b < 0xFC) text -> json_parse N text <> Undef.
Proof. exact no_undef. Qed.
Print Assumptions C30_defined_partial.
Theorem C30_terminates : forall N text, all_bytes text -> json_parse N text <> No_fuel.
Proof. exact no_fuel. Qed.
Print Assumptions C30_terminates.

(* ------------------------------------------------------------------ *)
(* C50: documents *)
Theorem C50_round_trip : forall N i v w, sane N -> bytes_only v -> blank (cur i) -> blank (add i) -> blank w ->
  exists text, json_format N i v = Val text
    /\ (accepted N v -> json_parse N (text ++ w) = Val (norm N v))
    /\ (~ accepted N v -> json_parse N (text ++ w) = Err).
Proof. exact round_trip. Qed.
Print Assumptions C50_round_trip.
(* Nothing but blanks may follow the value. *)
Theorem C50_trailing : forall N i v w x r, sane N -> bytes_only v -> blank (cur i) -> blank (add i) -> blank w ->
  0 <= x < 128 -> ~ blank [x] -> w <> [] \/ x = 44 \/ x = 93 \/ x = 125 ->
  exists text, json_format N i v = Val text /\ forall v', json_parse N (text ++ w ++ x :: r) <> Val v'.
Proof. exact trailing. Qed.
Print Assumptions C50_trailing.
Theorem C50_identity : forall N i v, sane N -> pure N v -> (depth v <= 32)%nat -> blank (cur i) -> blank (add i) ->
  exists text, json_format N i v = Val text /\ json_parse N text = Val v.
Proof. exact identity. Qed.
Print Assumptions C50_identity.
(* a value that nests 33 arrays around null is written but not read *)
Theorem C50_depth_refuted : exists v, (forall N, pure N v) /\ forall N, exists text,
  json_format N (indent_int 0) v = Val text /\ json_parse N text = Err.
Proof.
  exists (Nat.iter 33 (fun v => VArr [v]) VNull). split.
  - intros N. vm_compute. repeat split.
  - intros N. exists (repeat 91 33 ++ str "null" ++ repeat 93 33). split; vm_compute; reflexivity.
Qed.
Print Assumptions C50_depth_refuted.

(* ------------------------------------------------------------------ *)
(* numbers from 0 to 9 *)
Definition toy : numerics :=
  mk_numerics (fun z => z mod 10) (fun r => r <? 10) (fun r => [48 + r mod 10])
    (fun s => match s with [c] => Some (c - 48) | _ => None end).
Example C50_ex_sane : sane toy.
Proof.
  split.
  - intros r _. exists [], [48 + r mod 10], [], []. split; [reflexivity|]. split; [left; reflexivity|]. split; [|split; left; reflexivity].
    split; [discriminate|]. constructor; [|constructor]. pose proof (Z.mod_pos_bound r 10 eq_refl). cbv beta. lia.
  - intros z. apply Z.ltb_lt. apply Z.mod_pos_bound. reflexivity.
Qed.
Definition doc : value :=
  VObj [(str "a", VArr [VReal 7; VStr (str "x/y" ++ [10; 0xC3; 0xA9; 0xF0; 0x9F; 0x98; 0x80]); VArr []]);
        (str "b", VObj [(str "n", VNull); ([], VBool true)])].
Example C50_ex_pure : pure toy doc.
Proof.
  cbn. repeat split; try reflexivity.
  - repeat constructor; cbn; intuition discriminate.
  - exists (str "a"). split; [repeat constructor; unfold scalar; cbn; intuition discriminate|reflexivity].
  - exists (str "x/y" ++ [10; 0xE9; 0x1F600]). split; [repeat constructor; unfold scalar; cbn; intuition discriminate|reflexivity].
  - exists (str "b"). split; [repeat constructor; unfold scalar; cbn; intuition discriminate|reflexivity].
  - repeat constructor; cbn; intuition discriminate.
  - exists (str "n"). split; [repeat constructor; unfold scalar; cbn; intuition discriminate|reflexivity].
  - exists []. split; [constructor|reflexivity].
Qed.
Example C50_ex_text : json_format toy (indent_int 0) doc
  = Val (str "{""a"":[7,""x\/y\n\u00E9\uD83D\uDE00"",[]],""b"":{""n"":null,"""":true}}").
Proof. vm_compute. reflexivity. Qed.
Example C50_ex_indented : json_format toy (indent_int 2) (VArr [VInt 3; VObj [(str "k", VOther)]])
  = Val (str "[" ++ [10] ++ str "  3," ++ [10] ++ str "  {" ++ [10] ++ str "    ""k"": null" ++ [10] ++ str "  }" ++ [10] ++ str "]").
Proof. vm_compute. reflexivity. Qed.
Example C50_ex_back : forall i text, json_format toy i doc = Val text -> i = indent_int 3 -> json_parse toy text = Val doc.
Proof. intros i text H ->. vm_compute in H. injection H as <-. vm_compute. reflexivity. Qed.
(* keys that become the same *)
Example C50_ex_keys : ~ clean toy (VObj [([0x80], VNull); ([0x81], VNull)]).
Proof. intros [H _]. inversion H as [|? ? Hn _]. apply Hn. left. reflexivity. Qed.
Example C29_ex_loss : json_format toy (indent_int 0) (VStr [97; 0x80; 98]) = Val (str """a\uFFFDb""")
  /\ json_parse toy (str """a\uFFFDb""") = Val (VStr [97; 0xEF; 0xBF; 0xBD; 98]).
Proof. vm_compute. split; reflexivity. Qed.
Example C30_ex_overrun : overrun [0xFD; 1; 2; 3; 4; 5] /\ ~ overrun [0xFD; 1; 2; 3; 4].
Proof.
  split.
  - exists 0xFD, [1; 2; 3; 4; 5]. split; [reflexivity|]. right. repeat split; repeat constructor; discriminate.
  - intros [b [t [H [H2|[_ H2]]]]]; injection H as <- <-; [discriminate|]. repeat apply le_S_n in H2. inversion H2.
Qed.
(* the parser takes more than JSON *)
Example C30_ex_lax : json_parse toy (str "[1,]") = Val (VArr [VReal 1]) /\ json_parse toy (str " {""k"" : 2 , } ") = Val (VObj [(str "k", VReal 2)])
  /\ json_parse toy (str "[,]") = Err /\ json_parse toy (str "1 2") = Err.
Proof. vm_compute. repeat split. Qed.
Example C50_ex_trailing : json_parse toy (str "[1] null") = Err /\ json_parse toy (str "[1] ") = Val (VArr [VReal 1]).
Proof. split; vm_compute; reflexivity. Qed.
