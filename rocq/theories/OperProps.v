(* Property theorems C57: operators that are combined with a constant operand,
   and operators on strings and arrays. *)
From Verif Require Import Base Text SortModel ValueModel OperModel OperSpec OperProofs CompModel CompSpec CompProofs CompDemo.

(* The form for a constant operand gives the same result and throws alike. *)
Theorem C57_constant : forall a fuel o l n, foldable o = true -> o <> xo_index ->
  general a (S fuel) o l (VInt n) = Some (bi32 a o l n).
Proof. exact bi32_general. Qed.
Print Assumptions C57_constant.
Example C57_ex_constant : bi32 (num demo) xo_mul (VStr (str "ab")) 3 = Ok (VStr (str "ababab"))
  /\ bi32 (num demo) xo_cmp_lt (VStr (str "ab")) 3 = Throw
  /\ bi32 (num demo) xo_cmp_3way (VInt 5) 3 = Ok (VInt 1)
  /\ bi32 (num demo) xo_div (VInt 5) 0 = Throw.
Proof. repeat split; vm_compute; reflexivity. Qed.

Theorem C57_null : forall a fuel l,
  general a (S fuel) xo_cmp_eq l VNull = Some (Ok (check_null false l)) /\
  general a (S fuel) xo_cmp_ne l VNull = Some (Ok (check_null true l)).
Proof. exact check_null_general. Qed.
Print Assumptions C57_null.
Example C57_ex_null : check_null false VNull = VBool true /\ check_null true (VInt 0) = VBool true
  /\ check_null false (VArr []) = VBool false.
Proof. repeat split; reflexivity. Qed.

Theorem C57_complement : forall n, op_notb_value (VInt n) = Ok (VInt (Z.lxor n (-1))).
Proof. exact notb_const. Qed.
Print Assumptions C57_complement.
Example C57_ex_complement : op_notb_value (VInt 5) = Ok (VInt (-6)).
Proof. reflexivity. Qed.

(* The same of references: with any left operand, and as an assignment. *)
Theorem C57_folded : forall W E R X F N D (P : prims W E R X F N D) o assign n l w, foldable o = true ->
  op_sem P o assign [Temp (VInt n); l] w = bi32_sem P o assign n l w.
Proof. exact @fold_bi32. Qed.
Print Assumptions C57_folded.
Example C57_ex_folded : bi32_sem demo xo_add true 3 (Other None) (VInt 4) = (VInt 7, Val (Other None))
  /\ bi32_sem demo xo_add true 3 (Temp (VInt 4)) (VInt 4) = (VInt 4, Exn (VStr (str "not modifiable"))).
Proof. split; vm_compute; reflexivity. Qed.

(* Shifts of strings and arrays *)
Theorem C57_shift_left : forall a fuel l n, is_seq l -> 0 <= n ->
  exists r, general a fuel xo_sll l (VInt n) = Some (Ok r) /\ moved_value l r n.
Proof. exact sll_value. Qed.
Print Assumptions C57_shift_left.
(* quick-guide.md:817-819 *)
Example C57_ex_shift_left : general (num demo) 0 xo_sll (VStr (str "12345678")) (VInt 1) = Some (Ok (VStr (str "2345678" ++ [0]))).
Proof. reflexivity. Qed.

Theorem C57_shift_right : forall a fuel l n, is_seq l -> 0 <= n ->
  exists r, general a fuel xo_srl l (VInt n) = Some (Ok r) /\ moved_value l r (- n).
Proof. exact srl_value. Qed.
Print Assumptions C57_shift_right.
Example C57_ex_shift_right : general (num demo) 0 xo_srl (VStr (str "12345678")) (VInt 1) = Some (Ok (VStr ([0] ++ str "1234567"))).
Proof. reflexivity. Qed.

Theorem C57_lengthen : forall a fuel l n, is_seq l -> 0 <= n ->
  exists r, general a fuel xo_sla l (VInt n) = Some (Ok r) /\ lengthened_value l r n.
Proof. exact sla_value. Qed.
Print Assumptions C57_lengthen.
Example C57_ex_lengthen : general (num demo) 0 xo_sla (VStr (str "12345678")) (VInt 1) = Some (Ok (VStr (str "12345678" ++ [0]))).
Proof. reflexivity. Qed.

Theorem C57_shorten : forall a fuel l n, is_seq l -> 0 <= n ->
  exists r, general a fuel xo_sra l (VInt n) = Some (Ok r) /\ shortened_value l r n.
Proof. exact sra_value. Qed.
Print Assumptions C57_shorten.
Example C57_ex_shorten : general (num demo) 0 xo_sra (VStr (str "12345678")) (VInt 1) = Some (Ok (VStr (str "1234567")))
  /\ general (num demo) 0 xo_sra (VArr [VInt 1]) (VInt 7) = Some (Ok (VArr [])).
Proof. split; reflexivity. Qed.

Theorem C57_negative : forall a fuel o l n, is_shift o -> n < 0 -> general a fuel o l (VInt n) = Some Throw.
Proof. exact negative_shift. Qed.
Print Assumptions C57_negative.
Example C57_ex_negative : is_shift xo_sra /\ general (num demo) 0 xo_sra (VStr (str "1")) (VInt (-1)) = Some Throw.
Proof. split; [exact I|reflexivity]. Qed.

Theorem C57_inverse : forall a fuel l n r, is_seq l -> 0 <= n ->
  general a fuel xo_sla l (VInt n) = Some (Ok r) -> general a fuel xo_sra r (VInt n) = Some (Ok l).
Proof. exact back_and_forth. Qed.
Print Assumptions C57_inverse.
Example C57_ex_inverse : exists r, general (num demo) 0 xo_sla (VArr [VInt 1]) (VInt 2) = Some (Ok r) /\ r <> VArr [VInt 1].
Proof. eexists. split; [reflexivity|discriminate]. Qed.

Theorem C57_sum : forall a fuel o l m n r, o = xo_sll \/ o = xo_srl -> is_seq l -> 0 <= m -> 0 <= n ->
  general a fuel o l (VInt m) = Some (Ok r) -> general a fuel o r (VInt n) = general a fuel o l (VInt (m + n)).
Proof. exact shifts_add. Qed.
Print Assumptions C57_sum.
Example C57_ex_sum : general (num demo) 0 xo_srl (VArr [VInt 1; VInt 2; VInt 3]) (VInt 2) = Some (Ok (VArr [VNull; VNull; VInt 1])).
Proof. reflexivity. Qed.

(* Bitwise operators on strings *)
Theorem C57_bitwise : forall a fuel v m,
  (exists r, general a fuel xo_andb (VStr v) (VStr m) = Some (Ok (VStr r)) /\ combined 0 Z.land (Z.min (size v) (size m)) v m r) /\
  (exists r, general a fuel xo_orb (VStr v) (VStr m) = Some (Ok (VStr r)) /\ combined 0 Z.lor (Z.max (size v) (size m)) v m r) /\
  (exists r, general a fuel xo_xorb (VStr v) (VStr m) = Some (Ok (VStr r)) /\ combined 0 Z.lxor (Z.max (size v) (size m)) v m r).
Proof. exact bitwise_value. Qed.
Print Assumptions C57_bitwise.
(* quick-guide.md:833-849 *)
Example C57_ex_bitwise : general (num demo) 0 xo_andb (VStr (str "2345")) (VStr (str "1234")) = Some (Ok (VStr (str "0204")))
  /\ general (num demo) 0 xo_orb (VStr (str "1234")) (VStr (str "12345678")) = Some (Ok (VStr (str "12345678")))
  /\ general (num demo) 0 xo_orb (VStr (str "23450000")) (VStr (str "12345678")) = Some (Ok (VStr (str "33755678"))).
Proof. repeat split; reflexivity. Qed.

Theorem C57_xor_back : forall a fuel v m r, size m <= size v ->
  general a fuel xo_xorb (VStr v) (VStr m) = Some (Ok r) -> general a fuel xo_xorb r (VStr m) = Some (Ok (VStr v)).
Proof. exact xor_back. Qed.
Print Assumptions C57_xor_back.
Example C57_ex_xor_back : general (num demo) 0 xo_xorb (VStr (str "key")) (VStr (str "ab")) = Some (Ok (VStr [10; 7; 121])).
Proof. reflexivity. Qed.

Theorem C57_string_complement : forall s, exists r, op_notb_value (VStr s) = Ok (VStr r) /\ size r = size s /\
  forall i, 0 <= i < size s -> item 0 r i = 255 - item 0 s i.
Proof. exact complement_value. Qed.
Print Assumptions C57_string_complement.
Example C57_ex_string_complement : op_notb_value (VStr (str "0")) = Ok (VStr [207]).
Proof. reflexivity. Qed.

(* Booleans are integers of one bit; + and * are bounded. *)
Theorem C57_booleans : forall a fuel x y,
  (exists r, general a fuel xo_andb (VBool x) (VBool y) = Some (Ok (VBool r)) /\ bit r = Z.land (bit x) (bit y)) /\
  (exists r, general a fuel xo_orb (VBool x) (VBool y) = Some (Ok (VBool r)) /\ bit r = Z.lor (bit x) (bit y)) /\
  (exists r, general a fuel xo_xorb (VBool x) (VBool y) = Some (Ok (VBool r)) /\ bit r = Z.lxor (bit x) (bit y)) /\
  (exists r, general a fuel xo_add (VBool x) (VBool y) = Some (Ok (VBool r)) /\ bit r = Z.min 1 (bit x + bit y)) /\
  (exists r, general a fuel xo_mul (VBool x) (VBool y) = Some (Ok (VBool r)) /\ bit r = bit x * bit y) /\
  (exists r, op_notb_value (VBool x) = Ok (VBool r) /\ bit r = 1 - bit x).
Proof. exact boolean_bits. Qed.
Print Assumptions C57_booleans.
Example C57_ex_booleans : general (num demo) 0 xo_xorb (VBool true) (VBool true) = Some (Ok (VBool false))
  /\ general (num demo) 0 xo_add (VBool true) (VBool true) = Some (Ok (VBool true)).
Proof. split; reflexivity. Qed.
