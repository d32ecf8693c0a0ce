(* C39: operator precedence and associativity.  The parser of expressions
   (ExprModel.v) against a stratified grammar with eleven levels
   (ExprSpec.v). *)
From Verif Require Import Base Text ExprModel ExprSpec ExprProofs ExprFullProofs ExprSoundProofs.

(* Every expression of the grammar is accepted, consumes exactly its tokens
   and yields its operands and operators in evaluation order, whatever
   follows it that cannot continue it. *)
Theorem C39_complete : forall e ts rest,
  Gexp 11 e ts ->
  ~ begins_with infix_tokens rest -> ~ begins_with postfix_tokens rest ->
  ~ begins_with_text rest ->
  parse (ts ++ rest) = Acc (units e) rest.
Proof. exact complete_stops. Qed.
Print Assumptions C39_complete.

(* Whatever is accepted is an expression of the grammar, followed by
   something that cannot continue it. *)
Theorem C39_sound : forall ts us rest,
  parse ts = Acc us rest ->
  exists e pre, ts = pre ++ rest /\ Gexp 11 e pre /\ us = units e /\
    ~ begins_with infix_tokens rest /\ ~ begins_with postfix_tokens rest.
Proof. exact parse_sound. Qed.
Print Assumptions C39_sound.

(* The parser terminates on every sequence of tokens. *)
Theorem C39_total : forall ts, parse ts <> Fuel.
Proof. exact parse_total. Qed.
Print Assumptions C39_total.

(* A whole text is accepted exactly when it is an expression. *)
Theorem C39_exact : forall ts us,
  parse ts = Acc us [] <-> exists e, Gexp 11 e ts /\ us = units e.
Proof. exact parse_exact. Qed.
Print Assumptions C39_exact.

(* No text has two readings. *)
Theorem C39_unambiguous : forall e1 e2 ts,
  Gexp 11 e1 ts -> Gexp 11 e2 ts -> units e1 = units e2.
Proof. exact unambiguous. Qed.
Print Assumptions C39_unambiguous.

(* Two operators in a row: the one that binds tighter takes the middle
   operand; of two of the same level the left one takes it, except at level 11
   (assignments and ?:), where the right one does. *)
Theorem C39_group_left : forall q1 f t1 q2 g t2 a ta b tb c tc,
  Gop q1 f t1 -> Gop q2 g t2 -> Gelem a ta -> Gelem b tb -> Gelem c tc ->
  q1 < q2 \/ (q1 = q2 /\ q1 <> 11) ->
  parse (ta ++ t1 ++ tb ++ t2 ++ tc) = Acc (units (g (f a b) c)) [].
Proof. exact group_left. Qed.
Print Assumptions C39_group_left.

Theorem C39_group_right : forall q1 f t1 q2 g t2 a ta b tb c tc,
  Gop q1 f t1 -> Gop q2 g t2 -> Gelem a ta -> Gelem b tb -> Gelem c tc ->
  q2 < q1 \/ (q1 = 11 /\ q2 = 11) ->
  parse (ta ++ t1 ++ tb ++ t2 ++ tc) = Acc (units (f a (g b c))) [].
Proof. exact group_right. Qed.
Print Assumptions C39_group_right.

(* ---- examples ---- *)

Definition V (s : String.string) : token := TId (str s).
Definition N (s : String.string) : unit_ := UName (str s).

(* a - b - c *)
Example C39_ex_minus :
  parse [V "a"; P "-"; V "b"; P "-"; V "c"]
  = Acc [N "a"; N "b"; UOp xop_sub false; N "c"; UOp xop_sub false] [].
Proof. reflexivity. Qed.

(* a = b = c *)
Example C39_ex_assign :
  parse [V "a"; P "="; V "b"; P "="; V "c"]
  = Acc [N "a"; N "b"; N "c"; UOp xop_assign true; UOp xop_assign true] [].
Proof. reflexivity. Qed.

(* x = a + b * c[0] < d && e ? f : g = h; the closing bracket is left over *)
Example C39_ex_long :
  parse [V "x"; P "="; V "a"; P "+"; V "b"; P "*"; V "c"; P "["; TInt 0; P "]"; P "<"; V "d";
         P "&&"; V "e"; P "?"; V "f"; P ":"; V "g"; P "="; V "h"; P "]"]
  = Acc [N "x"; N "a"; N "b"; N "c"; ULit (LInt 0); UOp xop_index false; UOp xop_mul false;
         UOp xop_add false; N "d"; UOp xop_cmp_lt false;
         UBranch [(BTrue, [N "e"])] false;
         UBranch [(BTrue, [N "f"]); (BFalse, [N "g"; N "h"; UOp xop_assign true])] false;
         UOp xop_assign true] [P "]"].
Proof. reflexivity. Qed.

(* - ~ a ++ . k: suffixes bind tighter than prefixes; prefixes from right to
   left *)
Example C39_ex_unary :
  parse [P "-"; P "~"; V "a"; P "++"; P "."; V "k"]
  = Acc [N "a"; UOp xop_inc true; ULit (LStr (str "k")); UOp xop_index false;
         UOp xop_notb false; UOp xop_neg false] [].
Proof. reflexivity. Qed.

(* (a + b) * c *)
Example C39_ex_paren :
  parse [P "("; V "a"; P "+"; V "b"; P ")"; P "*"; V "c"]
  = Acc [N "a"; N "b"; UOp xop_add false; N "c"; UOp xop_mul false] [].
Proof. reflexivity. Qed.

(* f(a, ref b) passes the checks that each argument asks for *)
Example C39_ex_call :
  parse [V "f"; P "("; V "a"; P ","; K "ref"; V "b"; P ","; TInt 1; P ")"]
  = Acc [N "f"; UCall [[N "a"; UCheck false]; [N "b"; UCheck true]; [ULit (LInt 1)]]] [].
Proof. reflexivity. Qed.

(* a + is refused; + alone too; an empty text is no expression *)
Example C39_ex_bad :
  parse [V "a"; P "+"] = Err /\ parse [P "+"] = Err /\ parse [] = Rej /\
  parse [P "["; V "a"; P ")"] = Err.
Proof. repeat split. Qed.

(* an expression of the grammar, as the theorems see it *)
Example C39_ex_grammar :
  Gexp 11 (XBin xop_add false (XName (str "a")) (XBin xop_mul false (XName (str "b")) (XName (str "c"))))
    ([V "a"] ++ [P "+"] ++ [V "b"] ++ [P "*"] ++ [V "c"]).
Proof.
  assert (Hn : forall p s, Gexp p (XName (str s)) [V s])
    by (intros; apply X_elem, E_post, Q_prim, P_name).
  apply (X_infix 11 3 (XBin xop_add false)); [|lia | apply Hn |].
  - apply (O_left 3 (snd (nth 2 left_operators (0, [])))); vm_compute; tauto.
  - apply (X_infix _ 2 (XBin xop_mul false)); [|vm_compute; congruence | apply Hn | apply Hn].
    apply (O_left 2 (snd (nth 1 left_operators (0, [])))); vm_compute; tauto.
Qed.
