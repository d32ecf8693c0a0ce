(* What an expression is: abstract syntax trees, the grammar (which token
   sequences denote which trees), and the meaning of a tree as a sequence of
   units in evaluation order.  Written from the language reference
   (operators listed from the tightest to the loosest binding), not from the
   parser. *)
From Verif Require Import Base Text ExprModel.

Inductive ex : Type :=
  | XLit (v : lit)
  | XName (n : bytes)
  | XFunc (id : Z)
  | XGlobal (n : bytes)
  | XPrefix (x : xop) (e : ex)
  | XPostfix (x : xop) (e : ex)
  | XIndex (e i : ex)
  | XMember (e : ex) (key : bytes)
  | XCall (f : ex) (args : list (bool * ex))
  | XArray (es : list ex)
  | XObject (kvs : list (bytes * ex))
  | XFma (a b c : ex)
  | XPair (x : xop) (a b : ex)
  | XCatch (e : ex)
  | XVcall (f g : ex)
  | XImport (args : list (bool * ex))
  | XBin (x : xop) (assign : bool) (a b : ex)
  | XAnd (assign : bool) (a b : ex)
  | XOr (assign : bool) (a b : ex)
  | XCoal (assign : bool) (a b : ex)
  | XTern (assign : bool) (c a b : ex).

Definition P (s : String.string) : token := TPunct (str s).
Definition K (s : String.string) : token := TKw (str s).
Arguments P s%string_scope.
Arguments K s%string_scope.

(* Binary operators that group from left to right, level 1 binding tightest. *)
Definition left_operators : list (Z * list (token * (ex -> ex -> ex))) :=
  [ (1, [(P "??", XCoal false)]);
    (2, [(P "*", XBin xop_mul false); (P "/", XBin xop_div false); (P "%", XBin xop_mod false)]);
    (3, [(P "+", XBin xop_add false); (P "-", XBin xop_sub false)]);
    (4, [(P "<<", XBin xop_sla false); (P ">>", XBin xop_sra false);
         (P "<<<", XBin xop_sll false); (P ">>>", XBin xop_srl false)]);
    (5, [(P "&", XBin xop_andb false)]);
    (6, [(P "^", XBin xop_xorb false); (P "|", XBin xop_orb false)]);
    (7, [(P "<", XBin xop_cmp_lt false); (P "<=", XBin xop_cmp_lte false);
         (P ">", XBin xop_cmp_gt false); (P ">=", XBin xop_cmp_gte false)]);
    (8, [(P "==", XBin xop_cmp_eq false); (P "!=", XBin xop_cmp_ne false);
         (P "<=>", XBin xop_cmp_3way false); (P "</>", XBin xop_cmp_un false)]);
    (9, [(P "&&", XAnd false); (K "and", XAnd false)]);
    (10, [(P "||", XOr false); (K "or", XOr false)]) ].

(* Assignments, all on level 11, grouping from right to left. *)
Definition right_operators : list (token * (ex -> ex -> ex)) :=
  [ (P "=", XBin xop_assign true);
    (P "+=", XBin xop_add true); (P "-=", XBin xop_sub true); (P "*=", XBin xop_mul true);
    (P "/=", XBin xop_div true); (P "%=", XBin xop_mod true);
    (P "&=", XBin xop_andb true); (P "|=", XBin xop_orb true); (P "^=", XBin xop_xorb true);
    (P "<<=", XBin xop_sla true); (P ">>=", XBin xop_sra true);
    (P "<<<=", XBin xop_sll true); (P ">>>=", XBin xop_srl true);
    (P "&&=", XAnd true); (P "||=", XOr true); (P "??=", XCoal true) ].

Definition prefix_operators : list (token * xop) :=
  [ (P "+", xop_pos); (P "-", xop_neg); (P "~", xop_notb); (P "!", xop_notl); (K "not", xop_notl);
    (P "++", xop_inc); (P "--", xop_dec); (P "#", xop_countof); (K "countof", xop_countof);
    (K "unset", xop_unset); (K "typeof", xop_typeof); (K "__abs", xop_abs); (K "__sign", xop_sign);
    (K "__sqrt", xop_sqrt); (K "__isnan", xop_isnan); (K "__isinf", xop_isinf);
    (K "__isvoid", xop_isvoid); (K "__round", xop_round); (K "__floor", xop_floor);
    (K "__ceil", xop_ceil); (K "__trunc", xop_trunc); (K "__iround", xop_iround);
    (K "__ifloor", xop_ifloor); (K "__iceil", xop_iceil); (K "__itrunc", xop_itrunc);
    (K "__lzcnt", xop_lzcnt); (K "__tzcnt", xop_tzcnt); (K "__popcnt", xop_popcnt) ].

Definition postfix_operators : list (token * xop) :=
  [ (P "++", xop_inc); (P "--", xop_dec); (P "[^]", xop_head); (P "[$]", xop_tail);
    (P "[?]", xop_random) ].

Definition pair_operators : list (token * xop) :=
  [ (K "__addm", xop_addm); (K "__subm", xop_subm); (K "__mulm", xop_mulm);
    (K "__adds", xop_adds); (K "__subs", xop_subs); (K "__muls", xop_muls) ].

(* The levels allowed on the two sides of an operator of level q. *)
Definition lhs_level (q : Z) : Z := if q =? 11 then 10 else q.
Definition rhs_level (q : Z) : Z := if q =? 11 then 11 else q - 1.

Inductive key_token : token -> bytes -> Prop :=
  | key_word s : key_token (TKw s) s
  | key_name s : key_token (TId s) s
  | key_text s : key_token (TStr s) s.

Definition separator (t : token) : Prop := t = P "," \/ t = P ";".
Definition by_reference (t : token) : Prop := t = K "ref" \/ t = P "->".

Inductive Gref : bool -> list token -> Prop :=
  | R_none : Gref false []
  | R_ref t : by_reference t -> Gref true [t].

(* Gexp p e ts: the tokens ts are the expression e, built from operators of
   level at most p. *)
Inductive Gprim : ex -> list token -> Prop :=
  | P_name n : Gprim (XName n) [TId n]
  | P_func i : Gprim (XFunc i) [TFunc i]
  | P_global n : Gprim (XGlobal n) [K "extern"; TId n]
  | P_null : Gprim (XLit LNull) [K "null"]
  | P_bool (b : bool) : Gprim (XLit (LBool b)) [if b then K "true" else K "false"]
  | P_int z : Gprim (XLit (LInt z)) [TInt z]
  | P_real z : Gprim (XLit (LReal z)) [TReal z]
  | P_text s l : Gprim (XLit (LStr (concat (s :: l)))) (map TStr (s :: l))
  | P_this : Gprim (XName (str "__this")) [K "this"]
  | P_array es ts :
      Gelems es ts -> Z.of_nat (length es) <= 0xFFFFF ->
      Gprim (XArray es) (P "[" :: ts ++ [P "]"])
  | P_object kvs ts :
      Gmembers kvs ts -> NoDup (map fst kvs) ->
      Gprim (XObject kvs) (P "{" :: ts ++ [P "}"])
  | P_paren e ts : Gexp 11 e ts -> Gprim e (P "(" :: ts ++ [P ")"])
  | P_fma a b c ta tb tc :
      Gexp 11 a ta -> Gexp 11 b tb -> Gexp 11 c tc ->
      Gprim (XFma a b c)
        (K "__fma" :: P "(" :: ta ++ P "," :: tb ++ P "," :: tc ++ [P ")"])
  | P_pair t x a b ta tb :
      In (t, x) pair_operators -> Gexp 11 a ta -> Gexp 11 b tb ->
      Gprim (XPair x a b) (t :: P "(" :: ta ++ P "," :: tb ++ [P ")"])
  | P_catch e ts : Gexp 11 e ts -> Gprim (XCatch e) (K "catch" :: P "(" :: ts ++ [P ")"])
  | P_vcall a b ta tb :
      Gexp 11 a ta -> Gexp 11 b tb ->
      Gprim (XVcall a b) (K "__vcall" :: P "(" :: ta ++ P "," :: tb ++ [P ")"])
  | P_import args ts :
      Gargs args ts -> args <> [] ->
      Gprim (XImport args) (K "import" :: P "(" :: ts ++ [P ")"])

with Gpost : ex -> list token -> Prop :=
  | Q_prim e ts : Gprim e ts -> Gpost e ts
  | Q_op t x e ts :
      In (t, x) postfix_operators -> Gpost e ts -> Gpost (XPostfix x e) (ts ++ [t])
  | Q_call f args ts ta :
      Gpost f ts -> Gargs args ta -> Gpost (XCall f args) (ts ++ P "(" :: ta ++ [P ")"])
  | Q_index e i ts ti :
      Gpost e ts -> Gexp 11 i ti -> Gpost (XIndex e i) (ts ++ P "[" :: ti ++ [P "]"])
  | Q_member e t key ts :
      Gpost e ts -> key_token t key -> Gpost (XMember e key) (ts ++ [P "."; t])

with Gelem : ex -> list token -> Prop :=
  | E_post e ts : Gpost e ts -> Gelem e ts
  | E_prefix t x e ts :
      In (t, x) prefix_operators -> Gelem e ts -> Gelem (XPrefix x e) (t :: ts)

with Gexp : Z -> ex -> list token -> Prop :=
  | X_elem p e ts : Gelem e ts -> Gexp p e ts
  | X_infix p q f top l r tl tr :
      Gop q f top -> q <= p ->
      Gexp (lhs_level q) l tl -> Gexp (rhs_level q) r tr ->
      Gexp p (f l r) (tl ++ top ++ tr)

with Gop : Z -> (ex -> ex -> ex) -> list token -> Prop :=
  | O_left q ops t f : In (q, ops) left_operators -> In (t, f) ops -> Gop q f [t]
  | O_right t f : In (t, f) right_operators -> Gop 11 f [t]
  | O_ternary (a : bool) e ts :
      Gexp 11 e ts ->
      Gop 11 (fun c r => XTern a c e r) ((if a then P "?=" else P "?") :: ts ++ [P ":"])

with Gargs : list (bool * ex) -> list token -> Prop :=
  | A_nil : Gargs [] []
  | A_last b e ta ts : Gref b ta -> Gexp 11 e ts -> Gargs [(b, e)] (ta ++ ts)
  | A_more b e ta ts l tl :
      Gref b ta -> Gexp 11 e ts -> Gargs l tl -> Gargs ((b, e) :: l) (ta ++ ts ++ P "," :: tl)

with Gelems : list ex -> list token -> Prop :=
  | L_nil : Gelems [] []
  | L_last e ts : Gexp 11 e ts -> Gelems [e] ts
  | L_more e t ts l tl :
      Gexp 11 e ts -> separator t -> Gelems l tl -> Gelems (e :: l) (ts ++ t :: tl)

with Gmembers : list (bytes * ex) -> list token -> Prop :=
  | M_nil : Gmembers [] []
  | M_last k tk ti e ts :
      key_token tk k -> ti = P "=" \/ ti = P ":" -> Gexp 11 e ts ->
      Gmembers [(k, e)] (tk :: ti :: ts)
  | M_more k tk ti e t ts l tl :
      key_token tk k -> ti = P "=" \/ ti = P ":" -> Gexp 11 e ts -> separator t ->
      Gmembers l tl -> Gmembers ((k, e) :: l) (tk :: ti :: ts ++ t :: tl).

(* Can the value of this expression be nothing at all (the result of a
   function that returns nothing)? *)
Fixpoint voidable (e : ex) : bool :=
  match e with
  | XName _ | XGlobal _ | XCall _ _ | XVcall _ _ | XImport _ => true
  | XAnd _ _ r | XOr _ _ r | XCoal _ _ r => voidable r
  | XTern _ _ a b => voidable a || voidable b
  | _ => false
  end.

(* Evaluation order: operands from left to right, then the operator; the
   right operand of &&, || and ??, and the branches of ?:, only inside a
   branch. *)
Fixpoint units (e : ex) : list unit_ :=
  let value (b : bool) (e : ex) :=
    units e ++ (if voidable e then [UCheck b] else []) in
  match e with
  | XLit v => [ULit v]
  | XName n => [UName n]
  | XFunc i => [UFunc i]
  | XGlobal n => [UGlobal n]
  | XPrefix x e => units e ++ [UOp x false]
  | XPostfix x e => units e ++ [UOp x true]
  | XIndex e i => units e ++ units i ++ [UOp xop_index false]
  | XMember e key => units e ++ [ULit (LStr key); UOp xop_index false]
  | XCall f args => units f ++ [UCall (map (fun a => value (fst a) (snd a)) args)]
  | XArray es => flat_map (value false) es ++ [UArray (Z.of_nat (length es))]
  | XObject kvs => flat_map (fun kv => value false (snd kv)) kvs ++ [UObject (map fst kvs)]
  | XFma a b c => units a ++ units b ++ units c ++ [UOp xop_fma false]
  | XPair x a b => units a ++ units b ++ [UOp x false]
  | XCatch e => [UCatch (units e)]
  | XVcall f g => [UVcall [units f; units g]]
  | XImport args => [UImport (map (fun a => value (fst a) (snd a)) args)]
  | XBin x a l r => units l ++ units r ++ [UOp x a]
  | XAnd a l r => units l ++ [UBranch [(BTrue, units r)] a]
  | XOr a l r => units l ++ [UBranch [(BFalse, units r)] a]
  | XCoal a l r => units l ++ [UBranch [(BNull, units r)] a]
  | XTern a c t f => units c ++ [UBranch [(BTrue, units t); (BFalse, units f)] a]
  end.

(* Tokens that would continue an expression. *)
Definition infix_tokens : list token :=
  [P "?"; P "?="] ++ flat_map (fun l => map fst (snd l)) left_operators ++ map fst right_operators.
Definition postfix_tokens : list token :=
  map fst postfix_operators ++ [P "("; P "["; P "."].

Definition begins_with (l : list token) (ts : list token) : Prop :=
  exists t r, ts = t :: r /\ In t l.
Definition begins_with_text (ts : list token) : Prop :=
  exists s r, ts = TStr s :: r.
