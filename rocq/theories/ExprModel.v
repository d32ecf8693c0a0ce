(* Parser of expressions.

   Models asteria/src/compiler/statement_sequence.cpp:58-84, 100-200 (terminal
   acceptors), 345-373 (do_accept_expression_and_check), 1287-1300 (reference
   specifiers), 1599-2720 (expressions), asteria/src/compiler/infix_element.cpp
   (whole file) and asteria/src/compiler/expression_unit.cpp:50-80
   (may_be_void).

   Simplifications.
   - The token stream is the list of the tokens not yet consumed; source
     locations and error codes are left out: a Compiler_Error is [Err].
   - A punctuator or keyword is represented by its spelling;
     token_stream.cpp:415-479 and 660-720 map spellings to enumerators one to
     one.
   - A closure (`func (...) {...}`) contains statements; it is one opaque
     token [TFunc] here.  The names `__file` and `__line` are replaced by
     literals; they are taken to be literal tokens already.
   - A function that appends to `units` returns what it appends.
   - The limit on native recursion (Recursion_Sentry) is left out. *)
From Verif Require Import Base Text.

(* asteria/compiler/token.hpp:16-52 *)
Inductive token : Type :=
  | TPunct (s : bytes)
  | TKw (s : bytes)
  | TId (s : bytes)
  | TInt (z : Z)
  | TReal (bits : Z)
  | TStr (s : bytes)
  | TFunc (id : Z).

(* asteria/runtime/enums.hpp:17-77 *)
Inductive xop : Type :=
  | xop_inc | xop_dec | xop_index | xop_pos | xop_neg | xop_notb | xop_notl | xop_unset
  | xop_countof | xop_typeof | xop_sqrt | xop_isnan | xop_isinf | xop_abs | xop_sign
  | xop_round | xop_floor | xop_ceil | xop_trunc | xop_iround | xop_ifloor | xop_iceil
  | xop_itrunc | xop_cmp_eq | xop_cmp_ne | xop_cmp_lt | xop_cmp_gt | xop_cmp_lte
  | xop_cmp_gte | xop_cmp_3way | xop_cmp_un | xop_add | xop_sub | xop_mul | xop_div
  | xop_mod | xop_sll | xop_srl | xop_sla | xop_sra | xop_andb | xop_orb | xop_xorb
  | xop_assign | xop_fma | xop_head | xop_tail | xop_lzcnt | xop_tzcnt | xop_popcnt
  | xop_addm | xop_subm | xop_mulm | xop_adds | xop_subs | xop_muls | xop_random
  | xop_isvoid.

Inductive lit : Type :=
  | LNull
  | LBool (b : bool)
  | LInt (z : Z)
  | LReal (bits : Z)
  | LStr (s : bytes).

(* asteria/compiler/expression_unit.hpp:15-126 *)
Inductive btype : Type := BFalse | BTrue | BNull.

Inductive unit_ : Type :=
  | ULit (v : lit)
  | UName (n : bytes)
  | UFunc (id : Z)
  | UBranch (bs : list (btype * list unit_)) (assign : bool)
  | UCall (args : list (list unit_))
  | UOp (x : xop) (assign : bool)
  | UArray (n : Z)
  | UObject (keys : list bytes)
  | UGlobal (n : bytes)
  | UVcall (args : list (list unit_))
  | UCheck (by_ref : bool)
  | UImport (args : list (list unit_))
  | UCatch (operand : list unit_).

(* What an acceptor does: consume tokens and produce something, leave the
   stream alone, throw, or run out of fuel (an artefact of the model). *)
Inductive res (A : Type) : Type :=
  | Acc (a : A) (rest : list token)
  | Rej
  | Err
  | Fuel.
Arguments Acc {A} a rest.
Arguments Rej {A}.
Arguments Err {A}.
Arguments Fuel {A}.

Fixpoint beq (a b : bytes) : bool :=
  match a, b with
  | [], [] => true
  | x :: a, y :: b => (x =? y) && beq a b
  | _, _ => false
  end.

Definition is_punct (s : bytes) (t : token) : bool :=
  match t with TPunct p => beq s p | _ => false end.
Definition is_kw (s : bytes) (t : token) : bool :=
  match t with TKw p => beq s p | _ => false end.

(* `find(table, key)` on one of the constant tables *)
Fixpoint lookup {A} (s : bytes) (l : list (bytes * A)) : option A :=
  match l with
  | [] => None
  | (k, a) :: l => if beq k s then Some a else lookup s l
  end.

(* expression_unit.cpp:50-80 *)
Fixpoint may_be_void (u : unit_) : bool :=
  match u with
  | ULit _ | UFunc _ | UOp _ _ | UArray _ | UObject _ | UCheck _ | UCatch _ => false
  | UName _ | UGlobal _ | UCall _ | UVcall _ | UImport _ => true
  | UBranch bs _ =>
      existsb (fun b =>
        (fix last_void (l : list unit_) : bool :=
           match l with
           | [] => false
           | [u] => may_be_void u
           | _ :: l => last_void l
           end) (snd b)) bs
  end.

Definition back_void (us : list unit_) : bool :=
  match rev us with
  | [] => false
  | u :: _ => may_be_void u
  end.

(* do_accept_json5_key_opt, statement_sequence.cpp:101-131 *)
Definition accept_key (ts : list token) : res bytes :=
  match ts with
  | TKw s :: r => Acc s r
  | TId s :: r => Acc s r
  | TStr s :: r => Acc s r
  | _ => Rej
  end.

(* do_accept_literal_opt, statement_sequence.cpp:133-194 *)
Fixpoint accept_strings (ts : list token) : bytes * list token :=
  match ts with
  | TStr s :: r => let '(v, r') := accept_strings r in (s ++ v, r')
  | _ => ([], ts)
  end.

Definition accept_literal (ts : list token) : res lit :=
  match ts with
  | TKw s :: r =>
      if beq s (str "null") then Acc LNull r
      else if beq s (str "false") then Acc (LBool false) r
      else if beq s (str "true") then Acc (LBool true) r
      else Rej
  | TInt z :: r => Acc (LInt z) r
  | TReal z :: r => Acc (LReal z) r
  | TStr _ :: _ => let '(v, r) := accept_strings ts in Acc (LStr v) r
  | _ => Rej
  end.

(* statement_sequence.cpp:1601-1631 *)
Definition prefix_keywords : list (bytes * xop) :=
  [ (str "unset", xop_unset); (str "countof", xop_countof); (str "typeof", xop_typeof);
    (str "not", xop_notl); (str "__abs", xop_abs); (str "__sign", xop_sign);
    (str "__sqrt", xop_sqrt); (str "__isnan", xop_isnan); (str "__isinf", xop_isinf);
    (str "__isvoid", xop_isvoid); (str "__round", xop_round); (str "__floor", xop_floor);
    (str "__ceil", xop_ceil); (str "__trunc", xop_trunc); (str "__iround", xop_iround);
    (str "__ifloor", xop_ifloor); (str "__iceil", xop_iceil); (str "__itrunc", xop_itrunc);
    (str "__lzcnt", xop_lzcnt); (str "__tzcnt", xop_tzcnt); (str "__popcnt", xop_popcnt) ].

(* statement_sequence.cpp:1641-1655 *)
Definition prefix_punctuators : list (bytes * xop) :=
  [ (str "+", xop_pos); (str "-", xop_neg); (str "~", xop_notb); (str "!", xop_notl);
    (str "++", xop_inc); (str "--", xop_dec); (str "#", xop_countof) ].

(* do_accept_prefix_operator, statement_sequence.cpp:1665-1699 *)
Definition accept_prefix (ts : list token) : res unit_ :=
  match ts with
  | TKw s :: r =>
      match lookup s prefix_keywords with
      | Some x => Acc (UOp x false) r
      | None => Rej
      end
  | TPunct s :: r =>
      match lookup s prefix_punctuators with
      | Some x => Acc (UOp x false) r
      | None => Rej
      end
  | _ => Rej
  end.

(* statement_sequence.cpp:2298-2311 *)
Definition postfix_punctuators : list (bytes * xop) :=
  [ (str "++", xop_inc); (str "--", xop_dec); (str "[^]", xop_head); (str "[$]", xop_tail);
    (str "[?]", xop_random) ].

(* statement_sequence.cpp:2044-2052 *)
Definition binary_keywords : list (bytes * xop) :=
  [ (str "__addm", xop_addm); (str "__subm", xop_subm); (str "__mulm", xop_mulm);
    (str "__adds", xop_adds); (str "__subs", xop_subs); (str "__muls", xop_muls) ].

(* statement_sequence.cpp:2593-2635 *)
Definition infix_punctuators : list (bytes * (xop * bool)) :=
  [ (str "+", (xop_add, false)); (str "-", (xop_sub, false)); (str "*", (xop_mul, false));
    (str "/", (xop_div, false)); (str "%", (xop_mod, false)); (str "&", (xop_andb, false));
    (str "|", (xop_orb, false)); (str "^", (xop_xorb, false)); (str "<<", (xop_sla, false));
    (str ">>", (xop_sra, false)); (str "<<<", (xop_sll, false)); (str ">>>", (xop_srl, false));
    (str "+=", (xop_add, true)); (str "-=", (xop_sub, true)); (str "*=", (xop_mul, true));
    (str "/=", (xop_div, true)); (str "%=", (xop_mod, true)); (str "&=", (xop_andb, true));
    (str "|=", (xop_orb, true)); (str "^=", (xop_xorb, true)); (str "<<=", (xop_sla, true));
    (str ">>=", (xop_sra, true)); (str "<<<=", (xop_sll, true)); (str ">>>=", (xop_srl, true));
    (str "=", (xop_assign, true)); (str "==", (xop_cmp_eq, false));
    (str "!=", (xop_cmp_ne, false)); (str "<", (xop_cmp_lt, false));
    (str ">", (xop_cmp_gt, false)); (str "<=", (xop_cmp_lte, false));
    (str ">=", (xop_cmp_gte, false)); (str "<=>", (xop_cmp_3way, false));
    (str "</>", (xop_cmp_un, false)) ].

(* asteria/compiler/infix_element.hpp:15-53 *)
Inductive elem : Type :=
  | MHead (us : list unit_)
  | MTern (assign : bool) (bt bf : list unit_)
  | MAnd (assign : bool) (bt : list unit_)
  | MOr (assign : bool) (bf : list unit_)
  | MCoal (assign : bool) (bn : list unit_)
  | MGen (x : xop) (assign : bool) (rhs : list unit_).

(* asteria/compiler/enums.hpp:147-162 *)
Definition precedence_coalescence := 1.
Definition precedence_multiplicative := 2.
Definition precedence_additive := 3.
Definition precedence_shift := 4.
Definition precedence_bitwise_and := 5.
Definition precedence_bitwise_or := 6.
Definition precedence_relational := 7.
Definition precedence_equality := 8.
Definition precedence_logical_and := 9.
Definition precedence_logical_or := 10.
Definition precedence_assignment := 11.
Definition precedence_lowest := 99.

(* tell_precedence, infix_element.cpp:13-107.  An operator outside the table
   would terminate the process (line 100); it gets the lowest precedence
   here and never occurs. *)
Definition xop_precedence (x : xop) : Z :=
  match x with
  | xop_mul | xop_div | xop_mod => precedence_multiplicative
  | xop_add | xop_sub => precedence_additive
  | xop_sla | xop_sra | xop_sll | xop_srl => precedence_shift
  | xop_cmp_lt | xop_cmp_lte | xop_cmp_gt | xop_cmp_gte => precedence_relational
  | xop_cmp_eq | xop_cmp_ne | xop_cmp_3way | xop_cmp_un => precedence_equality
  | xop_andb => precedence_bitwise_and
  | xop_xorb | xop_orb => precedence_bitwise_or
  | xop_assign => precedence_assignment
  | _ => precedence_lowest
  end.

Definition tell_precedence (e : elem) : Z :=
  match e with
  | MHead _ => precedence_lowest
  | MTern _ _ _ => precedence_assignment
  | MAnd a _ => if a then precedence_assignment else precedence_logical_and
  | MOr a _ => if a then precedence_assignment else precedence_logical_or
  | MCoal a _ => if a then precedence_assignment else precedence_coalescence
  | MGen x a _ => if a then precedence_assignment else xop_precedence x
  end.

(* extract, infix_element.cpp:109-205: what is appended to `units` *)
Definition extract (e : elem) : list unit_ :=
  match e with
  | MHead us => us
  | MTern a bt bf => [UBranch [(BTrue, bt); (BFalse, bf)] a]
  | MAnd a bt => [UBranch [(BTrue, bt)] a]
  | MOr a bf => [UBranch [(BFalse, bf)] a]
  | MCoal a bn => [UBranch [(BNull, bn)] a]
  | MGen x a rhs => rhs ++ [UOp x a]
  end.

(* appending to mut_junction(), infix_element.cpp:207-237 *)
Definition junction_append (e : elem) (us : list unit_) : elem :=
  match e with
  | MHead us0 => MHead (us0 ++ us)
  | MTern a bt bf => MTern a bt (bf ++ us)
  | MAnd a bt => MAnd a (bt ++ us)
  | MOr a bf => MOr a (bf ++ us)
  | MCoal a bn => MCoal a (bn ++ us)
  | MGen x a rhs => MGen x a (rhs ++ us)
  end.

(* The two loops of do_accept_expression that collapse the stack,
   statement_sequence.cpp:2711-2716 and 2720-2725.  [top] is `stack.back()`,
   [below] the rest, topmost first. *)
Fixpoint collapse (np : Z) (top : elem) (below : list elem) : elem * list elem :=
  match below with
  | [] => (top, [])
  | next :: below' =>
      if tell_precedence top <=? np
      then collapse np (junction_append next (extract top)) below'
      else (top, below)
  end.

Fixpoint collapse_all (top : elem) (below : list elem) : elem :=
  match below with
  | [] => top
  | next :: below' => collapse_all (junction_append next (extract top)) below'
  end.

Section Expr.

  (* do_accept_expression on shorter inputs *)
  Variable pexpr : list token -> res (list unit_).

  (* expect a punctuator, or throw *)
  Definition expect {A} (s : bytes) (ts : list token) (k : list token -> res A) : res A :=
    match ts with
    | t :: r => if is_punct s t then k r else Err
    | [] => Err
    end.

  (* expect an expression, or throw *)
  Definition expect_expr {A} (ts : list token) (k : list unit_ -> list token -> res A) : res A :=
    match pexpr ts with
    | Acc us r => k us r
    | Rej => Err
    | Err => Err
    | Fuel => Fuel
    end.

  (* do_accept_expression_and_check, statement_sequence.cpp:359-373 *)
  Definition expr_and_check (by_ref : bool) (ts : list token) : res (list unit_) :=
    match pexpr ts with
    | Acc us r => Acc (if back_void us then us ++ [UCheck by_ref] else us) r
    | Rej => Rej
    | Err => Err
    | Fuel => Fuel
    end.

  (* do_accept_reference_specifier_opt, statement_sequence.cpp:1286-1300 *)
  Definition accept_ref (ts : list token) : bool * list token :=
    match ts with
    | t :: r => if is_kw (str "ref") t || is_punct (str "->") t then (true, r) else (false, ts)
    | [] => (false, ts)
    end.

  (* The argument loop of do_accept_postfix_function_call and
     do_accept_import_function_call, statement_sequence.cpp:2349-2371; ends
     with the tokens that should begin with the closing parenthesis. *)
  Fixpoint accept_args (n : nat) (ts : list token) : res (list (list unit_)) :=
    match n with
    | O => Fuel
    | S n =>
        let '(by_ref, ts1) := accept_ref ts in
        match expr_and_check by_ref ts1 with
        | Rej => if by_ref then Err else Acc [] ts1
        | Acc us (t :: r) =>
            if is_punct (str ",") t
            then match accept_args n r with
                 | Acc l r' => Acc (us :: l) r'
                 | x => x
                 end
            else Acc [us] (t :: r)
        | Acc us [] => Acc [us] []
        | Err => Err
        | Fuel => Fuel
        end
    end.

  (* The element loop of do_accept_unnamed_array,
     statement_sequence.cpp:1879-1897; [count] is `nelems`. *)
  Fixpoint accept_elements (n : nat) (count : Z) (ts : list token) : res (list unit_ * Z) :=
    match n with
    | O => Fuel
    | S n =>
        match expr_and_check false ts with
        | Rej => Acc ([], count) ts
        | Acc us r =>
            if 0xFFFFF <=? count then Err
            else
              match r with
              | t :: r' =>
                  if is_punct (str ",") t || is_punct (str ";") t
                  then match accept_elements n (count + 1) r' with
                       | Acc (l, c) r'' => Acc (us ++ l, c) r''
                       | x => x
                       end
                  else Acc (us, count + 1) r
              | [] => Acc (us, count + 1) r
              end
        | Err => Err
        | Fuel => Fuel
        end
    end.

  (* The loop of do_accept_unnamed_object, statement_sequence.cpp:1927-1957;
     [seen] is `keys`. *)
  Fixpoint accept_members (n : nat) (seen : list bytes) (ts : list token)
    : res (list unit_ * list bytes) :=
    match n with
    | O => Fuel
    | S n =>
        match accept_key ts with
        | Acc key r =>
            if existsb (beq key) seen then Err
            else
              match r with
              | t :: r1 =>
                  if is_punct (str "=") t || is_punct (str ":") t
                  then
                    match expr_and_check false r1 with
                    | Acc us r2 =>
                        match r2 with
                        | t2 :: r3 =>
                            if is_punct (str ",") t2 || is_punct (str ";") t2
                            then match accept_members n (seen ++ [key]) r3 with
                                 | Acc (l, ks) r4 => Acc (us ++ l, ks) r4
                                 | x => x
                                 end
                            else Acc (us, seen ++ [key]) r2
                        | [] => Acc (us, seen ++ [key]) r2
                        end
                    | Rej => Err
                    | Err => Err
                    | Fuel => Fuel
                    end
                  else Err
              | [] => Err
              end
        | _ => Acc ([], seen) ts
        end
    end.

  (* do_accept_primary_expression, statement_sequence.cpp:2242-2296, with the
     acceptors it calls *)
  Definition accept_primary (n : nat) (ts : list token) : res (list unit_) :=
    match ts with
    (* do_accept_local_reference, 1701-1725 *)
    | TId s :: r => Acc [UName s] r
    | TFunc i :: r => Acc [UFunc i] r
    | TKw s :: r =>
        (* do_accept_global_reference, 1727-1746 *)
        if beq s (str "extern")
        then match r with TId x :: r' => Acc [UGlobal x] r' | _ => Err end
        else
          (* do_accept_literal, 1748-1758 *)
          match accept_literal ts with
          | Acc v r' => Acc [ULit v] r'
          | _ =>
              (* do_accept_this, 1760-1771 *)
              if beq s (str "this") then Acc [UName (str "__this")] r
              (* do_accept_fused_multiply_add, 1992-2042 *)
              else if beq s (str "__fma")
              then
                expect (str "(") r (fun r0 =>
                expect_expr r0 (fun a r1 =>
                expect (str ",") r1 (fun r2 =>
                expect_expr r2 (fun b r3 =>
                expect (str ",") r3 (fun r4 =>
                expect_expr r4 (fun c r5 =>
                expect (str ")") r5 (fun r6 =>
                Acc (a ++ b ++ c ++ [UOp xop_fma false]) r6)))))))
              else
                (* do_accept_prefix_binary_expression, 2075-2110 *)
                match lookup s binary_keywords with
                | Some x =>
                    expect (str "(") r (fun r0 =>
                    expect_expr r0 (fun a r1 =>
                    expect (str ",") r1 (fun r2 =>
                    expect_expr r2 (fun b r3 =>
                    expect (str ")") r3 (fun r4 =>
                    Acc (a ++ b ++ [UOp x false]) r4)))))
                | None =>
                    (* do_accept_catch_expression, 2112-2140 *)
                    if beq s (str "catch")
                    then
                      expect (str "(") r (fun r0 =>
                      expect_expr r0 (fun a r1 =>
                      expect (str ")") r1 (fun r2 =>
                      Acc [UCatch a] r2)))
                    (* do_accept_variadic_function_call, 2142-2183 *)
                    else if beq s (str "__vcall")
                    then
                      expect (str "(") r (fun r0 =>
                      expect_expr r0 (fun a r1 =>
                      expect (str ",") r1 (fun r2 =>
                      expect_expr r2 (fun b r3 =>
                      expect (str ")") r3 (fun r4 =>
                      Acc [UVcall [a; b]] r4)))))
                    (* do_accept_import_function_call, 2185-2240 *)
                    else if beq s (str "import")
                    then
                      expect (str "(") r (fun r0 =>
                      match accept_args n r0 with
                      | Acc [] _ => Err
                      | Acc args r1 =>
                          expect (str ")") r1 (fun r2 => Acc [UImport args] r2)
                      | Rej => Err
                      | Err => Err
                      | Fuel => Fuel
                      end)
                    else Rej
                end
          end
    | TPunct s :: r =>
        (* do_accept_unnamed_array, 1865-1910 *)
        if beq s (str "[")
        then
          match accept_elements n 0 r with
          | Acc (us, c) r1 => expect (str "]") r1 (fun r2 => Acc (us ++ [UArray c]) r2)
          | Rej => Err
          | Err => Err
          | Fuel => Fuel
          end
        (* do_accept_unnamed_object, 1912-1969 *)
        else if beq s (str "{")
        then
          match accept_members n [] r with
          | Acc (us, ks) r1 => expect (str "}") r1 (fun r2 => Acc (us ++ [UObject ks]) r2)
          | Rej => Err
          | Err => Err
          | Fuel => Fuel
          end
        (* do_accept_nested_expression, 1971-1990 *)
        else if beq s (str "(")
        then expect_expr r (fun us r1 => expect (str ")") r1 (fun r2 => Acc us r2))
        else Rej
    | _ =>
        match accept_literal ts with
        | Acc v r' => Acc [ULit v] r'
        | _ => Rej
        end
    end.

  (* One postfix operator: do_accept_postfix_operator 2321-2341,
     do_accept_postfix_function_call 2343-2385, do_accept_postfix_subscript
     2387-2411, do_accept_postfix_member_access 2413-2438 *)
  Definition accept_postfix (n : nat) (ts : list token) : res (list unit_) :=
    match ts with
    | TPunct s :: r =>
        match lookup s postfix_punctuators with
        | Some x => Acc [UOp x true] r
        | None =>
            if beq s (str "(")
            then
              match accept_args n r with
              | Acc args r1 => expect (str ")") r1 (fun r2 => Acc [UCall args] r2)
              | Rej => Err
              | Err => Err
              | Fuel => Fuel
              end
            else if beq s (str "[")
            then expect_expr r (fun us r1 =>
                 expect (str "]") r1 (fun r2 => Acc (us ++ [UOp xop_index false]) r2))
            else if beq s (str ".")
            then
              match accept_key r with
              | Acc key r1 => Acc [ULit (LStr key); UOp xop_index false] r1
              | _ => Err
              end
            else Rej
        end
    | _ => Rej
    end.

  (* The loops of do_accept_infix_element, statement_sequence.cpp:2440-2485.
     [prefixes] in the order in which they were read. *)
  Fixpoint accept_prefixes (n : nat) (ts : list token) : res (list unit_) :=
    match n with
    | O => Fuel
    | S n =>
        match accept_prefix ts with
        | Acc u r =>
            match accept_prefixes n r with
            | Acc l r' => Acc (u :: l) r'
            | x => x
            end
        | _ => Acc [] ts
        end
    end.

  Fixpoint accept_postfixes (n : nat) (n0 : nat) (ts : list token) : res (list unit_) :=
    match n with
    | O => Fuel
    | S n =>
        match accept_postfix n0 ts with
        | Acc us r =>
            match accept_postfixes n n0 r with
            | Acc l r' => Acc (us ++ l) r'
            | x => x
            end
        | Rej => Acc [] ts
        | Err => Err
        | Fuel => Fuel
        end
    end.

  Definition accept_element (n : nat) (ts : list token) : res (list unit_) :=
    match accept_prefixes n ts with
    | Acc prefixes r =>
        match accept_primary n r with
        | Acc us r1 =>
            match accept_postfixes n n r1 with
            | Acc l r2 => Acc (us ++ l ++ rev prefixes) r2
            | x => x
            end
        | Rej => match prefixes with [] => Rej | _ => Err end
        | Err => Err
        | Fuel => Fuel
        end
    | x => x
    end.

  (* do_accept_infix_operator_opt, statement_sequence.cpp:2496-2684 *)
  Definition accept_infix (ts : list token) : res elem :=
    match ts with
    | TPunct s :: r =>
        if beq s (str "?") || beq s (str "?=")
        then
          expect_expr r (fun bt r1 =>
          expect (str ":") r1 (fun r2 =>
          Acc (MTern (beq s (str "?=")) bt []) r2))
        else if beq s (str "&&") || beq s (str "&&=") then Acc (MAnd (beq s (str "&&=")) []) r
        else if beq s (str "||") || beq s (str "||=") then Acc (MOr (beq s (str "||=")) []) r
        else if beq s (str "??") || beq s (str "??=") then Acc (MCoal (beq s (str "??=")) []) r
        else
          match lookup s infix_punctuators with
          | Some (x, a) => Acc (MGen x a []) r
          | None => Rej
          end
    | TKw s :: r =>
        if beq s (str "and") then Acc (MAnd false []) r
        else if beq s (str "or") then Acc (MOr false []) r
        else Rej
    | _ => Rej
    end.

  (* The loop of do_accept_expression, statement_sequence.cpp:2697-2727 *)
  Fixpoint infix_loop (n n0 : nat) (top : elem) (below : list elem) (ts : list token)
    : res (list unit_) :=
    match n with
    | O => Fuel
    | S n =>
        match accept_infix ts with
        | Acc op r =>
            match accept_element n0 r with
            | Acc us r1 =>
                let op' := junction_append op us in
                let np := tell_precedence op' in
                let np' := if np =? precedence_assignment then precedence_assignment - 1 else np in
                let '(top', below') := collapse np' top below in
                infix_loop n n0 op' (top' :: below') r1
            | Rej => Err
            | Err => Err
            | Fuel => Fuel
            end
        | Rej => Acc (extract (collapse_all top below)) ts
        | Err => Err
        | Fuel => Fuel
        end
    end.

  Definition expr_body (n : nat) (ts : list token) : res (list unit_) :=
    match accept_element n ts with
    | Acc us r => infix_loop n n (MHead us) [] r
    | x => x
    end.

End Expr.

(* do_accept_expression, statement_sequence.cpp:2686-2727; the fuel bounds
   both the recursion depth and the number of iterations of each loop, one
   more than the number of tokens is enough (C39_total). *)
Fixpoint expr (n : nat) (ts : list token) : res (list unit_) :=
  match n with
  | O => Fuel
  | S n' => expr_body (expr n') n ts
  end.

Definition parse (ts : list token) : res (list unit_) := expr (S (length ts)) ts.
