(* Parser of statements.

   Models asteria/src/compiler/statement_sequence.cpp:17-98, 193-307 (terminal
   acceptors and declarators), 319-402 (scopes, expressions), 404-1600
   (statements) and 2742-2801 (reload, reload_oneline), on top of the parser of
   expressions in ExprModel.v.

   Simplifications, as in ExprModel.v: source locations and error codes are left
   out; a closure expression (`func (...) {...}`) is one opaque token, while the
   keyword of a definition (`func name(...) {...}`) is the keyword it is; the
   limit on native recursion is left out. *)
From Verif Require Import Base Text ExprModel.

(* asteria/runtime/enums.hpp, Jump_Target *)
Inductive target : Type := ToNone | ToSwitch | ToWhile | ToFor.

(* compiler/statement.hpp:14-163; switch_clause, 54-62, is a label and a body *)
Inductive label : Type :=
  | LDefault
  | LCase (e : list unit_)
  | LEach (lower_closed upper_closed : bool) (lower upper : list unit_).
Inductive stmt : Type :=
  | SExpr (e : list unit_)
  | SBlock (b : list stmt)
  | SVars (immutable : bool) (ds : list (list bytes * list unit_))
  | SFunc (name : bytes) (params : list bytes) (body : list stmt)
  | SIf (neg : bool) (c : list unit_) (bt bf : list stmt)
  | SSwitch (c : list unit_) (cl : list (label * list stmt))
  | SDo (b : list stmt) (neg : bool) (c : list unit_) (complete : list stmt)
  | SWhile (neg : bool) (c : list unit_) (b complete : list stmt)
  | SEach (key mapped : bytes) (init : list unit_) (b complete : list stmt)
  | SFor (init : list stmt) (c step : list unit_) (b complete : list stmt)
  | STry (b : list stmt) (except : bytes) (handler : list stmt)
  | SBreak (t : target)
  | SContinue (t : target)
  | SThrow (e : list unit_)
  | SReturn (by_ref : bool) (e : list unit_)
  | SAssert (e : list unit_) (msg : bytes)
  | SDefer (e : list unit_)
  | SRefs (ds : list (bytes * list unit_)).

(* `if(auto q = ...)`: go on with what was accepted *)
Definition bind {A B} (r : res A) (k : A -> list token -> res B) : res B :=
  match r with Acc a ts => k a ts | Rej => Rej | Err => Err | Fuel => Fuel end.
Notation "'get' x , t <- r ; k" := (bind r (fun x t => k))
  (at level 200, x name, t name, r at level 100, k at level 200).
(* `if(!q) throw Compiler_Error(...)` *)
Definition need {A} (r : res A) : res A := match r with Rej => Err | x => x end.
(* `if(!q) q.emplace(a)` *)
Definition default {A} (a : A) (ts : list token) (r : res A) : res A :=
  match r with Rej => Acc a ts | x => x end.
(* one acceptor after another *)
Definition or_else {A} (r s : res A) : res A := match r with Rej => s | x => x end.

(* do_accept_keyword_opt, 17-36, and do_accept_punctuator_opt, 38-56, with one
   keyword or punctuator, or with some *)
Definition kw (s : bytes) (ts : list token) : res unit :=
  match ts with t :: r => if is_kw s t then Acc tt r else Rej | [] => Rej end.
Definition pu (s : bytes) (ts : list token) : res unit :=
  match ts with t :: r => if is_punct s t then Acc tt r else Rej | [] => Rej end.
Fixpoint one_of {A} (f : bytes -> list token -> res unit) (l : list (bytes * A)) (ts : list token) : res A :=
  match l with
  | [] => Rej
  | (s, a) :: l => or_else (get u, r <- f s ts; Acc a r) (one_of f l ts)
  end.

(* do_accept_identifier_opt with user_decl, 58-83.  The second byte of a name of
   one letter is its terminating zero. *)
Definition ident (ts : list token) : res bytes :=
  match ts with
  | TKw _ :: _ | TFunc _ :: _ => Err
  | TId s :: r => if (nth 0 s 0 =? 95) && (nth 1 s 0 =? 95) then Err else Acc s r
  | _ => Rej
  end.
(* do_accept_string_literal_opt, 85-99 *)
Definition text (ts : list token) : res bytes :=
  match ts with TStr s :: r => Acc s r | _ => Rej end.
(* do_accept_negation_opt, 194-209, with its default *)
Definition negation (ts : list token) : res bool :=
  default false ts (or_else (get u, ts <- pu (str "!") ts; Acc true ts)
                            (get u, ts <- kw (str "not") ts; Acc true ts)).

(* The loops over names of do_accept_variable_declarator_opt, 231-249 and
   270-288; [seen] is `names` *)
Fixpoint names (n : nat) (seen : list bytes) (ts : list token) : res (list bytes) :=
  match n with
  | O => Fuel
  | S n =>
      match ident ts with
      | Acc x r =>
          if existsb (beq x) seen then Err
          else
            match pu (str ",") r with
            | Acc _ r => get l, r <- names n (seen ++ [x]) r; Acc (x :: l) r
            | _ => Acc [x] r
            end
      | Rej => Acc [] ts
      | Err => Err
      | Fuel => Fuel
      end
  end.
(* do_accept_variable_declarator_opt, 211-307 *)
Definition binding (n : nat) (op cl : bytes) (ts : list token) : res (list bytes) :=
  get u, ts <- pu op ts;
  get l, ts <- names n [op] ts;
  match l with
  | [] => Err
  | _ => get u, ts <- need (pu cl ts); Acc (op :: l ++ [cl]) ts
  end.
Definition declarator (n : nat) (ts : list token) : res (list bytes) :=
  or_else (get x, ts <- ident ts; Acc [x] ts)
  (or_else (binding n (str "[") (str "]") ts) (binding n (str "{") (str "}") ts)).

(* scope_flags, 319-336 *)
Definition scope_plain := 0.
Definition scope_switch := 1.
Definition scope_while := 2.
Definition scope_for := 4.

(* do_accept_expression_as_rvalue_opt, 375-384 *)
Definition rvalue (ts : list token) : res (list unit_) := expr_and_check parse false ts.
(* do_accept_expression_statement_opt, 387-402 *)
Definition expression_statement (ts : list token) : res stmt :=
  get e, ts <- parse ts;
  get u, ts <- need (pu (str ";") ts);
  Acc (SExpr e) ts.
(* do_accept_null_statement_opt, 405-416 *)
Definition null_statement (ts : list token) : res stmt :=
  get u, ts <- pu (str ";") ts; Acc (SBlock []) ts.
(* do_accept_equal_initializer_opt and do_accept_ref_initializer_opt, 418-450 *)
Definition initializer (s : bytes) (ts : list token) : res (list unit_) :=
  get u, ts <- pu s ts; need (parse ts).

(* the loops of do_accept_variable_definition_opt, 468-489, and of
   do_accept_immutable_variable_definition_opt, 511-533 *)
Fixpoint declarations (n : nat) (immutable : bool) (ts : list token) : res (list (list bytes * list unit_)) :=
  match n with
  | O => Fuel
  | S m =>
      get d, ts <- need (declarator n ts);
      get e, ts <- (if immutable then need (initializer (str "=") ts)
                    else default [] ts (initializer (str "=") ts));
      match pu (str ",") ts with
      | Acc _ ts => get l, ts <- declarations m immutable ts; Acc ((d, e) :: l) ts
      | _ => Acc [(d, e)] ts
      end
  end.
(* the definitions, 452-541 *)
Definition definition (n : nat) (k : bytes) (immutable : bool) (ts : list token) : res stmt :=
  get u, ts <- kw k ts;
  get ds, ts <- declarations n immutable ts;
  get u, ts <- need (pu (str ";") ts);
  Acc (SVars immutable ds) ts.
(* do_accept_reference_definition_opt, 543-585 *)
Fixpoint references (n : nat) (ts : list token) : res (list (bytes * list unit_)) :=
  match n with
  | O => Fuel
  | S n =>
      get x, ts <- need (ident ts);
      get e, ts <- need (initializer (str "->") ts);
      match pu (str ",") ts with
      | Acc _ ts => get l, ts <- references n ts; Acc ((x, e) :: l) ts
      | _ => Acc [(x, e)] ts
      end
  end.
Definition reference_definition (n : nat) (ts : list token) : res stmt :=
  get u, ts <- kw (str "ref") ts;
  get ds, ts <- references n ts;
  get u, ts <- need (pu (str ";") ts);
  Acc (SRefs ds) ts.
(* the loop over parameters of do_accept_function_definition_opt, 613-642 *)
Fixpoint parameters (n : nat) (seen : list bytes) (ts : list token) : res (list bytes) :=
  match n with
  | O => Fuel
  | S n =>
      match pu (str "...") ts with
      | Acc _ ts => Acc [str "..."] ts
      | _ =>
          match ident ts with
          | Acc x r =>
              if existsb (beq x) seen then Err
              else
                match pu (str ",") r with
                | Acc _ r => get l, r <- parameters n (seen ++ [x]) r; Acc (x :: l) r
                | _ => Acc [x] r
                end
          | Rej => Acc [] ts
          | Err => Err
          | Fuel => Fuel
          end
      end
  end.

Section Statements.
(* do_accept_statement_opt and do_accept_nondeclarative_statement_as_block_opt
   on shorter inputs *)
Variable statement : Z -> list token -> res stmt.
Variable block : Z -> list token -> res (list stmt).

(* `while(auto qstmt = do_accept_statement_opt(...))` *)
Fixpoint statements (n : nat) (sc : Z) (ts : list token) : res (list stmt) :=
  match n with
  | O => Fuel
  | S n =>
      match statement sc ts with
      | Acc s ts => get l, ts <- statements n sc ts; Acc (s :: l) ts
      | Rej => Acc [] ts
      | Err => Err
      | Fuel => Fuel
      end
  end.

(* do_accept_function_definition_opt, 588-674.  What begins with a closure is
   taken for a definition without a name. *)
Definition function_definition (n : nat) (ts : list token) : res stmt :=
  match ts with
  | TFunc _ :: _ => Err
  | _ =>
      get u, ts <- kw (str "func") ts;
      get x, ts <- need (ident ts);
      get u, ts <- need (pu (str "(") ts);
      get ps, ts <- parameters n [] ts;
      get u, ts <- need (pu (str ")") ts);
      get u, ts <- need (pu (str "{") ts);
      get b, ts <- statements n scope_plain ts;
      get u, ts <- need (pu (str "}") ts);
      Acc (SFunc x ps (b ++ [SReturn true []])) ts
  end.
(* do_accept_defer_statement_opt, 676-697 *)
Definition defer_statement (ts : list token) : res stmt :=
  get u, ts <- kw (str "defer") ts;
  get e, ts <- need (parse ts);
  get u, ts <- need (pu (str ";") ts);
  Acc (SDefer e) ts.
(* `(` expression `)` *)
Definition condition (ts : list token) : res (list unit_) :=
  get u, ts <- need (pu (str "(") ts);
  get e, ts <- need (rvalue ts);
  get u, ts <- need (pu (str ")") ts);
  Acc e ts.
(* do_accept_if_statement_opt, 700-749 *)
Definition if_statement (sc : Z) (ts : list token) : res stmt :=
  get u, ts <- kw (str "if") ts;
  get neg, ts <- negation ts;
  get c, ts <- condition ts;
  get bt, ts <- need (block sc ts);
  get bf, ts <- default [] ts (get u, ts <- kw (str "else") ts; need (block sc ts));
  Acc (SIf neg c bt bf) ts.
(* the labels and the loop of do_accept_switch_statement_opt, 790-864;
   [has_default]: one of `clauses` is a default clause *)
Definition one_label (k : label) (ts : list token) : res label :=
  match k with
  | LDefault => Acc LDefault ts
  | LCase _ => get e, ts <- need (rvalue ts); Acc (LCase e) ts
  | LEach _ _ _ _ =>
      get lc, ts <- need (one_of pu [(str "(", false); (str "[", true)] ts);
      get e, ts <- need (rvalue ts);
      get u, ts <- need (pu (str ",") ts);
      get f, ts <- need (rvalue ts);
      get uc, ts <- need (one_of pu [(str ")", false); (str "]", true)] ts);
      Acc (LEach lc uc e f) ts
  end.
Definition is_default (k : label) : bool := match k with LDefault => true | _ => false end.
Fixpoint clauses (n : nat) (sc : Z) (has_default : bool) (ts : list token) : res (list (label * list stmt)) :=
  match n with
  | O => Fuel
  | S m =>
      match one_of kw [(str "default", LDefault); (str "case", LCase []); (str "each", LEach false false [] [])] ts with
      | Acc k ts =>
          if is_default k && has_default then Err
          else
            get k, ts <- one_label k ts;
            get u, ts <- need (pu (str ":") ts);
            get b, ts <- statements n (Z.lor sc scope_switch) ts;
            get l, ts <- clauses m sc (has_default || is_default k) ts;
            Acc ((k, b) :: l) ts
      | _ => Acc [] ts
      end
  end.
(* do_accept_switch_statement_opt, 752-875 *)
Definition switch_statement (n : nat) (sc : Z) (ts : list token) : res stmt :=
  get u, ts <- kw (str "switch") ts;
  get c, ts <- condition ts;
  get u, ts <- need (pu (str "{") ts);
  get l, ts <- clauses n sc false ts;
  get u, ts <- need (pu (str "}") ts);
  Acc (SSwitch c l) ts.
(* ( `__ifcomplete` nondeclarative-statement )? *)
Definition if_complete (sc : Z) (ts : list token) : res (list stmt) :=
  get u, ts <- kw (str "__ifcomplete") ts; need (block sc ts).
(* do_accept_do_while_statement_opt, 878-938 *)
Definition do_statement (sc : Z) (ts : list token) : res stmt :=
  get u, ts <- kw (str "do") ts;
  get b, ts <- need (block (Z.lor sc scope_while) ts);
  get u, ts <- need (kw (str "while") ts);
  get neg, ts <- negation ts;
  get c, ts <- condition ts;
  get d, ts <- or_else (if_complete sc ts) (get u, ts <- need (pu (str ";") ts); Acc [] ts);
  Acc (SDo b neg c d) ts.
(* do_accept_while_statement_opt, 941-990 *)
Definition while_statement (sc : Z) (ts : list token) : res stmt :=
  get u, ts <- kw (str "while") ts;
  get neg, ts <- negation ts;
  get c, ts <- condition ts;
  get b, ts <- need (block (Z.lor sc scope_while) ts);
  get d, ts <- default [] ts (if_complete sc ts);
  Acc (SWhile neg c b d) ts.
(* do_accept_for_complement_range_opt, 993-1058 *)
Definition for_range (sc : Z) (ts : list token) : res stmt :=
  get u, ts <- kw (str "each") ts;
  get x, ts <- need (ident ts);
  get kx, ts <- default ([], x) ts
                  (get u, ts <- one_of pu [(str ",", tt); (str ":", tt); (str "=", tt)] ts;
                   get y, ts <- need (ident ts); Acc (x, y) ts);
  get u, ts <- need (pu (str "->") ts);
  get e, ts <- need (parse ts);
  get u, ts <- need (pu (str ")") ts);
  get b, ts <- need (block (Z.lor sc scope_for) ts);
  get d, ts <- default [] ts (if_complete sc ts);
  Acc (SEach (fst kx) (snd kx) e b d) ts.
(* do_accept_for_initializer_opt, 1061-1085 *)
Definition for_initializer (n : nat) (ts : list token) : res stmt :=
  or_else (definition n (str "var") false ts)
  (or_else (definition n (str "const") true ts)
  (or_else (reference_definition n ts)
  (or_else (null_statement ts) (expression_statement ts)))).
(* do_accept_for_complement_triplet_opt, 1088-1139 *)
Definition for_triplet (n : nat) (sc : Z) (ts : list token) : res stmt :=
  get i, ts <- for_initializer n ts;
  get c, ts <- default [] ts (rvalue ts);
  get u, ts <- need (pu (str ";") ts);
  get p, ts <- default [] ts (parse ts);
  get u, ts <- need (pu (str ")") ts);
  get b, ts <- need (block (Z.lor sc scope_for) ts);
  get d, ts <- default [] ts (if_complete sc ts);
  Acc (SFor [i] c p b d) ts.
(* do_accept_for_statement_opt, 1142-1178 *)
Definition for_statement (n : nat) (sc : Z) (ts : list token) : res stmt :=
  get u, ts <- kw (str "for") ts;
  get u, ts <- need (pu (str "(") ts);
  need (or_else (for_range sc ts) (for_triplet n sc ts)).
(* do_accept_break_statement_opt, 1181-1222, and
   do_accept_continue_statement_opt, 1224-1260 *)
Definition target_flag (t : target) (any : Z) : Z :=
  match t with ToNone => any | ToSwitch => scope_switch | ToWhile => scope_while | ToFor => scope_for end.
Definition break_statement (sc : Z) (ts : list token) : res stmt :=
  get u, ts <- kw (str "break") ts;
  get t, ts <- default ToNone ts (one_of kw [(str "switch", ToSwitch); (str "while", ToWhile); (str "for", ToFor)] ts);
  if Z.land sc (target_flag t (Z.lor scope_switch (Z.lor scope_while scope_for))) =? 0 then Err
  else get u, ts <- need (pu (str ";") ts); Acc (SBreak t) ts.
Definition continue_statement (sc : Z) (ts : list token) : res stmt :=
  get u, ts <- kw (str "continue") ts;
  get t, ts <- default ToNone ts (one_of kw [(str "while", ToWhile); (str "for", ToFor)] ts);
  if Z.land sc (target_flag t (Z.lor scope_while scope_for)) =? 0 then Err
  else get u, ts <- need (pu (str ";") ts); Acc (SContinue t) ts.
(* do_accept_throw_statement_opt, 1262-1284 *)
Definition throw_statement (ts : list token) : res stmt :=
  get u, ts <- kw (str "throw") ts;
  get e, ts <- need (rvalue ts);
  get u, ts <- need (pu (str ";") ts);
  Acc (SThrow e) ts.
(* do_accept_return_statement_opt, 1302-1332 *)
Definition return_statement (ts : list token) : res stmt :=
  get u, ts <- kw (str "return") ts;
  let '(by_ref, ts) := accept_ref ts in
  get e, ts <- (if by_ref then need (parse ts) else default [] ts (parse ts));
  get u, ts <- need (pu (str ";") ts);
  Acc (SReturn by_ref e) ts.
(* do_accept_assert_statement_opt, 1334-1368 *)
Definition assert_statement (ts : list token) : res stmt :=
  get u, ts <- kw (str "assert") ts;
  get e, ts <- need (rvalue ts);
  get m, ts <- default (str "[no message]") ts (get u, ts <- pu (str ":") ts; need (text ts));
  get u, ts <- need (pu (str ";") ts);
  Acc (SAssert e m) ts.
(* do_accept_try_statement_opt, 1370-1418 *)
Definition try_statement (sc : Z) (ts : list token) : res stmt :=
  get u, ts <- kw (str "try") ts;
  get b, ts <- need (block sc ts);
  get u, ts <- need (kw (str "catch") ts);
  get u, ts <- need (pu (str "(") ts);
  get x, ts <- need (ident ts);
  get u, ts <- need (pu (str ")") ts);
  get h, ts <- need (block sc ts);
  Acc (STry b x h) ts.
(* do_accept_statement_block_opt, 1420-1442 *)
Definition statement_block (n : nat) (sc : Z) (ts : list token) : res stmt :=
  get u, ts <- pu (str "{") ts;
  get l, ts <- statements n sc ts;
  get u, ts <- need (pu (str "}") ts);
  Acc (SBlock l) ts.
(* do_accept_statement_opt, 1444-1529, and, without declarations and null
   statements, do_accept_nondeclarative_statement_as_block_opt, 1541-1600 *)
Definition nondeclarative (n : nat) (sc : Z) (ts : list token) : res stmt :=
  or_else (if_statement sc ts)
  (or_else (switch_statement n sc ts)
  (or_else (do_statement sc ts)
  (or_else (while_statement sc ts)
  (or_else (for_statement n sc ts)
  (or_else (break_statement sc ts)
  (or_else (continue_statement sc ts)
  (or_else (throw_statement ts)
  (or_else (return_statement ts)
  (or_else (assert_statement ts)
  (or_else (try_statement sc ts)
  (or_else (statement_block n sc ts)
           (expression_statement ts)))))))))))).
Definition any_statement (n : nat) (sc : Z) (ts : list token) : res stmt :=
  or_else (definition n (str "var") false ts)
  (or_else (definition n (str "const") true ts)
  (or_else (reference_definition n ts)
  (or_else (function_definition n ts)
  (or_else (defer_statement ts)
  (or_else (null_statement ts)
           (nondeclarative n sc ts)))))).
End Statements.

(* do_blockify_statement, 1531-1539: blocks are not wrapped *)
Definition blockify (s : stmt) : list stmt := match s with SBlock b => b | _ => [s] end.
(* one function for both, where [decl] is whether declarations are accepted.  The
   fuel bounds the depth and each loop; one more than the number of tokens is
   enough (C64_total). *)
Fixpoint stmt_at (n : nat) (decl : bool) (sc : Z) (ts : list token) : res stmt :=
  match n with
  | O => Fuel
  | S m =>
      let statement := stmt_at m true in
      let block sc ts := get s, ts <- stmt_at m false sc ts; Acc (blockify s) ts in
      if decl then any_statement statement block n sc ts
      else nondeclarative statement block n sc ts
  end.

(* reload, 2758-2781, and reload_oneline, 2783-2801 *)
Definition reload (ts : list token) : res (list stmt) :=
  let n := S (S (length ts)) in
  match statements (stmt_at n true) n scope_plain ts with
  | Acc l [] => Acc (l ++ [SReturn true []]) []
  | Acc _ _ | Rej | Err => Err
  | Fuel => Fuel
  end.
Definition reload_oneline (ts : list token) : res (list stmt) :=
  match parse ts with
  | Acc e [] => Acc [SReturn true e] []
  | Acc _ _ | Rej | Err => Err
  | Fuel => Fuel
  end.
