(* The grammar of statements: which sequences of tokens denote which statements.
   Written from the grammar in the comments of the parser and the rules that
   `else` and `__ifcomplete` belong to the nearest statement that can take them,
   and that `break` and `continue` stand inside what they leave. *)
From Verif Require Import Base Text ExprModel ExprSpec StmtModel.

(* an expression; one whose value is used *)
Definition Gex (us : list unit_) (ts : list token) : Prop := exists e, Gexp 11 e ts /\ us = units e.
Definition Gval (us : list unit_) (ts : list token) : Prop :=
  exists e, Gexp 11 e ts /\ us = units e ++ (if voidable e then [UCheck false] else []).
(* ... which may be missing *)
Definition optional {A} (G : list A -> list token -> Prop) (us : list A) (ts : list token) : Prop :=
  (us = [] /\ ts = []) \/ G us ts.

(* names that begin with __ are reserved *)
Definition user_name (s : bytes) : Prop := ~ (exists r, s = 95 :: 95 :: r).

(* names separated by commas, maybe with one more comma *)
Inductive Gnames : list bytes -> list token -> Prop :=
  | N_nil : Gnames [] []
  | N_last x : user_name x -> Gnames [x] [TId x]
  | N_more x l ts : user_name x -> Gnames l ts -> Gnames (x :: l) (TId x :: P "," :: ts).
(* one name, or some in brackets or braces; these are recorded as names too *)
Inductive Gdeclarator : list bytes -> list token -> Prop :=
  | D_name x : user_name x -> Gdeclarator [x] [TId x]
  | D_array l ts : Gnames l ts -> l <> [] -> NoDup (str "[" :: l) ->
      Gdeclarator (str "[" :: l ++ [str "]"]) (P "[" :: ts ++ [P "]"])
  | D_object l ts : Gnames l ts -> l <> [] -> NoDup (str "{" :: l) ->
      Gdeclarator (str "{" :: l ++ [str "}"]) (P "{" :: ts ++ [P "}"]).
Inductive Ginit (t : token) (e : list unit_) : list token -> Prop :=
  | I_init ts : Gex e ts -> Ginit t e (t :: ts).
Inductive Gdecl : bool -> list bytes * list unit_ -> list token -> Prop :=
  | V_init im d e td te : Gdeclarator d td -> Ginit (P "=") e te -> Gdecl im (d, e) (td ++ te)
  | V_none d td : Gdeclarator d td -> Gdecl false (d, []) td.
Inductive Gref_decl : bytes * list unit_ -> list token -> Prop :=
  | F_init x e te : user_name x -> Ginit (P "->") e te -> Gref_decl (x, e) (TId x :: te).
(* one or more, separated by commas *)
Inductive Gseq {A} (G : A -> list token -> Prop) : list A -> list token -> Prop :=
  | S_one a ts : G a ts -> Gseq G [a] ts
  | S_more a ts l tl : G a ts -> Gseq G l tl -> Gseq G (a :: l) (ts ++ P "," :: tl).

Inductive Gparams : list bytes -> list token -> Prop :=
  | A_names l ts : Gnames l ts -> NoDup l -> Gparams l ts
  | A_variadic l ts : Gnames l ts -> NoDup l ->
      ts = [] \/ (exists r, ts = r ++ [P ","]) ->
      Gparams (l ++ [str "..."]) (ts ++ [P "..."]).

Inductive Gneg : bool -> list token -> Prop :=
  | G_plain : Gneg false []
  | G_not : Gneg true [P "!"]
  | G_kw_not : Gneg true [K "not"].

Inductive Glabel : label -> list token -> Prop :=
  | B_default : Glabel LDefault [K "default"]
  | B_case e ts : Gval e ts -> Glabel (LCase e) (K "case" :: ts)
  | B_each (lc uc : bool) e te f tf : Gval e te -> Gval f tf ->
      Glabel (LEach lc uc e f)
        (K "each" :: (if lc then P "[" else P "(") :: te ++ P "," :: tf ++ [if uc then P "]" else P ")"]).

(* break and continue: what stands around them *)
Definition may_break (around : list target) (t : target) : Prop :=
  match t with ToNone => around <> [] | _ => In t around end.
Definition may_continue (around : list target) (t : target) : Prop :=
  match t with ToNone => In ToWhile around \/ In ToFor around | ToSwitch => False | _ => In t around end.
Inductive Gtarget : target -> list token -> Prop :=
  | T_none : Gtarget ToNone []
  | T_switch : Gtarget ToSwitch [K "switch"]
  | T_while : Gtarget ToWhile [K "while"]
  | T_for : Gtarget ToFor [K "for"].

(* definitions, which may begin a for statement too *)
Inductive Gdefinition : stmt -> list token -> Prop :=
  | E_var ds ts : Gseq (Gdecl false) ds ts -> Gdefinition (SVars false ds) (K "var" :: ts ++ [P ";"])
  | E_const ds ts : Gseq (Gdecl true) ds ts -> Gdefinition (SVars true ds) (K "const" :: ts ++ [P ";"])
  | E_ref ds ts : Gseq Gref_decl ds ts -> Gdefinition (SRefs ds) (K "ref" :: ts ++ [P ";"]).
Inductive Gfirst : stmt -> list token -> Prop :=
  | C_definition s ts : Gdefinition s ts -> Gfirst s ts
  | C_null : Gfirst (SBlock []) [P ";"]
  | C_expr e ts : Gex e ts -> Gfirst (SExpr e) (ts ++ [P ";"]).

(* what an expression statement may not begin with: `{` begins a block and,
   where declarations may stand, `func` begins one *)
Definition block_or_function (decl : bool) (ts : list token) : Prop :=
  exists t r, ts = t :: r /\ (t = P "{" \/ (decl = true /\ exists i, t = TFunc i)).

(* Gst decl around open s ts: the tokens ts are the statement s, inside [around];
   [open] are the tokens which, if they came next, would belong to it *)
Inductive Gst : bool -> list target -> list token -> stmt -> list token -> Prop :=
  (* only where declarations may stand *)
  | G_definition a s ts : Gdefinition s ts -> Gst true a [] s ts
  | G_func a x ps tp b tb : user_name x -> Gparams ps tp -> Gsts [] b tb ->
      Gst true a [] (SFunc x ps (b ++ [SReturn true []]))
        (K "func" :: TId x :: P "(" :: tp ++ P ")" :: P "{" :: tb ++ [P "}"])
  | G_defer a e ts : Gex e ts -> Gst true a [] (SDefer e) (K "defer" :: ts ++ [P ";"])
  | G_null a : Gst true a [] (SBlock []) [P ";"]
  (* everywhere *)
  | G_if d a neg tn c tc o b tb : Gneg neg tn -> Gval c tc -> Gbl a o b tb ->
      Gst d a (K "else" :: o) (SIf neg c b []) (K "if" :: tn ++ P "(" :: tc ++ P ")" :: tb)
  | G_if_else d a neg tn c tc o b tb o' b' tb' : Gneg neg tn -> Gval c tc -> Gbl a o b tb ->
      ~ In (K "else") o -> Gbl a o' b' tb' ->
      Gst d a o' (SIf neg c b b') (K "if" :: tn ++ P "(" :: tc ++ P ")" :: tb ++ K "else" :: tb')
  | G_switch d a c tc l tl : Gval c tc -> Gclauses a l tl ->
      (length (filter is_default (map fst l)) <= 1)%nat ->
      Gst d a [] (SSwitch c l) (K "switch" :: P "(" :: tc ++ P ")" :: P "{" :: tl ++ [P "}"])
  | G_do d a o b tb neg tn c tc : Gbl (ToWhile :: a) o b tb -> Gneg neg tn -> Gval c tc ->
      Gst d a [] (SDo b neg c [])
        (K "do" :: tb ++ K "while" :: tn ++ P "(" :: tc ++ [P ")"; P ";"])
  | G_do_complete d a o b tb neg tn c tc o' b' tb' :
      Gbl (ToWhile :: a) o b tb -> Gneg neg tn -> Gval c tc -> Gbl a o' b' tb' ->
      Gst d a o' (SDo b neg c b')
        (K "do" :: tb ++ K "while" :: tn ++ P "(" :: tc ++ P ")" :: K "__ifcomplete" :: tb')
  | G_while d a neg tn c tc o b tb o' b' tb' : Gneg neg tn -> Gval c tc ->
      Gbl (ToWhile :: a) o b tb -> Gcomplete a o b' tb' o' ->
      Gst d a o' (SWhile neg c b b') (K "while" :: tn ++ P "(" :: tc ++ P ")" :: tb ++ tb')
  | G_each d a k x tx e te o b tb o' b' tb' :
      (k = [] /\ user_name x /\ tx = [TId x]) \/
      (user_name k /\ user_name x /\
       exists t, (t = P "," \/ t = P ":" \/ t = P "=") /\ tx = [TId k; t; TId x]) ->
      Gex e te -> Gbl (ToFor :: a) o b tb -> Gcomplete a o b' tb' o' ->
      Gst d a o' (SEach k x e b b')
        (K "for" :: P "(" :: K "each" :: tx ++ P "->" :: te ++ P ")" :: tb ++ tb')
  | G_for d a i ti c tc p tp o b tb o' b' tb' :
      Gfirst i ti -> optional Gval c tc -> optional Gex p tp ->
      Gbl (ToFor :: a) o b tb -> Gcomplete a o b' tb' o' ->
      Gst d a o' (SFor [i] c p b b')
        (K "for" :: P "(" :: ti ++ tc ++ P ";" :: tp ++ P ")" :: tb ++ tb')
  | G_break d a t tt : Gtarget t tt -> may_break a t -> Gst d a [] (SBreak t) (K "break" :: tt ++ [P ";"])
  | G_continue d a t tt : Gtarget t tt -> may_continue a t ->
      Gst d a [] (SContinue t) (K "continue" :: tt ++ [P ";"])
  | G_throw d a e ts : Gval e ts -> Gst d a [] (SThrow e) (K "throw" :: ts ++ [P ";"])
  | G_return d a : Gst d a [] (SReturn false []) [K "return"; P ";"]
  | G_return_value d a r tr e ts : Gref r tr -> Gex e ts ->
      Gst d a [] (SReturn r e) (K "return" :: tr ++ ts ++ [P ";"])
  | G_assert d a e ts m tm : Gval e ts ->
      (m = str "[no message]" /\ tm = []) \/ tm = [P ":"; TStr m] ->
      Gst d a [] (SAssert e m) (K "assert" :: ts ++ tm ++ [P ";"])
  | G_try d a o b tb x o' h th : Gbl a o b tb -> user_name x -> Gbl a o' h th ->
      Gst d a o' (STry b x h) (K "try" :: tb ++ K "catch" :: P "(" :: TId x :: P ")" :: th)
  | G_block d a b tb : Gsts a b tb -> Gst d a [] (SBlock b) (P "{" :: tb ++ [P "}"])
  | G_expr d a e ts : Gex e ts -> ~ block_or_function d ts -> Gst d a [] (SExpr e) (ts ++ [P ";"])
(* a statement as the body of another one *)
with Gbl : list target -> list token -> list stmt -> list token -> Prop :=
  | G_body a o s ts : Gst false a o s ts ->
      Gbl a o (match s with SBlock b => b | _ => [s] end) ts
(* what may follow the body of a loop; [o] is open after the body *)
with Gcomplete : list target -> list token -> list stmt -> list token -> list token -> Prop :=
  | G_incomplete a o : Gcomplete a o [] [] (K "__ifcomplete" :: o)
  | G_complete a o o' b tb : ~ In (K "__ifcomplete") o -> Gbl a o' b tb ->
      Gcomplete a o b (K "__ifcomplete" :: tb) o'
with Gsts : list target -> list stmt -> list token -> Prop :=
  | G_nil a : Gsts a [] []
  | G_cons a o s ts l tl : Gst true a o s ts -> Gsts a l tl -> Gsts a (s :: l) (ts ++ tl)
with Gclauses : list target -> list (label * list stmt) -> list token -> Prop :=
  | G_no_clause a : Gclauses a [] []
  | G_clause a k tk b tb l tl : Glabel k tk -> Gsts (ToSwitch :: a) b tb -> Gclauses a l tl ->
      Gclauses a ((k, b) :: l) (tk ++ P ":" :: tb ++ tl).

(* a script: statements and an implicit return *)
Definition Gscript (l : list stmt) (ts : list token) : Prop :=
  exists b, Gsts [] b ts /\ l = b ++ [SReturn true []].

(* ---- where statements jump to, as seen in the result ---- *)
Fixpoint jumps_ok (a : list target) (s : stmt) : Prop :=
  let all a := fix all (l : list stmt) : Prop :=
    match l with [] => True | s :: l => jumps_ok a s /\ all l end in
  match s with
  | SBlock b => all a b
  | SFunc _ _ b => all [] b
  | SIf _ _ b c => all a b /\ all a c
  | SSwitch _ l =>
      (fix each (l : list (label * list stmt)) : Prop :=
         match l with [] => True | (_, b) :: l => all (ToSwitch :: a) b /\ each l end) l
  | SDo b _ _ c => all (ToWhile :: a) b /\ all a c
  | SWhile _ _ b c => all (ToWhile :: a) b /\ all a c
  | SEach _ _ _ b c => all (ToFor :: a) b /\ all a c
  | SFor i _ _ b c => all a i /\ all (ToFor :: a) b /\ all a c
  | STry b _ c => all a b /\ all a c
  | SBreak t => may_break a t
  | SContinue t => may_continue a t
  | SExpr _ | SVars _ _ | SThrow _ | SReturn _ _ | SAssert _ _ | SDefer _ | SRefs _ => True
  end.
