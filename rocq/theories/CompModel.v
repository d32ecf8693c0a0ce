(* From expressions to code: code generation for expression units, with the
   folding of constant operands and the calls that evaluate their arguments on
   the alternative stack, and the execution of that code.
   Sources: asteria/src/compiler/expression_unit.cpp 20-392,
   asteria/src/compiler/statement_sequence.cpp 359-373,
   asteria/src/compiler/statement.cpp 541-590 (return),
   asteria/src/runtime/air_node.cpp (executors, cited below),
   asteria/src/llds/avm_rod.cpp 145-180 (a status other than next ends the code),
   asteria/runtime/executive_context.hpp 91-116 (the two stack pointers),
   asteria/src/runtime/instantiated_function.cpp 49-97.
   Simplifications.  References that are not temporaries, the world they live
   in, exceptions, names, closures and all operators that do not occur in
   OperModel.v are arguments, so the claims hold for any of them.  An operator
   whose right operand is not a temporary is an argument as well.  Names are
   already resolved.  Hooks, source locations, the recursion limit and
   destructors are left out.  A function body is a list of expression
   statements and an optional return statement; the other statements are in
   FlowModel.v. *)
From Verif Require Import Base Text SortModel ValueModel OperModel.

Inductive ptc := PtcNone | PtcRef | PtcVal | PtcVoid.
Inductive sub := SubIndex (n : Z) | SubKey (k : bytes).

(* asteria/compiler/expression_unit.hpp.  UIf and UCoalesce are S_branch with
   branches for true and false, and with a branch for null. *)
Inductive xunit {N D : Type} :=
  | ULit (v : value)
  | URef (nm : N)
  | UFn (d : D)
  | UIf (t f : list xunit) (assign : bool)
  | UCoalesce (n : list xunit) (assign : bool)
  | UCall (args : list (list xunit))
  | UOp (o : xop) (assign : bool)
  | UArray (n : nat)
  | UObject (keys : list bytes)
  | UVariadic (args : list (list xunit))
  | UCheck (by_ref : bool)
  | UImport (args : list (list xunit))
  | UCatch (us : list xunit).
Arguments xunit : clear implicits.

(* asteria/runtime/air_node.hpp.  A code list has its last node first. *)
Inductive node {N D : Type} :=
  | NClear
  | NConst (v : value)
  | NRef (nm : N)
  | NFn (d : D)
  | NBranch (t f : list node) (assign : bool)
  | NCoalesce (c : list node) (assign : bool)
  | NCall (nargs : nat) (p : ptc)
  | NAltClear
  | NAltCall (p : ptc)
  | NOp (o : xop) (assign : bool)
  | NBi32 (o : xop) (assign : bool) (n : Z)
  | NCheckNull (negative : bool)
  | NMember (k : bytes)
  | NArray (n : nat)
  | NObject (keys : list bytes)
  | NVariadic (p : ptc)
  | NCheck (by_ref : bool)
  | NImport (nargs : nat)
  | NCatch (c : list node)
  | NReturn (by_ref is_void : bool)
  | NReturnConst (v : value).
Arguments node : clear implicits.

Section Gen.
Context {N D : Type}.
Implicit Types (u : xunit N D) (us : list (xunit N D)) (code : list (node N D)).

(* expression_unit.cpp:20-55 clobbers_alt_stack *)
Fixpoint clobbers u : bool :=
  match u with
  | UCall _ | UVariadic _ | UImport _ | UCatch _ => true
  | UIf t f _ => existsb clobbers t || existsb clobbers f
  | UCoalesce n _ => existsb clobbers n
  | _ => false
  end.

(* expression_unit.cpp:57-85 may_be_void *)
Fixpoint may_be_void u : bool :=
  let back := fix back us :=
    match us with
    | [] => false
    | [u] => may_be_void u
    | _ :: us => back us
    end in
  match u with
  | URef _ | UCall _ | UVariadic _ | UImport _ => true
  | UIf t f _ => back t || back f
  | UCoalesce n _ => back n
  | _ => false
  end.

(* statement_sequence.cpp:359-373: an argument of a call; by_ref for `ref` or
   `->` before the expression *)
Definition argument (by_ref : bool) us : list (xunit N D) :=
  match rev us with
  | u :: _ => if may_be_void u then us ++ [UCheck by_ref] else us
  | [] => us
  end.

(* air_node.cpp:223-305 is_terminator *)
Fixpoint is_terminator (n : node N D) : bool :=
  match n with
  | NReturn _ _ | NReturnConst _ => true
  | NCall _ p | NVariadic p | NAltCall p => match p with PtcNone => false | _ => true end
  | NBranch (a :: _) (b :: _) _ => is_terminator a && is_terminator b
  | _ => false
  end.
Definition ended code : bool := match code with n :: _ => is_terminator n | [] => false end.

Definition is_int32 (n : Z) : bool := (- 2 ^ 31 <=? n) && (n <? 2 ^ 31).
(* the operand is stored in an int32_t (AIR_Node::S_apply_operator_bi32::irhs,
   S_return_statement_bi32::irhs) *)
Definition cut32 (n : Z) : Z := (n + 2 ^ 31) mod 2 ^ 32 - 2 ^ 31.
Definition foldable (o : xop) : bool :=
  match o with
  | xo_pos | xo_notb | xo_misc _ _ => false
  | _ => true
  end.

(* expression_unit.cpp:236-287; the first argument is opts.optimization_level *)
Definition gen_op (lv : Z) (o : xop) (assign : bool) code : list (node N D) :=
  match code with
  | NConst v :: rest =>
    if lv <? 1 then NOp o assign :: code else
    match o, assign, v with
    | xo_pos, false, _ => code
    | xo_cmp_eq, _, VNull => NCheckNull false :: rest
    | xo_cmp_ne, _, VNull => NCheckNull true :: rest
    | xo_index, _, VStr k => NMember k :: rest
    | xo_notb, _, VInt n => NConst (VInt (Z.lxor n (-1))) :: rest
    | _, _, VInt n => if is_int32 n && foldable o then NBi32 o assign (cut32 n) :: rest else NOp o assign :: code
    | _, _, _ => NOp o assign :: code
    end
  | _ => NOp o assign :: code
  end.

Section Units.
(* opts.optimization_level and opts.proper_tail_calls *)
Variables (lv : Z) (tail : bool).

(* expression_unit.cpp:87-390 generate_code *)
Fixpoint gen (p : ptc) u code {struct u} : list (node N D) :=
  let gens := fix gens (p : ptc) us code :=
    match us with
    | [] => code
    | [u] => gen p u code
    | u :: us => gens p us (gen PtcNone u code)
    end in
  let gargs := fix gargs (args : list (list (xunit N D))) code :=
    match args with
    | [] => code
    | us :: args => gargs args (gens PtcNone us code)
    end in
  let rptc := if tail then p else PtcNone in
  if ended code then code else
  match u with
  | ULit v => NConst v :: code
  | URef nm => NRef nm :: code
  | UFn d => NFn d :: code
  | UIf t f assign =>
    let q := if assign then PtcNone else p in
    NBranch (gens q t []) (gens q f []) assign :: code
  | UCoalesce n assign => NCoalesce (gens (if assign then PtcNone else p) n []) assign :: code
  | UCall args =>
    if (1 <=? lv) && negb (existsb (existsb clobbers) args)
    then NAltCall rptc :: gargs args (NAltClear :: code)
    else NCall (length args) rptc :: gargs args code
  | UOp o assign => gen_op lv o assign code
  | UArray n => NArray n :: code
  | UObject keys => NObject keys :: code
  | UVariadic args => NVariadic rptc :: gargs args code
  | UCheck by_ref => if 2 <=? lv then code else NCheck by_ref :: code
  | UImport args => NImport (length args) :: gargs args code
  | UCatch us => NCatch (gens PtcNone us []) :: code
  end.

Fixpoint gens (p : ptc) us code : list (node N D) :=
  match us with
  | [] => code
  | [u] => gen p u code
  | u :: us => gens p us (gen PtcNone u code)
  end.
End Units.

(* a function body: expression statements, then perhaps a return statement,
   which may be by reference; without one the last statement is followed by the
   end of the function *)
Record body := { b_exprs : list (list (xunit N D)); b_ret : option (bool * list (xunit N D)) }.

(* statement.cpp do_generate_expression: clear_stack, then the units *)
Definition gen_expr (lv : Z) (tail : bool) (p : ptc) us code : list (node N D) :=
  if ended code then code else gens lv tail p us (NClear :: code).

Fixpoint gen_exprs (lv : Z) (tail : bool) (last : ptc) (l : list (list (xunit N D))) code : list (node N D) :=
  match l with
  | [] => code
  | [us] => gen_expr lv tail last us code
  | us :: l => gen_exprs lv tail last l (gen_expr lv tail PtcNone us code)
  end.

(* statement.cpp:541-590 *)
Definition gen_return (lv : Z) (tail by_ref : bool) us code : list (node N D) :=
  match us with
  | [] => NReturn false true :: code
  | _ =>
    let code := gen_expr lv tail (if by_ref then PtcRef else PtcVal) us code in
    let plain := NReturn by_ref false :: code in
    if lv <? 1 then plain else
    match us, code with
    | [_], NConst v :: rest =>
      match v with
      | VNull | VBool _ => NReturnConst v :: rest
      | VInt n => if is_int32 n then NReturnConst (VInt (cut32 n)) :: rest else plain
      | _ => plain
      end
    | _, _ => plain
    end
  end.

Definition gen_body (lv : Z) (tail : bool) (b : body) : list (node N D) :=
  match b_ret b with
  | None => gen_exprs lv tail PtcVoid (b_exprs b) []
  | Some (by_ref, us) => gen_return lv tail by_ref us (gen_exprs lv tail PtcNone (b_exprs b) [])
  end.
End Gen.
Arguments body : clear implicits.

(* asteria/runtime/reference.hpp: a temporary without subscripts, a void
   reference, a tail call that is still to be made, anything else *)
Inductive ref {R F : Type} :=
  | Temp (v : value)
  | Void
  | Ptc (p : ptc) (f : F) (self : ref) (args : list ref)
  | Other (r : R).
Arguments ref : clear implicits.

(* Val: finished; Exn: Runtime_Error; Bad: undefined behaviour; Fuel: the model
   ran out of fuel *)
Inductive res {X A : Type} := Val (a : A) | Exn (x : X) | Bad | Fuel.
Arguments res : clear implicits.

(* everything outside this model *)
Record prims {W E R X F N D : Type} := {
  rd : W -> R -> value + X;                                   (* dereference_readonly *)
  not_readable : X;                                           (* ... of a void reference *)
  open : ref R F -> W -> W * (value + X);                     (* dereference_mutable *)
  store : ref R F -> value -> W -> W;                         (* assignment through it *)
  index : ref R F -> sub -> ref R F;                          (* push_subscript *)
  pop_sub : ref R F -> ref R F;                               (* pop_subscript *)
  fetch : E -> N -> W -> W * (ref R F + X);                   (* push_local/global_reference *)
  closure : E -> D -> W -> W * (ref R F + X);                 (* define_function *)
  oper : xop -> bool -> list (ref R F) -> W -> W * res X (ref R F);
  fail : xop -> list value -> X;                              (* what an operator throws *)
  no_function : value -> X;
  bad_generator : value -> X;
  target : value -> option F;                                 (* as_function *)
  test : value -> bool;
  load : value -> W -> W * (F + X);                           (* import *)
  xval : X -> value;                                          (* Runtime_Error::value *)
  left : list (ref R F) -> W -> list (ref R F);               (* what a call leaves behind *)
  num : arith;
  cfuel : nat
}.
Arguments prims : clear implicits.

Section Exec.
Context {W E R X F N D : Type} (P : prims W E R X F N D).
Notation ref := (ref R F).
Notation res := (res X).

Definition read (w : W) (r : ref) : value + X :=
  match r with
  | Temp v => inl v
  | Other r => rd P w r
  | _ => inr (not_readable P)
  end.

(* ---- operators ---- *)

Definition arity (o : xop) : nat :=
  match o with xo_pos | xo_notb => 1 | xo_misc _ n => n | _ => 2 end.

(* air_node.cpp: Value& lhs = assign ? top.dereference_mutable()
   : top.dereference_copy(); then lhs is replaced *)
Definition update (assign : bool) (l : ref) (f : value -> option (outcome value)) (x : value -> X) (w : W)
    : W * res ref :=
  if assign then
    match open P l w with
    | (w, inr x) => (w, Exn x)
    | (w, inl v) =>
      match f v with
      | Some (Ok v') => (store P l v' w, Val l)
      | Some Throw => (w, Exn (x v))
      | Some UB => (w, Bad)
      | None => (w, Fuel)
      end
    end
  else
    match read w l with
    | inr x => (w, Exn x)
    | inl v =>
      match f v with
      | Some (Ok v') => (w, Val (Temp v'))
      | Some Throw => (w, Exn (x v))
      | Some UB => (w, Bad)
      | None => (w, Fuel)
      end
    end.

(* air_node.cpp do_push_subscript_and_check *)
Definition subscript (l : ref) (s : sub) (w : W) : W * res ref :=
  let r := index P l s in
  match read w r with
  | inl _ => (w, Val r)
  | inr x => (w, Exn x)
  end.

Definition is_assign (o : xop) (assign : bool) : bool :=
  match o with xo_assign => true | _ => assign end.

(* index_apply_operator; ops has the top of the stack first *)
Definition op_sem (o : xop) (assign : bool) (ops : list ref) (w : W) : W * res ref :=
  match o, ops with
  | xo_pos, [r] => update assign r (fun v => Some (Ok v)) (fun v => fail P o [v]) w
  | xo_notb, [r] => update assign r (fun v => Some (op_notb_value v)) (fun v => fail P o [v]) w
  | xo_index, [Temp (VInt n); l] => subscript l (SubIndex n) w
  | xo_index, [Temp (VStr k); l] => subscript l (SubKey k) w
  | xo_index, [Temp v; _] => (w, Exn (fail P o [v]))
  | xo_misc _ _, _ => oper P o assign ops w
  | _, [Temp v; l] =>
    update (is_assign o assign) l (fun u => general (num P) (S (cfuel P)) o u v) (fun u => fail P o [u; v]) w
  | _, [_; _] => oper P o assign ops w
  | _, _ => (w, Bad)
  end.

(* index_apply_operator_bi32 *)
Definition bi32_sem (o : xop) (assign : bool) (n : Z) (l : ref) (w : W) : W * res ref :=
  match o with
  | xo_index => subscript l (SubIndex n) w
  | _ => update (is_assign o assign) l (fun u => Some (bi32 (num P) o u n)) (fun u => fail P o [u; VInt n]) w
  end.

(* air_node.cpp:5936-5960 *)
Definition check_null_sem (negative : bool) (l : ref) (w : W) : W * res ref :=
  match read w l with
  | inl v => (w, Val (Temp (check_null negative v)))
  | inr x => (w, Exn x)
  end.

(* air_node.cpp:1692-1724, 4690-4700 *)
Definition check_sem (by_ref : bool) (r : ref) (w : W) : W * res ref :=
  match read w r with
  | inl v => (w, Val (if by_ref then r else Temp v))
  | inr x => (w, Exn x)
  end.

(* reading operands from the top of the stack down; the values come out in
   stack order, that is, from left to right *)
Fixpoint read_all (rs : list ref) (w : W) (acc : list value) : W * res (list value) :=
  match rs with
  | [] => (w, Val acc)
  | r :: rs =>
    match read w r with
    | inl v => read_all rs w (v :: acc)
    | inr x => (w, Exn x)
    end
  end.
(* air_node.cpp:2012-2046 *)
Definition array_sem (rs : list ref) (w : W) : W * res ref :=
  match read_all rs w [] with
  | (w, Val l) => (w, Val (Temp (VArr l)))
  | (w, Exn x) => (w, Exn x)
  | (w, Bad) => (w, Bad)
  | (w, Fuel) => (w, Fuel)
  end.
(* air_node.cpp:2048-2092: of equal keys the rightmost counts *)
Fixpoint make_object (keys : list bytes) (vs : list value) : list (bytes * value) :=
  match keys, vs with
  | k :: keys, v :: vs =>
    if existsb (fun k' => if list_eq_dec Z.eq_dec k k' then true else false) keys
    then make_object keys vs else (k, v) :: make_object keys vs
  | _, _ => []
  end.
Definition object_sem (keys : list bytes) (rs : list ref) (w : W) : W * res ref :=
  match read_all rs w [] with
  | (w, Val l) => (w, Val (Temp (VObj (make_object keys l))))
  | (w, Exn x) => (w, Exn x)
  | (w, Bad) => (w, Bad)
  | (w, Fuel) => (w, Fuel)
  end.

(* ---- calls ---- *)

Definition invoker := F -> ref -> list ref -> W -> W * res ref.

(* air_node.cpp:4364-4382: the arguments that a generator function yields *)
Fixpoint generate (inv : invoker) (f : F) (self : ref) (n : nat) (k : Z) (w : W) : W * res (list ref) :=
  match n with
  | O => (w, Val [])
  | S n =>
    match inv f self [Temp (VInt k)] w with
    | (w, Val r) =>
      match read w r with
      | inr x => (w, Exn x)
      | inl _ =>
        match generate inv f self n (k + 1) w with
        | (w, Val l) => (w, Val (r :: l))
        | e => e
        end
      end
    | (w, Exn x) => (w, Exn x)
    | (w, Bad) => (w, Bad)
    | (w, Fuel) => (w, Fuel)
    end
  end.
(* air_node.cpp:4328-4397 variadic arguments *)
Definition expand (inv : invoker) (g : ref) (w : W) : W * res (list ref) :=
  match read w g with
  | inr x => (w, Exn x)
  | inl VNull => (w, Val [])
  | inl (VArr l) => (w, Val (map Temp l))
  | inl v =>
    match target P v with
    | None => (w, Exn (bad_generator P v))
    | Some f =>
      match inv f (pop_sub P g) [] w with
      | (w, Exn x) => (w, Exn x)
      | (w, Bad) => (w, Bad)
      | (w, Fuel) => (w, Fuel)
      | (w, Val r) =>
        match read w r with
        | inl (VInt n) =>
          if (n <? 0) || (2 ^ 31 - 1 <? n) then (w, Exn (bad_generator P (VInt n)))
          else generate inv f (pop_sub P g) (Z.to_nat n) 0 w
        | inl v => (w, Exn (bad_generator P v))
        | inr x => (w, Exn x)
        end
      end
    end
  end.

(* ---- the machine ---- *)

(* the world, the two stack objects (top first), and whether the pointers of
   the context are swapped *)
Record st := { wd : W; s0 : list ref; s1 : list ref; sw : bool }.
Definition cur (t : st) : list ref := if sw t then s1 t else s0 t.
Definition alt (t : st) : list ref := if sw t then s0 t else s1 t.
Definition set_cur (t : st) (s : list ref) : st :=
  if sw t then {| wd := wd t; s0 := s0 t; s1 := s; sw := true |}
  else {| wd := wd t; s0 := s; s1 := s1 t; sw := false |}.
Definition set_alt (t : st) (s : list ref) : st :=
  if sw t then {| wd := wd t; s0 := s; s1 := s1 t; sw := true |}
  else {| wd := wd t; s0 := s0 t; s1 := s; sw := false |}.
Definition set_wd (t : st) (w : W) : st := {| wd := w; s0 := s0 t; s1 := s1 t; sw := sw t |}.
(* executive_context.hpp:109-112 *)
Definition swap_stacks (t : st) : st := {| wd := wd t; s0 := s0 t; s1 := s1 t; sw := negb (sw t) |}.

Inductive status := SNext | SReturn | SReturnVoid.

(* pop k references, push the result of f *)
Definition with_top (k : nat) (f : list ref -> W -> W * res ref) (t : st) : st * res status :=
  let s := cur t in
  if (length s <? k)%nat then (t, Bad) else
  match f (firstn k s) (wd t) with
  | (w, Val r) => (set_cur (set_wd t w) (r :: skipn k s), Val SNext)
  | (w, Exn x) => (set_wd t w, Exn x)
  | (w, Bad) => (set_wd t w, Bad)
  | (w, Fuel) => (set_wd t w, Fuel)
  end.
Definition top1 (f : ref -> W -> W * res ref) : list ref -> W -> W * res ref :=
  fun rs w => match rs with [r] => f r w | _ => (w, Bad) end.
Definition pushed (f : W -> W * (ref + X)) : list ref -> W -> W * res ref :=
  fun _ w => match f w with (w, inl r) => (w, Val r) | (w, inr x) => (w, Exn x) end.

(* air_node.cpp:137-168, and the end of function_call and the like: the target
   is on the top, the arguments are on the alternative stack *)
Definition invoke_top (inv : invoker) (p : ptc) (args : list ref) (t : st) : st * res status :=
  match cur t with
  | [] => (t, Bad)
  | top :: s =>
    match read (wd t) top with
    | inr x => (t, Exn x)
    | inl v =>
      match target P v with
      | None => (t, Exn (no_function P v))
      | Some f =>
        let self := pop_sub P top in
        match p with
        | PtcNone =>
          match inv f self args (wd t) with
          | (w, Val r) => (set_alt (set_cur (set_wd t w) (r :: s)) (left P args w), Val SNext)
          | (w, Exn x) => (set_alt (set_wd t w) (left P args w), Exn x)
          | (w, Bad) => (set_wd t w, Bad)
          | (w, Fuel) => (set_wd t w, Fuel)
          end
        | _ => (set_alt (set_cur t (Ptc p f self args :: s)) (left P args (wd t)), Val SReturn)
        end
      end
    end
  end.

(* air_node.cpp:4463-4540 *)
Definition import_top (inv : invoker) (nargs : nat) (t : st) : st * res status :=
  match nargs with
  | O => (t, Bad)
  | S k =>
    let s := cur t in
    if (length s <? nargs)%nat then (t, Bad) else
    let args := rev (firstn k s) in
    match skipn k s with
    | [] => (t, Bad)
    | path :: s =>
      let t := set_alt (set_cur t (path :: s)) (rev args) in
      match read (wd t) path with
      | inr x => (t, Exn x)
      | inl v =>
        match load P v (wd t) with
        | (w, inr x) => (set_wd t w, Exn x)
        | (w, inl f) =>
          match inv f Void args w with
          | (w, Val r) => (set_alt (set_cur (set_wd t w) (r :: s)) (left P args w), Val SNext)
          | (w, Exn x) => (set_alt (set_wd t w) (left P args w), Exn x)
          | (w, Bad) => (set_wd t w, Bad)
          | (w, Fuel) => (set_wd t w, Fuel)
          end
        end
      end
    end
  end.

(* air_node.cpp:115-123: assign the result on the top to the operand below *)
Definition assign_top (t : st) : st * res status :=
  match cur t with
  | r :: l :: s =>
    match read (wd t) r with
    | inr x => (t, Exn x)
    | inl v =>
      match open P l (wd t) with
      | (w, inr x) => (set_wd t w, Exn x)
      | (w, inl _) => (set_cur (set_wd t (store P l v w)) (l :: s), Val SNext)
      end
    end
  | _ => (t, Bad)
  end.

Section Nodes.
Variables (e : E) (inv : invoker).

Fixpoint exec (n : node N D) (t : st) {struct n} : st * res status :=
  let execs := fix execs (code : list (node N D)) (t : st) : st * res status :=
    match code with
    | [] => (t, Val SNext)
    | n :: code =>
      match execs code t with
      | (t, Val SNext) => exec n t
      | r => r
      end
    end in
  (* do_evaluate_subexpression *)
  let subexpr (code : list (node N D)) (assign : bool) (t : st) : st * res status :=
    match code with
    | [] => (t, Val SNext)
    | _ =>
      if assign then
        match execs code t with
        | (t, Val SNext) => assign_top t
        | (t, Val _) => (t, Bad)
        | r => r
        end
      else execs code (set_cur t (tl (cur t)))
    end in
  match n with
  | NClear => (set_cur t [], Val SNext)
  | NConst v => (set_cur t (Temp v :: cur t), Val SNext)
  | NRef nm => with_top 0 (pushed (fetch P e nm)) t
  | NFn d => with_top 0 (pushed (closure P e d)) t
  | NBranch ct cf assign =>
    match cur t with
    | [] => (t, Bad)
    | top :: _ =>
      match read (wd t) top with
      | inr x => (t, Exn x)
      | inl v => if test P v then subexpr ct assign t else subexpr cf assign t
      end
    end
  | NCoalesce c assign =>
    match cur t with
    | [] => (t, Bad)
    | top :: _ =>
      match read (wd t) top with
      | inr x => (t, Exn x)
      | inl VNull => subexpr c assign t
      | inl _ => (t, Val SNext)
      end
    end
  | NCall nargs p =>
    if (length (cur t) <? nargs)%nat then (t, Bad) else
    let args := rev (firstn nargs (cur t)) in
    invoke_top inv p args (set_alt (set_cur t (skipn nargs (cur t))) (rev args))
  | NAltClear => (set_cur (swap_stacks t) [], Val SNext)
  | NAltCall p => invoke_top inv p (rev (cur t)) (swap_stacks t)
  | NOp o assign => with_top (arity o) (op_sem o assign) t
  | NBi32 o assign n => with_top 1 (top1 (bi32_sem o assign n)) t
  | NCheckNull negative => with_top 1 (top1 (check_null_sem negative)) t
  | NMember k => with_top 1 (top1 (fun r w => subscript r (SubKey k) w)) t
  | NArray n => with_top n array_sem t
  | NObject keys => with_top (length keys) (object_sem keys) t
  | NVariadic p =>
    match cur t with
    | g :: s =>
      match expand inv g (wd t) with
      | (w, Val args) => invoke_top inv p args (set_alt (set_cur (set_wd t w) s) (rev args))
      | (w, Exn x) => (set_wd t w, Exn x)
      | (w, Bad) => (set_wd t w, Bad)
      | (w, Fuel) => (set_wd t w, Fuel)
      end
    | [] => (t, Bad)
    end
  | NCheck by_ref => with_top 1 (top1 (check_sem by_ref)) t
  | NImport nargs => import_top inv nargs t
  | NCatch c =>
    let saved := cur t in
    match execs c (set_cur t []) with
    | (t, Val SNext) => (set_cur t (Temp VNull :: saved), Val SNext)
    | (t, Exn x) => (set_cur t (Temp (xval P x) :: saved), Val SNext)
    | (t, Val _) => (t, Bad)
    | r => r
    end
  | NReturn by_ref is_void =>
    if is_void then (t, Val SReturnVoid) else
    match cur t with
    | [] => (t, Bad)
    | Void :: _ => (t, Val SReturn)
    | _ =>
      match with_top 1 (top1 (check_sem by_ref)) t with
      | (t, Val SNext) => (t, Val SReturn)
      | r => r
      end
    end
  | NReturnConst v => (set_cur t (Temp v :: cur t), Val SReturn)
  end.

(* avm_rod.cpp:145-180 *)
Fixpoint execs (code : list (node N D)) (t : st) : st * res status :=
  match code with
  | [] => (t, Val SNext)
  | n :: code =>
    match execs code t with
    | (t, Val SNext) => exec n t
    | r => r
    end
  end.
End Nodes.

(* ---- functions ---- *)

(* a native function: what it does may depend on the functions it calls *)
Inductive native :=
  | NativeRet (w : W) (r : ref)
  | NativeThrow (w : W) (x : X)
  | NativeCall (f : F) (self : ref) (args : list ref) (w : W) (k : W -> ref + X -> native).
Fixpoint run_native (inv : invoker) (m : native) : W * res ref :=
  match m with
  | NativeRet w r => (w, Val r)
  | NativeThrow w x => (w, Exn x)
  | NativeCall f self args w k =>
    match inv f self args w with
    | (w, Val r) => run_native inv (k w (inl r))
    | (w, Exn x) => run_native inv (k w (inr x))
    | r => r
    end
  end.
Inductive fdef :=
  | Script (b : body N D) (enter : ref -> list ref -> W -> W * (E + X))
  | Native (m : ref -> list ref -> W -> native).

(* reference.cpp:268-316 do_use_function_result_slow: the result of a tail
   call; only the last of a chain of tail calls counts (deferred expressions are
   in FlowModel.v) *)
Definition finish (p : ptc) (r : ref) (w : W) : W * res ref :=
  match p, r with
  | PtcVoid, _ => (w, Val Void)
  | _, Void => (w, Val Void)
  | _, _ =>
    match read w r with
    | inr x => (w, Exn x)
    | inl v => (w, Val match p with PtcVal => Temp v | _ => r end)
    end
  end.
Fixpoint unpack (call : invoker) (fuel : nat) (r : ref) (w : W) : W * res ref :=
  match r with
  | Ptc p f self args =>
    match fuel with
    | O => (w, Fuel)
    | S fuel =>
      match call f self args w with
      | (w, Val (Ptc _ _ _ _ as r)) => unpack call fuel r w
      | (w, Val r) => finish p r w
      | e => e
      end
    end
  | _ => (w, Val r)
  end.
(* a call that is not a tail call *)
Definition complete (call : invoker) (fuel : nat) : invoker :=
  fun f self args w =>
  match call f self args w with
  | (w, Val r) => unpack call fuel r w
  | e => e
  end.

(* instantiated_function.cpp:49-97 invoke_ptc_aware.  The stack object that held
   the arguments serves as the stack of the function. *)
Fixpoint invoke_ptc (lv : Z) (tail : bool) (fdefs : F -> fdef) (fuel : nat) : invoker :=
  fun f self args w =>
  match fuel with
  | O => (w, Fuel)
  | S fuel =>
    let inv := complete (invoke_ptc lv tail fdefs fuel) fuel in
    match fdefs f with
    | Native m => run_native inv (m self args w)
    | Script b enter =>
      match enter self args w with
      | (w, inr x) => (w, Exn x)
      | (w, inl e) =>
        match execs e inv (gen_body lv tail b) {| wd := w; s0 := rev args; s1 := []; sw := false |} with
        | (t, Val SReturn) =>
          match s0 t with
          | [] => (wd t, Bad)
          | r :: _ => (wd t, Val r)
          end
        | (t, Val _) => (wd t, Val Void)
        | (t, Exn x) => (wd t, Exn x)
        | (t, Bad) => (wd t, Bad)
        | (t, Fuel) => (wd t, Fuel)
        end
      end
    end
  end.
Definition invoke (lv : Z) (tail : bool) (fdefs : F -> fdef) (fuel : nat) : invoker :=
  complete (invoke_ptc lv tail fdefs fuel) fuel.
End Exec.
