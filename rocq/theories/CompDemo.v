(* A small world for the examples and the refutations of C49: one global
   variable, whose value is the world, references to it and to its elements,
   the parameters of the running function, and the functions 1, 2 and so on. *)
From Verif Require Import Base Text SortModel ValueModel OperModel CompModel CompSpec CompProofs.

(* None: the variable; Some k: its element k *)
Definition dref := ref (option Z) Z.
(* 0: the variable; -1, -2, ...: the parameters; 1, 2, ...: the functions *)
Definition dname := Z.
Notation dunit := (xunit dname unit).
Notation dbody := (body dname unit).

Definition elem (w : value) (k : Z) : value :=
  match w with
  | VArr l => if k <? 0 then VNull else nth (Z.to_nat k) l VNull
  | _ => VNull
  end.
Definition set_elem (w : value) (k : Z) (v : value) : value :=
  match w with
  | VArr l => if (0 <=? k) && (k <? Z.of_nat (length l)) then VArr (firstn (Z.to_nat k) l ++ v :: skipn (S (Z.to_nat k)) l) else w
  | _ => w
  end.

Definition demo : prims value (list dref) (option Z) value Z dname unit := {|
  rd := fun w r => inl match r with None => w | Some k => elem w k end;
  not_readable := VStr (str "not readable");
  open := fun r w =>
    match r with
    | Other None => (w, inl w)
    | Other (Some k) => (w, inl (elem w k))
    | _ => (w, inr (VStr (str "not modifiable")))
    end;
  store := fun r v w =>
    match r with
    | Other None => v
    | Other (Some k) => set_elem w k v
    | _ => w
    end;
  index := fun r s =>
    match r, s with
    | Other None, SubIndex k => Other (Some k)
    | Temp v, SubIndex k => Temp (elem v k)
    | _, _ => Temp VNull
    end;
  pop_sub := fun r => match r with Other (Some _) => Other None | _ => Void end;
  fetch := fun e nm w =>
    if nm =? 0 then (w, inl (Other None))
    else if nm <? 0 then (w, inl (nth (Z.to_nat (- nm - 1)) e Void))
    else (w, inl (Temp (VFunc nm)));
  closure := fun _ _ w => (w, inl (Temp VNull));
  oper := fun o a l w =>
    (* assignments and sums of variables *)
    match o, l with
    | xo_add, [Other r; Temp v] =>
      (w, match v, match r with None => w | Some k => elem w k end with
          | VInt x, VInt y => Val (Temp (VInt (x + y)))
          | _, _ => Exn (VStr (str "operands"))
          end)
    | _, _ => (w, Exn (VStr (str "operator")))
    end;
  fail := fun _ _ => VStr (str "operands");
  no_function := fun _ => VStr (str "no function");
  bad_generator := fun _ => VStr (str "no generator");
  target := fun v => match v with VFunc k => Some k | _ => None end;
  test := fun v => match v with VNull => false | VBool b => b | _ => true end;
  load := fun _ w => (w, inr (VStr (str "no such file")));
  xval := fun x => x;
  left := fun _ _ => [];
  num := {| r_op := fun _ x _ => x; r_of := fun _ => RNan |};
  cfuel := 10 |}.

Definition script (b : dbody) : @fdef value (list dref) (option Z) value Z dname unit :=
  Script b (fun _ args w => (w, inl args)).
Definition ret (us : list dunit) : option (bool * list dunit) := Some (false, us).

(* func one(x) { x = 5; } *)
Definition f_set : dbody :=
  {| b_exprs := [[URef (-1); ULit (VInt 5); UOp xo_assign true]]; b_ret := None |}.
(* func two(x) { return x + 1; } *)
Definition f_inc : dbody := {| b_exprs := []; b_ret := ret [URef (-1); ULit (VInt 1); UOp xo_add false] |}.
(* func three(x) { return two(two(x)) * 10; } *)
Definition f_nest : dbody :=
  {| b_exprs := [];
     b_ret := ret [URef 2; UCall [argument false [URef 2; UCall [argument false [URef (-1)]]]]; ULit (VInt 10); UOp xo_mul false] |}.
(* func four() { catch(two(1 / 0)); return 42; } *)
Definition f_catch : dbody :=
  {| b_exprs := [[UCatch [URef 2; UCall [argument false [ULit (VInt 1); ULit (VInt 0); UOp xo_div false]]]]];
     b_ret := ret [ULit (VInt 42)] |}.
(* func five() { one(a); return; } *)
Definition f_pass : dbody := {| b_exprs := [[URef 1; UCall [argument false [URef 0]]]]; b_ret := ret [] |}.
(* func six() { one(a[0]); return; } *)
Definition f_elem : dbody :=
  {| b_exprs := [[URef 1; UCall [argument false [URef 0; ULit (VInt 0); UOp xo_index false]]]]; b_ret := ret [] |}.

Definition table (f : Z) : @fdef value (list dref) (option Z) value Z dname unit :=
  if f =? 1 then script f_set
  else if f =? 2 then script f_inc
  else if f =? 3 then script f_nest
  else if f =? 4 then script f_catch
  else if f =? 5 then script f_pass
  else if f =? 6 then script f_elem
  else Native (fun _ _ w => NativeRet w Void).

Lemma table_whole : forall f b enter, table f = Script b enter -> whole_body b.
Proof.
  intros f b enter H. unfold table, script in H.
  repeat match type of H with (if ?c then _ else _) = _ => destruct c end;
    try discriminate H; injection H as <- _; (split; [repeat constructor|cbn; auto]); right; reflexivity.
Qed.

Lemma catch_refuted : invoke demo 0 true table 9 4 Void [] VNull = (VNull, Val (Temp (VInt 42)))
  /\ invoke demo 1 true table 9 4 Void [] VNull = (VNull, Val (Temp (VFunc 2))).
Proof. split; vm_compute; reflexivity. Qed.

Lemma pass_refuted : invoke demo 1 true table 9 5 Void [] (VInt 1) = (VInt 1, Exn (VStr (str "not modifiable")))
  /\ invoke demo 2 true table 9 5 Void [] (VInt 1) = (VInt 5, Val Void).
Proof. split; vm_compute; reflexivity. Qed.

Definition elem_table (f : Z) : @fdef value (list dref) (option Z) value Z dname unit :=
  if f =? 1 then script f_set
  else if f =? 6 then script f_elem
  else Native (fun _ _ w => NativeRet w Void).
Lemma elem_good : forall lv, good lv elem_table.
Proof.
  intros lv f b enter H. unfold elem_table, script in H.
  repeat match type of H with (if ?c then _ else _) = _ => destruct c end;
    try discriminate H; injection H as <- _; (split; [split; [repeat constructor|cbn; auto]|reflexivity]).
Qed.
Lemma by_value_refuted : forall lv tail,
  invoke demo lv tail elem_table 9 6 Void [] (VArr [VInt 1; VInt 2]) = (VArr [VInt 5; VInt 2], Val Void).
Proof.
  intros lv tail. rewrite invoke_means by apply elem_good. destruct (lv <? 2), tail; vm_compute; reflexivity.
Qed.
