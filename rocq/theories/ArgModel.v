(* How native functions take their arguments: Argument_Reader.
   Source: asteria/src/runtime/argument_reader.cpp 15-576 and
   asteria/runtime/argument_reader.hpp.
   Simplifications: a reference is an element of any type, with a function that
   gives its value or fails (dereference_readonly throws).  What a function
   assigns to `out` is its result.  The conversion of an integer to a real is
   an argument.  Of throw_no_matching_function_call only the list of overloads
   is modelled. *)
From Verif Require Import Base Monad Text SortModel ValueModel.

Inductive kind := KBool | KInt | KReal | KStr | KOpaque | KFunc | KArr | KObj.
(* the functions optional(Reference&), optional(Value&), optional(optV_...&)
   and required(V_...&) *)
Inductive param := PRef | PVal | POpt (k : kind) | PReq (k : kind).

Definition type_name (k : kind) : bytes :=
  match k with
  | KBool => str "boolean" | KInt => str "integer" | KReal => str "real" | KStr => str "string"
  | KOpaque => str "opaque" | KFunc => str "function" | KArr => str "array" | KObj => str "object"
  end.
(* the texts given to do_prepare_parameter *)
Definition param_name (p : param) : bytes :=
  match p with
  | PRef => str "[reference]"
  | PVal => str "[value]"
  | POpt k => str "[" ++ type_name k ++ str "]"
  | PReq k => type_name k
  end.

(* value.hpp: is_boolean and so on; an integer is a real as well *)
Definition has_kind (k : kind) (v : value) : bool :=
  match k, v with
  | KBool, VBool _ | KInt, VInt _ | KReal, VInt _ | KReal, VReal _ | KStr, VStr _ | KOpaque, VOpaque _
  | KFunc, VFunc _ | KArr, VArr _ | KObj, VObj _ => true
  | _, _ => false
  end.

Section Reader.
Context {R : Type}.
Variables (deref : R -> option value) (r_of : Z -> real).

(* what is assigned to the parameter *)
Inductive out := ORef (r : option R) | OVal (v : value) | OOpt (o : option value) | OReq (o : option value).

(* Argument_Reader::State *)
Record state := { params : bytes; nparams : Z; finish : bool; match_ : bool }.
(* m_stack has its top first *)
Record reader := { stack : list R; cur_state : state; saved : list state; overloads : bytes }.

Definition u32 (n : Z) : Z := n mod 2 ^ 32.
Definition ssize (r : reader) : Z := Z.of_nat (length (stack r)).
Definition set_state (r : reader) (s : state) : reader :=
  {| stack := stack r; cur_state := s; saved := saved r; overloads := overloads r |}.

(* 15-27 *)
Definition prepare (nm : bytes) (r : reader) : outcome reader :=
  let s := cur_state r in
  if finish s then Throw else
  Ok (set_state r {| params := params s ++ nm ++ str ", "; nparams := u32 (nparams s + 1);
                     finish := false; match_ := match_ s |}).

(* cow_string.hpp:645-649 append(other, 0, n) with n clamped *)
Definition append_sub (a other : bytes) (n : Z) : bytes :=
  a ++ firstn (Z.to_nat (Z.min (n mod 2 ^ 64) (Z.of_nat (length other)))) other.

(* 29-41 *)
Definition terminate (r : reader) : outcome reader :=
  let s := cur_state r in
  if finish s then Throw else
  Ok {| stack := stack r;
        cur_state := {| params := params s; nparams := nparams s; finish := true; match_ := match_ s |};
        saved := saved r;
        overloads := append_sub (overloads r) (params s) (Z.of_nat (length (params s)) - 2) ++ str "|" |}.

(* 43-50 *)
Definition mark_failure (r : reader) : reader :=
  let s := cur_state r in
  set_state r {| params := params s; nparams := nparams s; finish := finish s; match_ := false |}.

(* 52-67 *)
Definition peek (r : reader) : option R :=
  if negb (match_ (cur_state r)) then None else
  let rindex := u32 (ssize r - nparams (cur_state r)) in
  if ssize r <=? rindex then None else nth_error (stack r) (Z.to_nat rindex).

(* 69-83 *)
Definition load_state (i : nat) (r : reader) : outcome reader :=
  match nth_error (saved r) i with
  | Some s => Ok (set_state r s)
  | None => Throw
  end.
Definition empty_state : state := {| params := []; nparams := 0; finish := false; match_ := false |}.
Definition save_state (i : nat) (r : reader) : reader :=
  let l := saved r ++ repeat empty_state (S i - length (saved r)) in
  {| stack := stack r; cur_state := cur_state r;
     saved := firstn i l ++ cur_state r :: skipn (S i) l; overloads := overloads r |}.

(* 85-94 *)
Definition start (r : reader) : reader :=
  set_state r {| params := []; nparams := 0; finish := false; match_ := true |}.

(* as_real converts integers *)
Definition as_kind (k : kind) (v : value) : value :=
  match k, v with
  | KReal, VInt n => VReal (r_of n)
  | _, _ => v
  end.

(* 96-452: the reading functions *)
Definition take (p : param) (r : reader) : outcome (reader * out) :=
  do r <- prepare (param_name p) r ;
  match p with
  | PRef => Ok (r, ORef (peek r))
  | PVal =>
    match peek r with
    | None => Ok (r, OVal VNull)
    | Some q => match deref q with Some v => Ok (r, OVal v) | None => Throw end
    end
  | POpt k =>
    match peek r with
    | None => Ok (r, OOpt None)
    | Some q =>
      match deref q with
      | None => Throw
      | Some VNull => Ok (r, OOpt None)
      | Some v => if has_kind k v then Ok (r, OOpt (Some (as_kind k v))) else Ok (mark_failure r, OOpt None)
      end
    end
  | PReq k =>
    match peek r with
    | None => Ok (mark_failure r, OReq None)
    | Some q =>
      match deref q with
      | None => Throw
      | Some v => if has_kind k v then Ok (r, OReq (Some (as_kind k v))) else Ok (mark_failure r, OReq None)
      end
    end
  end.
Fixpoint takes (ps : list param) (r : reader) : outcome (reader * list out) :=
  match ps with
  | [] => Ok (r, [])
  | p :: ps =>
    do a <- take p r ;
    do b <- takes ps (fst a) ;
    Ok (fst b, snd a :: snd b)
  end.

(* 454-472 *)
Definition end_overload (r : reader) : outcome (reader * bool) :=
  do r <- terminate r ;
  if negb (match_ (cur_state r)) then Ok (r, false)
  else if nparams (cur_state r) <? ssize r then Ok (mark_failure r, false)
  else Ok (r, true).
(* 474-496: the while loop takes stack.top(nvargs - 1), ..., stack.top(0) *)
Definition end_refs (r : reader) : outcome (reader * option (list R)) :=
  do r <- prepare (str "...") r ;
  do r <- terminate r ;
  if negb (match_ (cur_state r)) then Ok (r, None)
  else
    let np := u32 (nparams (cur_state r) - 1) in
    Ok (r, Some (if np <? ssize r then rev (firstn (Z.to_nat (ssize r - np)) (stack r)) else [])).
(* 498-520 *)
Fixpoint derefs (l : list R) : outcome (list value) :=
  match l with
  | [] => Ok []
  | q :: l => match deref q with Some v => do vs <- derefs l ; Ok (v :: vs) | None => Throw end
  end.
Definition end_values (r : reader) : outcome (reader * option (list value)) :=
  do a <- end_refs r ;
  match snd a with
  | None => Ok (fst a, None)
  | Some l => do vs <- derefs l ; Ok (fst a, Some vs)
  end.

(* 522-571: the overloads that have been tried, which are listed *)
Definition overload_count (r : reader) : nat := count_occ Z.eq_dec (overloads r) 124.
End Reader.
