(* Script values and their comparison.
   Sources: asteria/fwd.hpp, asteria/value.hpp, asteria/src/value.cpp. *)
From Verif Require Import Base Monad SortModel.

(* A C++ double: NaN (payloads are not told apart), an infinity, or a finite
   number (-1)^neg * m * 2^e with m >= 0. *)
Inductive real :=
  | RNan
  | RInf (neg : bool)
  | RFin (neg : bool) (m e : Z).

(* the numbers that an IEEE 754 binary64 can hold *)
Definition is_double (r : real) : Prop :=
  match r with
  | RFin _ m e => 0 <= m < 2 ^ 53 /\ -1074 <= e <= 971
  | _ => True
  end.

Definition signed (neg : bool) (m : Z) : Z := if neg then - m else m.

(* the order of finite numbers, by scaling to a common exponent *)
Definition fin_cmp (x ex y ey : Z) : comparison :=
  let e := Z.min ex ey in
  Z.compare (x * 2 ^ (ex - e)) (y * 2 ^ (ey - e)).

(* std::isless, std::isgreater, std::isunordered on doubles *)
Definition real_cmp (a b : real) : compare :=
  match a, b with
  | RNan, _ | _, RNan => Unordered
  | RInf s, RInf t => if Bool.eqb s t then Equal else if s then Less else Greater
  | RInf s, RFin _ _ _ => if s then Less else Greater
  | RFin _ _ _, RInf t => if t then Greater else Less
  | RFin s m e, RFin t n f =>
    match fin_cmp (signed s m) e (signed t n) f with Lt => Less | Eq => Equal | Gt => Greater end
  end.

(* static_cast<double>(int64_t) while the rounding mode is FE_DOWNWARD: keep 53
   significant bits, rounding toward minus infinity *)
Definition int_to_real_down (n : Z) : real :=
  if Z.abs n <? 2 ^ 53 then RFin (n <? 0) (Z.abs n) 0
  else
    let k := Z.log2 (Z.abs n) - 52 in
    let q := n / 2 ^ k in
    if Z.abs q <? 2 ^ 53 then RFin (n <? 0) (Z.abs q) k
    else RFin (n <? 0) (Z.abs q / 2) (k + 1).

(* static_cast<int64_t>(double): truncation; UB if out of range *)
Definition real_to_int (r : real) : outcome Z :=
  match r with
  | RFin neg m e =>
    let t := signed neg (if 0 <=? e then m * 2 ^ e else m / 2 ^ (- e)) in
    if is_int64b t then Ok t else UB
  | _ => UB
  end.

(* asteria/fwd.hpp:570-578, 592-602: the value types.  Opaque and function
   objects are identified by a number.  An object is a finite map; it is kept
   as a list of pairs with distinct keys in some order (see HashModel). *)
Inductive value :=
  | VNull
  | VBool (b : bool)
  | VInt (n : Z)
  | VReal (r : real)
  | VStr (s : bytes)
  | VOpaque (id : Z)
  | VFunc (id : Z)
  | VArr (l : list value)
  | VObj (l : list (bytes * value)).

Definition int_cmp (x y : Z) : compare :=
  match Z.compare x y with Lt => Less | Eq => Equal | Gt => Greater end.

(* value.cpp:244-285 compare_numeric_partial(V_integer) *)
Definition compare_with_int (self : value) (other : Z) : outcome compare :=
  match self with
  | VInt v => Ok (int_cmp v other)
  | VReal v =>
    let oreal := int_to_real_down other in
    do otest <- real_to_int oreal;
    match real_cmp v oreal with
    | Less => Ok Less
    | Greater => Ok Greater
    | Unordered => Ok Unordered
    | Equal => Ok (if negb (otest =? other) then Less else Equal)
    end
  | _ => Ok Unordered
  end.

(* value.cpp:287-330 compare_numeric_partial(V_real) *)
Definition compare_with_real (self : value) (other : real) : outcome compare :=
  match self with
  | VInt v =>
    let vreal := int_to_real_down v in
    do vtest <- real_to_int vreal;
    match real_cmp vreal other with
    | Less => Ok Less
    | Greater => Ok Greater
    | Unordered => Ok Unordered
    | Equal => Ok (if negb (vtest =? v) then Greater else Equal)
    end
  | VReal v => Ok (real_cmp v other)
  | _ => Ok Unordered
  end.

(* cow_string::compare: unsigned bytes, then the length *)
Fixpoint bytes_cmp (a b : bytes) : compare :=
  match a, b with
  | [], [] => Equal
  | [], _ :: _ => Less
  | _ :: _, [] => Greater
  | x :: a', y :: b' => match Z.compare x y with Lt => Less | Gt => Greater | Eq => bytes_cmp a' b' end
  end.

Definition len_cmp {A} (a b : list A) : compare :=
  if (length a <? length b)%nat then Less else if (length b <? length a)%nat then Greater else Equal.

(* value.cpp:332-418 compare_partial.  A stack entry holds, for both arrays,
   the whole array and the elements from curp on.  `cmp_next` is the loop at
   398-415, `cmp_at` the code from the label r on. *)
Definition frame : Type := (list value * list value) * (list value * list value).

Section Machine.
Variable cmp_at : value -> value -> list frame -> option (outcome compare).
Fixpoint cmp_next (stack : list frame) : option (outcome compare) :=
  match stack with
  | [] => Some (Ok Equal)
  | ((aval, pval), (aoth, poth)) :: rest =>
    match pval, poth with
    | _ :: ((x :: _) as tval), _ :: ((y :: _) as toth) => cmp_at x y (((aval, tval), (aoth, toth)) :: rest)
    | _ :: _, _ :: _ =>
      match len_cmp aval aoth with
      | Equal => cmp_next rest
      | c => Some (Ok c)
      end
    | _, _ => Some UB
    end
  end.
End Machine.

(* None: out of fuel *)
Fixpoint cmp_at (fuel : nat) (qval qoth : value) (stack : list frame) {struct fuel} : option (outcome compare) :=
  match fuel with
  | O => None
  | S fuel =>
    let next := cmp_next (cmp_at fuel) stack in
    let decide (c : outcome compare) :=
      match c with
      | Ok Equal => next
      | c => Some c
      end in
    match qval, qoth with
    | _, VInt n => decide (compare_with_int qval n)
    | _, VReal r => decide (compare_with_real qval r)
    | VBool a, VBool b =>
      decide (Ok (if negb a && b then Less else if a && negb b then Greater else Equal))
    | VStr a, VStr b => decide (Ok (bytes_cmp a b))
    | VArr a, VArr b =>
      match a, b with
      | x :: _, y :: _ => cmp_at fuel x y (((a, a), (b, b)) :: stack)
      | _, _ => decide (Ok (len_cmp a b))
      end
    | VNull, VNull => next
    | _, _ => Some (Ok Unordered)
    end
  end.

(* value.hpp:411-413, 415-423: None means that the fuel was not enough *)
Definition compare_partial (fuel : nat) (a b : value) : option (outcome compare) := cmp_at fuel a b [].
Definition compare_total (fuel : nat) (a b : value) : option (outcome compare) :=
  match compare_partial fuel a b with
  | Some (Ok Unordered) => Some Throw
  | r => r
  end.
