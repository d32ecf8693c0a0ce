(* The order of script values, stated with exact rational numbers. *)
From Coq Require Export QArith Qpower.
From Verif Require Import Base SortModel SortSpec ValueModel.
Open Scope Z_scope.

(* numbers, extended with infinities and NaN *)
Inductive num := NNan | NInf (neg : bool) | NQ (q : Q).

Definition pow2 (e : Z) : Q := Qpower (2 # 1) e.

Definition num_of (v : value) : option num :=
  match v with
  | VInt n => Some (NQ (inject_Z n))
  | VReal RNan => Some NNan
  | VReal (RInf s) => Some (NInf s)
  | VReal (RFin s m e) => Some (NQ (inject_Z (signed s m) * pow2 e)%Q)
  | _ => None
  end.

Definition of_comparison (c : comparison) : compare :=
  match c with Lt => Less | Eq => Equal | Gt => Greater end.

Definition num_cmp (a b : num) : compare :=
  match a, b with
  | NQ p, NQ q => of_comparison (Qcompare p q)
  | NInf true, NInf true | NInf false, NInf false => Equal
  | NInf true, NInf false | NInf true, NQ _ | NQ _, NInf false => Less
  | NInf false, NInf true | NInf false, NQ _ | NQ _, NInf true => Greater
  | NNan, _ | _, NNan => Unordered
  end.

(* lexicographic order of sequences; a proper prefix is less *)
Section Lex.
Context {A : Type}.
Variable cmp : A -> A -> compare.
Fixpoint lex (a b : list A) : compare :=
  match a, b with
  | [], [] => Equal
  | [], _ :: _ => Less
  | _ :: _, [] => Greater
  | x :: a', y :: b' => match cmp x y with Equal => lex a' b' | c => c end
  end.
End Lex.

Definition bool_cmp (a b : bool) : compare :=
  match a, b with false, true => Less | true, false => Greater | _, _ => Equal end.

Fixpoint vcmp (a b : value) {struct a} : compare :=
  match num_of a, num_of b with
  | Some x, Some y => num_cmp x y
  | _, _ =>
    match a, b with
    | VNull, VNull => Equal
    | VBool x, VBool y => bool_cmp x y
    | VStr x, VStr y => lex (fun p q => of_comparison (p ?= q)%Z) x y
    | VArr x, VArr y => lex vcmp x y
    | _, _ => Unordered
    end
  end.

(* every number is one that the C++ type can hold *)
Fixpoint wf_value (v : value) : Prop :=
  match v with
  | VInt n => is_int64 n
  | VReal r => is_double r
  | VStr s => all_bytes s
  | VArr l => fold_right (fun x P => wf_value x /\ P) True l
  | VObj l => fold_right (fun kx P => wf_value (snd kx) /\ P) True l
  | _ => True
  end.

(* values free of NaN, functions, opaques and objects *)
Fixpoint plain (v : value) : bool :=
  match v with
  | VReal RNan | VOpaque _ | VFunc _ | VObj _ => false
  | VArr l => forallb plain l
  | _ => true
  end.

(* `compares a b c`: comparing a with b finishes with c, whatever the fuel above some bound *)
Definition compares (a b : value) (c : compare) : Prop :=
  exists n, forall fuel, (n <= fuel)%nat -> compare_partial fuel a b = Some (Ok c).
