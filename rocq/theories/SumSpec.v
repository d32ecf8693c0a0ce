(* What streaming hashers mean: every variable holds its own record of the bytes fed to it
   since it was made, finished or cleared.  Only the types of operations and events are
   taken from the model. *)
From Verif Require Import Base SumModel.

Local Open Scope Z_scope.

Section Deep.
Context {O : Type}.
Variable oneshot : bytes -> O.

(* None: no such variable (any more); Some None: null; Some (Some b): a hasher fed with b *)
Definition values := list (option (option bytes)).

Definition put (vs : values) (v : nat) (x : option (option bytes)) : values :=
  firstn v vs ++ x :: skipn (S v) vs.

(* None: the program uses a variable that does not exist. *)
Definition deep_step (vs : values) (o : op) : option (values * event O) :=
  match o with
  | Make => Some (vs ++ [Some (Some [])], Quiet)
  | Make_null => Some (vs ++ [Some None], Quiet)
  | Copy v =>
      match nth_error vs v with
      | Some (Some x) => Some (vs ++ [Some x], Quiet)
      | _ => None
      end
  | Assign v w =>
      match nth_error vs v, nth_error vs w with
      | Some (Some _), Some (Some x) => Some (put vs v (Some x), Quiet)
      | _, _ => None
      end
  | Drop v =>
      match nth_error vs v with
      | Some (Some _) => Some (put vs v None, Quiet)
      | _ => None
      end
  | Update v d =>
      match nth_error vs v with
      | Some (Some (Some b)) => Some (put vs v (Some (Some (b ++ d))), Quiet)
      | Some (Some None) => Some (vs, Thrown)
      | _ => None
      end
  | Finish v =>
      match nth_error vs v with
      | Some (Some (Some b)) => Some (put vs v (Some (Some [])), Sum (oneshot b))
      | Some (Some None) => Some (vs, Thrown)
      | _ => None
      end
  | Clear v =>
      match nth_error vs v with
      | Some (Some (Some b)) => Some (put vs v (Some (Some [])), Quiet)
      | Some (Some None) => Some (vs, Thrown)
      | _ => None
      end
  end.
Fixpoint deep_run (vs : values) (ops : list op) : option (values * list (event O)) :=
  match ops with
  | [] => Some (vs, [])
  | o :: t =>
      match deep_step vs o with
      | Some (vs', e) =>
          match deep_run vs' t with
          | Some (vs'', es) => Some (vs'', e :: es)
          | None => None
          end
      | None => None
      end
  end.
End Deep.

(* FNV-1a with 32 bits: the hash of a string with one more byte. *)
Fixpoint fnv1a_of_reversed (l : bytes) : Z :=
  match l with
  | [] => 0x811C9DC5
  | b :: t => Z.lxor (fnv1a_of_reversed t) b * (2 ^ 24 + 2 ^ 8 + 0x93) mod 2 ^ 32
  end.
Definition fnv1a (s : bytes) : Z := fnv1a_of_reversed (rev s).

(* A file whose reads returned these chunks has this content. *)
Fixpoint content (reads : list (option bytes)) : option bytes :=
  match reads with
  | [] => Some []
  | Some [] :: _ => Some []
  | None :: _ => None
  | Some c :: t => match content t with Some r => Some (c ++ r) | None => None end
  end.

(* Two capital hexadecimal digits for each byte, the higher first. *)
Definition hex_char (d : Z) : Z := if d <? 10 then 48 + d else 65 + (d - 10).
Definition hex_text (bs : bytes) : bytes := flat_map (fun b => [hex_char (b / 16); hex_char (b mod 16)]) bs.
