(* What a program with such maps may see: finite maps, written as lists of pairs
   with distinct keys. *)
From Verif Require Import Base Monad LinkModel.
From Coq Require Import Permutation.

Section Spec.
Context {K V : Type}.
Variable eqb : K -> K -> bool.
Variable live : V -> bool.
Variables bsz least : Z.

Definition pairs := list (K * V).
Fixpoint assoc (a : pairs) (k : K) : option V :=
  match a with [] => None | (k', v) :: a => if eqb k' k then Some v else assoc a k end.
Definition without (a : pairs) (k : K) : pairs := filter (fun kv => negb (eqb (fst kv) k)) a.
Definition nulls (a : pairs) : Prop := Forall (fun kv => live (snd kv) = false) a.

(* the pairs of each map; None for one destroyed *)
Definition values := list (option pairs).
Definition val (v : values) (h : nat) : option pairs :=
  match nth_error v h with Some (Some x) => Some x | _ => None end.
Definition get (v : values) (h : nat) : pairs := match val v h with Some l => l | None => [] end.
Definition chg (v : values) (h : nat) (x : option pairs) : values :=
  firstn h v ++ x :: skipn (S h) v.

(* one operation: the maps before, the result, the maps after *)
Definition does (v : values) (o : op K V) (r : res V) (v' : values) : Prop :=
  match o with
  | New => r = RUnit /\ v' = v ++ [Some []]
  | Drop h => r = RUnit /\ v' = chg v h None
  | Swap h j => r = RUnit /\ v' = chg (chg v h (Some (get v j))) j (Some (get v h))
  | Clear h => r = RUnit /\ v' = chg v h (Some [])
  | Size h => r = RNum (length (get v h)) /\ v' = v
  | Insert h k x =>
      match assoc (get v h) k with
      | None => r = RBool true /\ v' = chg v h (Some ((k, x) :: get v h))
      | Some _ => r = RBool false /\ v' = v
      end
  | Put h k _ x =>
      r = RBool (match assoc (get v h) k with None => true | Some _ => false end) /\
      v' = chg v h (Some ((k, x) :: without (get v h) k))
  | Find h k => r = RFound (assoc (get v h) k) /\ v' = v
  | Write h k x =>
      match assoc (get v h) k with
      | None => r = RBool false /\ v' = v
      | Some _ => r = RBool true /\ v' = chg v h (Some ((k, x) :: without (get v h) k))
      end
  | Erase h k => r = RFound (assoc (get v h) k) /\ v' = chg v h (Some (without (get v h) k))
  | Merge h j =>
      (* nothing that is there is replaced; null pointers are not taken over *)
      r = RUnit /\
      if (h =? j)%nat then v' = v
      else exists w, v' = chg v j (Some w) /\ NoDup (map fst w) /\
        forall k, assoc w k =
          match assoc (get v j) k with
          | Some x => Some x
          | None => match assoc (get v h) k with
                    | Some x => if live x then Some x else None
                    | None => None
                    end
          end
  | Extract h var =>
      (* null pointers may be thrown away; any other value may be taken *)
      exists gone w, nulls gone /\ v' = chg v h (Some w) /\
        ((exists k x, r = RVar true x /\ live x = true /\ Permutation (get v h) (gone ++ (k, x) :: w))
         \/ w = [] /\ Permutation (get v h) gone /\
            exists x, r = RVar false x /\ (gone = [] -> x = var) /\ (gone <> [] -> live x = false))
  end.
Inductive history : values -> list (op K V) -> list (res V) -> Prop :=
  | history_nil v : history v [] []
  | history_cons v o r v' l rs : does v o r v' -> history v' l rs -> history v (o :: l) (r :: rs).

(* the maps that an operation names exist *)
Definition alive (a : list bool) (h : nat) : Prop := nth_error a h = Some true.
Definition legal (a : list bool) (o : op K V) : Prop :=
  match o with
  | New => True
  | Drop h | Clear h | Size h | Insert h _ _ | Put h _ _ _ | Find h _ | Write h _ _ | Erase h _
  | Extract h _ => alive a h
  | Swap h j | Merge h j => alive a h /\ alive a j
  end.
Definition after (a : list bool) (o : op K V) : list bool :=
  match o with
  | New => a ++ [true]
  | Drop h => firstn h a ++ false :: skipn (S h) a
  | _ => a
  end.
Fixpoint all_legal (a : list bool) (l : list (op K V)) : Prop :=
  match l with [] => True | o :: l => legal a o /\ all_legal (after a o) l end.

(* std::bad_alloc: so many pairs that the buckets would take two gigabytes *)
Definition too_many (n : nat) : Prop := 0x7FFE0000 / bsz <= Z.of_nat n * 3 + least.
Definition refuses (v : values) (o : op K V) : Prop :=
  match o with
  | Insert h _ _ | Put h _ _ _ => too_many (length (get v h))
  | Merge h j => too_many (length (get v j) + length (get v h))
  | _ => False
  end.
Inductive fails : values -> list (op K V) -> Prop :=
  | fails_now v o l : refuses v o -> fails v (o :: l)
  | fails_later v o r v' l : does v o r v' -> fails v' l -> fails v (o :: l).
End Spec.
Arguments pairs K V : clear implicits.
Arguments values K V : clear implicits.
