(* The garbage collector: one pass over one generation
   (asteria/src/runtime/garbage_collector.cpp:24-139), with the functions that
   find references inside values (asteria/src/value.cpp:145-220,
   asteria/src/runtime/reference.cpp:59-73) and the map operations it uses
   (asteria/src/llds/variable_hashmap.cpp:81-241).

   Memory.  A variable is its address.  A value is written as a tree whose
   nodes carry addresses; storage that is shared (arrays, objects and functions
   are reference counted) is a subtree that occurs more than once with the same
   address.  The coherence of a memory, one address one tree, is a hypothesis
   of the theorems (GcSpec.v).

   Simplifications:
   - The references and values inside a function or an opaque object are the
     children of its node, in the order in which collect_variables meets them.
   - Variable_HashMap is a list without duplicate keys; extract_variable takes
     the element that an arbitrary function [pick] chooses, because the order
     depends on addresses.
   - Memory allocation does not fail, so the exception handlers are dead.
   - When a cleared variable releases its value, variables that lose their last
     reference are destroyed; only the set of variables that the collector
     clears itself is modelled.
   - size counters and reference counts do not overflow. *)
From Verif Require Import Base.

Inductive val : Type :=
  | VLeaf                                 (* null, boolean, number or string *)
  | VNode (a : Z) (kids : list val)       (* array, object, function, opaque *)
  | VRef (a : Z) (v : Z).                 (* the pointer at [a] to variable [v] *)

Definition memb (v : Z) (l : list Z) : bool := existsb (Z.eqb v) l.

(* Variable_HashMap::insert with the variable as its own key, erase *)
Definition vinsert (l : list Z) (v : Z) : list Z := if memb v l then l else v :: l.
Fixpoint verase (l : list Z) (v : Z) : list Z :=
  match l with
  | [] => []
  | x :: r => if x =? v then r else x :: verase r v
  end.

(* m_staged: key, and the variable if the key is a reference *)
Definition staged : Type := list (Z * option Z).
Definition has_key (s : staged) (a : Z) : bool := memb a (map fst s).

(* Value::do_collect_variables_slow, value.cpp:145-220 (the leaves are filtered
   by Value::collect_variables, value.hpp:344-350), and
   Reference::collect_variables, reference.cpp:59-73 *)
Fixpoint visit (t : val) (st : staged * list Z) : staged * list Z :=
  match t with
  | VLeaf => st
  | VRef a v =>
      let '(s, temp) := st in
      if has_key s a then st else ((a, Some v) :: s, vinsert temp v)
  | VNode a kids =>
      let '(s, temp) := st in
      if has_key s a then st
      else fold_left (fun st k => visit k st) kids ((a, None) :: s, temp)
  end.

Inductive gres (A : Type) : Type :=
  | GOk (a : A)
  | GAssert        (* an ASTERIA_ASSERT that does not hold *)
  | GFuel.
Arguments GOk {A} a.
Arguments GAssert {A}.
Arguments GFuel {A}.

Definition gbind {A B} (m : gres A) (f : A -> gres B) : gres B :=
  match m with GOk a => f a | GAssert => GAssert | GFuel => GFuel end.

(* the element chosen by [i] and the others *)
Definition extract {A} (i : nat) (l : list A) : option (A * list A) :=
  match l with
  | [] => None
  | x :: _ =>
      let k := Nat.modulo i (length l) in
      Some (nth k l x, firstn k l ++ skipn (S k) l)
  end.

Definition vcount (v : Z) (l : list Z) : Z := Z.of_nat (count_occ Z.eq_dec l v).
Definition is_ref_to (v : Z) (e : Z * option Z) : bool :=
  match snd e with Some w => w =? v | None => false end.
Definition scount (v : Z) (s : staged) : Z := Z.of_nat (length (filter (is_ref_to v) s)).
Definition upd (g : Z -> Z) (v x : Z) : Z -> Z := fun w => if w =? v then x else g w.

Record result : Type := mk_result {
  r_cleared : list Z;          (* variables that were uninitialised, the last one first *)
  r_tracked : list Z;          (* what is left in this generation *)
  r_next : list Z;             (* the next generation, if there is one *)
  r_promoted : Z               (* how much the counter of the next generation grew *)
}.

Section Collect.

  Variable heap : Z -> val.         (* the values of the variables *)
  Variable base : Z -> Z.           (* references that are not held by this generation or by
                                       the temporary maps of this pass *)
  Variable pick : nat -> nat -> nat.  (* the hash order, per loop and iteration *)

  (* garbage_collector.cpp:47-56 *)
  Fixpoint phase1 (n : nat) (tracked : list Z) (s : staged) (temp_1 : list Z) (g : Z -> Z)
    : gres (staged * (Z -> Z)) :=
    match n with
    | O => GFuel
    | S n =>
        match extract (pick 1 n) temp_1 with
        | None => GOk (s, g)
        | Some (v, temp_1') =>
            let use_count :=
              base v + vcount v tracked + scount v s + vcount v temp_1' + 1 in
            if 1 <=? use_count - 1
            then
              let '(s', temp_1'') := visit (heap v) (s, temp_1') in
              phase1 n tracked s' temp_1'' (upd g v 1)
            else GAssert
        end
    end.

  (* garbage_collector.cpp:60-66 *)
  Fixpoint phase2 (n : nat) (tracked : list Z) (s : staged) (temp_1 : list Z) (g : Z -> Z)
    : gres (list Z * (Z -> Z)) :=
    match n with
    | O => GFuel
    | S n =>
        match extract (pick 2 n) s with
        | None => GOk (temp_1, g)
        | Some ((_, None), s') => phase2 n tracked s' temp_1 g
        | Some ((_, Some v), s') =>
            let use_count :=
              base v + vcount v tracked + scount v s' + vcount v temp_1 + 1 in
            let r := g v + 1 in
            if r <=? use_count - 1
            then phase2 n tracked s' (vinsert temp_1 v) (upd g v r)
            else GAssert
        end
    end.

  (* garbage_collector.cpp:71-79 *)
  Fixpoint phase3 (n : nat) (tracked temp_1 temp_2 unreach : list Z) (g : Z -> Z)
    : gres (list Z * list Z) :=
    match n with
    | O => GFuel
    | S n =>
        match extract (pick 3 n) temp_1 with
        | None => GOk (temp_2, unreach)
        | Some (v, temp_1') =>
            let use_count :=
              base v + vcount v tracked + vcount v temp_1' + vcount v temp_2
              + vcount v unreach + 1 in
            if g v =? use_count - 1
            then phase3 n tracked temp_1' temp_2 (vinsert unreach v) g
            else phase3 n tracked temp_1' (vinsert temp_2 v) unreach g
        end
    end.

  (* garbage_collector.cpp:83-102; [next] is None for the oldest generation *)
  Fixpoint phase4 (n : nat) (s : staged) (temp_2 unreach tracked : list Z)
      (next : option (list Z)) (grown : Z) (g : Z -> Z)
    : gres (list Z * list Z * option (list Z) * Z * (Z -> Z)) :=
    match n with
    | O => GFuel
    | S n =>
        match extract (pick 4 n) temp_2 with
        | None => GOk (unreach, tracked, next, grown, g)
        | Some (v, temp_2') =>
            let g := upd g v 0 in
            let unreach := verase unreach v in
            let '(s', temp_2'') := visit (heap v) (s, temp_2') in
            match next with
            | Some nl =>
                if memb v tracked
                then phase4 n s' temp_2'' unreach (verase tracked v)
                       (Some (vinsert nl v)) (grown + 1) g
                else phase4 n s' temp_2'' unreach tracked next grown g
            | None => phase4 n s' temp_2'' unreach tracked next grown g
            end
        end
    end.

  (* garbage_collector.cpp:106-131 *)
  Fixpoint phase5 (n : nat) (unreach tracked cleared : list Z) (g : Z -> Z)
    : gres (list Z * list Z) :=
    match n with
    | O => GFuel
    | S n =>
        match extract (pick 5 n) unreach with
        | None => GOk (tracked, cleared)
        | Some (v, unreach') =>
            if memb v tracked
            then
              if g v =? 0 then GAssert
              else phase5 n unreach' (verase tracked v) (v :: cleared) g
            else phase5 n unreach' tracked cleared g
        end
    end.

  (* do_collect_generation, garbage_collector.cpp:24-139; [n] bounds the first
     and the fourth loop *)
  Definition collect (n : nat) (tracked : list Z) (next : option (list Z)) : gres result :=
    (* 45: tracked.merge_into(m_temp_1) *)
    let temp_1 := fold_left vinsert tracked [] in
    gbind (phase1 n tracked [] temp_1 (fun _ => 0)) (fun '(s, g) =>
    gbind (phase2 (S (length s)) tracked s [] g) (fun '(temp_1, g) =>
    (* 69: tracked.merge_into(m_temp_1) *)
    let temp_1 := fold_left vinsert tracked temp_1 in
    gbind (phase3 (S (length temp_1)) tracked temp_1 [] [] g) (fun '(temp_2, unreach) =>
    gbind (phase4 n [] temp_2 unreach tracked next 0 g) (fun '(unreach, tracked, next, grown, g) =>
    gbind (phase5 (S (length unreach)) unreach tracked [] g) (fun '(tracked, cleared) =>
    GOk (mk_result cleared tracked (match next with Some l => l | None => [] end) grown)))))).

End Collect.
