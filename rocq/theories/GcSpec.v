(* What the collector should do, in terms of reachability. *)
From Verif Require Import Base GcModel.

(* parts of a value *)
Inductive part : val -> val -> Prop :=
  | part_self t : part t t
  | part_kid x a kids k : In k kids -> part x k -> part x (VNode a kids).

Definition points (t : val) (v : Z) : Prop := exists a, part (VRef a v) t.

(* Everything that exists: variables with their values; values that are held
   outside of variables (temporaries, arguments); the number of counted
   references to a variable from outside of all values (named references and
   the like); the number held by the other maps of collectors. *)
Record world : Type := mk_world {
  w_vars : list Z;
  w_heap : Z -> val;
  w_outer : list val;
  w_handles : Z -> Z;
  w_maps : Z -> Z
}.

Definition somewhere (w : world) (x : val) : Prop :=
  (exists v, In v (w_vars w) /\ part x (w_heap w v)) \/ (exists t, In t (w_outer w) /\ part x t).

(* One address, one thing. *)
Definition coherent (w : world) : Prop :=
  exists at_ : Z -> val, forall x, somewhere w x ->
    match x with VLeaf => True | VNode a _ => at_ a = x | VRef a _ => at_ a = x end.

(* References lead to variables that exist; variables without existence hold
   nothing; counts of holders are not negative. *)
Definition closed (w : world) : Prop :=
  (forall a v, somewhere w (VRef a v) -> In v (w_vars w)) /\
  (forall v, 0 <= w_handles w v) /\ (forall v, 0 <= w_maps w v).

(* The addresses of all references to [v], each once. *)
Definition holders (w : world) (v : Z) (l : list Z) : Prop :=
  NoDup l /\ forall a, In a l <-> somewhere w (VRef a v).

(* The reference count of each variable, without the reference of the
   generation that is being collected, is exact. *)
Definition exact_counts (w : world) (base : Z -> Z) : Prop :=
  forall v, In v (w_vars w) ->
    exists l, holders w v l /\
      base v = w_handles w v + w_maps w v + Z.of_nat (length l).

(* Each variable is held by exactly one map of a collector: that of its
   generation, or the pool.  [kept] is the weaker form that suffices for the
   assertions. *)
Definition managed (w : world) (tracked : list Z) : Prop :=
  forall v, In v (w_vars w) -> w_maps w v = if memb v tracked then 0 else 1.

(* Reachable from outside. *)
Inductive reach (w : world) : Z -> Prop :=
  | reach_handle v : In v (w_vars w) -> 0 < w_handles w v -> reach w v
  | reach_outer t v : In t (w_outer w) -> points t v -> reach w v
  | reach_step u v : reach w u -> points (w_heap w u) v -> reach w v.

(* What a pass looks at: whatever can be reached from its generation. *)
Inductive visited (w : world) (tracked : list Z) : Z -> Prop :=
  | visited_own v : In v tracked -> visited w tracked v
  | visited_step u v : visited w tracked u -> points (w_heap w u) v -> visited w tracked v.

(* No reference inside a visited variable is at the same time (through shared
   storage) inside a value outside of variables or inside a variable that is
   not visited. *)
Definition unshared (w : world) (tracked : list Z) : Prop :=
  forall a v u, visited w tracked u -> part (VRef a v) (w_heap w u) ->
    (forall t, In t (w_outer w) -> ~ part (VRef a v) t) /\
    (forall u', In u' (w_vars w) -> part (VRef a v) (w_heap w u') -> visited w tracked u').

(* A visited variable is held from elsewhere if there is a handle to it, or a
   reference that lies inside no visited variable; and whatever such a variable
   refers to. *)
Inductive held (w : world) (tracked : list Z) : Z -> Prop :=
  | held_handle v : visited w tracked v -> 0 < w_handles w v -> held w tracked v
  | held_elsewhere a v :
      visited w tracked v -> somewhere w (VRef a v) ->
      (forall u, visited w tracked u -> ~ part (VRef a v) (w_heap w u)) ->
      held w tracked v
  | held_step u v : held w tracked u -> points (w_heap w u) v -> held w tracked v.

(* Reachable from outside or from the variables of other generations. *)
Inductive outside (w : world) (tracked : list Z) : Z -> Prop :=
  | outside_handle v : In v (w_vars w) -> 0 < w_handles w v -> outside w tracked v
  | outside_outer t v : In t (w_outer w) -> points t v -> outside w tracked v
  | outside_other u v :
      In u (w_vars w) -> ~ In u tracked -> points (w_heap w u) v -> outside w tracked v
  | outside_step u v : outside w tracked u -> points (w_heap w u) v -> outside w tracked v.

(* The references inside variables, for the bound on the loops. *)
Fixpoint slots (t : val) : list Z :=
  match t with
  | VLeaf => []
  | VRef a _ => [a]
  | VNode _ kids => flat_map slots kids
  end.

Definition universe (w : world) : list Z := flat_map (fun v => slots (w_heap w v)) (w_vars w).

(* What a pass over the generation [tracked] leaves behind: exactly the
   variables that are not held from elsewhere are cleared, each once; the
   others go to the next generation, or stay if this is the oldest one. *)
Definition pass_ok (w : world) (tracked : list Z) (next : option (list Z)) (r : result) : Prop :=
  NoDup (r_cleared r) /\
  (forall v, In v (r_cleared r) <-> In v tracked /\ ~ held w tracked v) /\
  match next with
  | Some n0 =>
      r_tracked r = [] /\
      (forall v, In v (r_next r) <-> In v n0 \/ In v tracked /\ held w tracked v) /\
      r_promoted r = Z.of_nat (length tracked) - Z.of_nat (length (r_cleared r))
  | None =>
      NoDup (r_tracked r) /\
      (forall v, In v (r_tracked r) <-> In v tracked /\ held w tracked v) /\
      r_next r = [] /\ r_promoted r = 0
  end.
