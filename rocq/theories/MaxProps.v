(* C74: extremes of arguments, and clamping. *)
From Verif Require Import Base Monad SortModel ValueModel ValueSpec RoundModel RoundSpec RoundProofs2.
Open Scope Z_scope.

(* If the arguments that are not null can all be compared with each other, the
   result is the first of the greatest of them. *)
Theorem C74_max : forall l, Forall wf_value l -> ordered (given l) ->
  exists v, finishes (fun fuel => numeric_max fuel l) (Ok v) /\
    ((given l = [] /\ v = VNull) \/ first_extreme greater (given l) v).
Proof. exact max_ok. Qed.
Print Assumptions C74_max.
Theorem C74_min : forall l, Forall wf_value l -> ordered (given l) ->
  exists v, finishes (fun fuel => numeric_min fuel l) (Ok v) /\
    ((given l = [] /\ v = VNull) \/ first_extreme less (given l) v).
Proof. exact min_ok. Qed.
Print Assumptions C74_min.

(* No exception is thrown, whatever the arguments. *)
Theorem C74_never_throws : forall l, Forall wf_value l -> exists v v',
  finishes (fun fuel => numeric_max fuel l) (Ok v) /\ finishes (fun fuel => numeric_min fuel l) (Ok v') /\
  (v = VNull \/ In v l) /\ (v' = VNull \/ In v' l).
Proof. exact never_throws. Qed.
Print Assumptions C74_never_throws.

(* The documentation says that there is an exception if some arguments are
   unordered.  There is none, and the result depends on the order in which they
   are given. *)
Theorem C74_unordered_refuted : exists a b c, vcmp a b = Unordered /\ vcmp b c = Unordered /\
  finishes (fun fuel => numeric_max fuel [a; b; c]) (Ok c) /\ finishes (fun fuel => numeric_max fuel [b; a; c]) (Ok b).
Proof. exact max_unordered. Qed.
Print Assumptions C74_unordered_refuted.

(* A value is clamped to the nearer bound, or left as it is. *)
Theorem C74_clamp : forall v lo hi, wf_value v -> wf_value lo -> wf_value hi ->
  exists r, finishes (fun fuel => numeric_clamp fuel v lo hi) r /\ clamped v lo hi r.
Proof. exact clamp_cases. Qed.
Print Assumptions C74_clamp.
Theorem C74_between : forall v lo hi r, wf_value v -> wf_value lo -> wf_value hi ->
  plain lo = true -> plain hi = true -> at_most lo hi ->
  finishes (fun fuel => numeric_clamp fuel v lo hi) (Ok r) -> at_most lo r /\ at_most r hi.
Proof. exact clamp_between. Qed.
Print Assumptions C74_between.

(* Likewise for clamp, which does not look at the upper bound if the value is
   below the lower one. *)
Theorem C74_clamp_refuted : exists v lo hi, vcmp v hi = Unordered /\ vcmp lo hi = Unordered /\
  finishes (fun fuel => numeric_clamp fuel v lo hi) (Ok lo).
Proof. exact clamp_unordered. Qed.
Print Assumptions C74_clamp_refuted.

(* examples: the integer 2 and the real 2 are equal *)
Example C74_ex_max : numeric_max 5 [VInt 1; VNull; VInt 2; VReal (RFin false 1 1)] = Some (Ok (VInt 2)).
Proof. reflexivity. Qed.
Example C74_ex_min : numeric_min 5 [VNull; VReal (RFin false 1 1); VInt 2; VInt 3] = Some (Ok (VReal (RFin false 1 1))).
Proof. reflexivity. Qed.
Example C74_ex_strings : numeric_max 5 [VInt 1; VStr [65]; VInt 2] = Some (Ok (VInt 2)) /\
  numeric_max 5 [VStr [65]; VInt 1; VInt 2] = Some (Ok (VStr [65])).
Proof. split; reflexivity. Qed.
Example C74_ex_clamp : map (fun n => numeric_clamp 5 (VInt n) (VInt 2) (VInt 4)) [1; 3; 9] =
  [Some (Ok (VInt 2)); Some (Ok (VInt 3)); Some (Ok (VInt 4))].
Proof. reflexivity. Qed.
(* bounds in the wrong order are accepted *)
Example C74_ex_reversed : numeric_clamp 5 (VInt 3) (VInt 4) (VInt 2) = Some (Ok (VInt 4)).
Proof. reflexivity. Qed.
