(* C04, C05: array subscripts and reference paths *)
From Verif Require Import Base Text SeqModel ValueModel RefModel RefSpec RefProofs.
Open Scope Z_scope.

(* missing: the empty array with subscript INT64_MIN or INT64_MAX, see C04_read_refuted *)
Theorem C04_read_partial : forall arr i, zlen arr <= int64_max -> is_int64 i ->
  0 < zlen arr \/ int64_min < i < int64_max ->
  dereference_readonly (RVar (var_of (VArr arr)) [SIdx i]) =
    Ok (match elem_pos (zlen arr) i with Some p => nth (Z.to_nat p) arr VNull | None => VNull end).
Proof. exact read_index_value. Qed.
Print Assumptions C04_read_partial.

(* the store succeeds unless the array cannot grow, and then nothing changes *)
Theorem C04_write_partial : forall room arr i new, zlen arr <= int64_max -> is_int64 i ->
  0 < zlen arr \/ int64_min < i < int64_max ->
  assign room (RVar (var_of (VArr arr)) [SIdx i]) new =
    if (growth (zlen arr) i =? 0) || room (zlen arr) (growth (zlen arr) i)
    then (RVar (var_of (VArr (written arr i new))) [SIdx i], Ok tt)
    else (RVar (var_of (VArr arr)) [SIdx i], Throw).
Proof. exact write_index. Qed.
Print Assumptions C04_write_partial.

(* signed overflow in Wrapped_Index *)
Theorem C04_read_refuted : exists arr i, zlen arr <= int64_max /\ is_int64 i /\
  dereference_readonly (RVar (var_of (VArr arr)) [SIdx i]) = UB.
Proof. exists [], int64_max. unfold is_int64. repeat split; try (vm_compute; congruence). Qed.
Print Assumptions C04_read_refuted.
Theorem C04_write_refuted : forall room new, exists arr i, zlen arr <= int64_max /\ is_int64 i /\
  snd (assign room (RVar (var_of (VArr arr)) [SIdx i]) new) = UB.
Proof. intros room new. exists [], int64_min. unfold is_int64. repeat split; try (vm_compute; congruence). Qed.
Print Assumptions C04_write_refuted.

Definition ample (len n : Z) : bool := len + n <=? 1000.
Definition ints (l : list Z) : value := VArr (map VInt l).
Definition after (v : value) (subs : list subscript) (new : value) : reference * outcome unit :=
  assign ample (RVar (var_of v) subs) new.
Example C04_ex_read : map (fun i => dereference_readonly (RVar (var_of (ints [10;11;12])) [SIdx i])) [0; 2; 3; -1; -3; -4]
  = [Ok (VInt 10); Ok (VInt 12); Ok VNull; Ok (VInt 12); Ok (VInt 10); Ok VNull].
Proof. vm_compute. reflexivity. Qed.
Example C04_ex_append : after (ints [10;11]) [SIdx 4] (VInt 9)
  = (RVar (var_of (VArr [VInt 10; VInt 11; VNull; VNull; VInt 9])) [SIdx 4], Ok tt).
Proof. vm_compute. reflexivity. Qed.
Example C04_ex_prepend : after (ints [10;11]) [SIdx (-4)] (VInt 9)
  = (RVar (var_of (VArr [VInt 9; VNull; VInt 10; VInt 11])) [SIdx (-4)], Ok tt).
Proof. vm_compute. reflexivity. Qed.
Example C04_ex_full : after (ints [10;11]) [SIdx (int64_max - 1)] (VInt 9)
  = (RVar (var_of (ints [10;11])) [SIdx (int64_max - 1)], Throw).
Proof. vm_compute. reflexivity. Qed.

(* a value written through a reference is read back through it, whatever the subscripts *)
Theorem C05_read_after_write : forall room, room_ok room -> forall var subs new r',
  tree (v_val var) -> Forall int_sub subs ->
  assign room (RVar var subs) new = (r', Ok tt) -> dereference_readonly r' = Ok new.
Proof. exact assign_read. Qed.
Print Assumptions C05_read_after_write.

(* writing has undefined behaviour only where Wrapped_Index has *)
Theorem C05_write_defined : forall room, room_ok room -> forall r new,
  (forall var subs, r = RVar var subs -> tree (v_val var) /\ Forall int_sub subs /\ Forall mild subs) ->
  snd (assign room r new) <> UB.
Proof. exact assign_no_ub. Qed.
Print Assumptions C05_write_defined.

(* elements off the path keep their values *)
Theorem C05_siblings : forall room, room_ok room -> forall var p s1 r1 s2 r2 new r' y,
  tree (v_val var) -> Forall int_sub (p ++ s1 :: r1) -> int_sub s2 -> Forall steady p -> apart s1 s2 ->
  assign room (RVar var (p ++ s1 :: r1)) new = (r', Ok tt) ->
  dereference_readonly (RVar var (p ++ s2 :: r2)) = Ok y ->
  forall var', r' = RVar var' (p ++ s1 :: r1) -> dereference_readonly (RVar var' (p ++ s2 :: r2)) = Ok y.
Proof. exact assign_frame. Qed.
Print Assumptions C05_siblings.

(* a copy holds what a read gives *)
Theorem C05_copy : forall r, dereference_copy r =
  match dereference_readonly r with Ok x => Ok (RTemp x []) | Throw => Throw | UB => UB end.
Proof. exact deref_copy. Qed.
Print Assumptions C05_copy.

Theorem C05_unset_returns_read : forall r r' y, dereference_unset r = (r', Ok y) -> dereference_readonly r = Ok y.
Proof. exact deref_unset_read. Qed.
Print Assumptions C05_unset_returns_read.

Theorem C05_unset_throws_unchanged : forall r r', dereference_unset r = (r', Throw) -> r' = r.
Proof. exact deref_unset_throw. Qed.
Print Assumptions C05_unset_throws_unchanged.

Theorem C05_unset_key_is_null : forall var p k r' y, tree (v_val var) ->
  dereference_unset (RVar var (p ++ [SKey k])) = (r', Ok y) -> dereference_readonly r' = Ok VNull.
Proof. exact deref_unset_key. Qed.
Print Assumptions C05_unset_key_is_null.

Theorem C05_unset_index : forall arr i p, zlen arr <= int64_max -> is_int64 i -> elem_pos (zlen arr) i = Some p ->
  exists x, nth_error arr (Z.to_nat p) = Some x /\
  unset_chain [SIdx i] (VArr arr) = (VArr (firstn (Z.to_nat p) arr ++ skipn (Z.to_nat p + 1) arr), Ok x).
Proof. exact unset_index. Qed.
Print Assumptions C05_unset_index.

Definition sample : value := VObj [(str "a", ints [1;2;3]); (str "b", VObj [(str "x", VInt 5)])].
(* a write that throws half way leaves the containers it has opened *)
Example C05_ex_throw : after sample [SKey (str "a"); STail; SKey (str "k")] (VInt 7) =
  (RVar (var_of (VObj [(str "a", ints [1;2;3;3]); (str "b", VObj [(str "x", VInt 5)])]))
     [SKey (str "a"); STail; SKey (str "k")], Throw).
Proof. vm_compute. reflexivity. Qed.
Example C05_ex_chain : after sample [SKey (str "c"); STail; SIdx (-2)] (VInt 7)
  = (RVar (var_of (VObj [(str "c", VArr [VArr [VInt 7; VNull]]); (str "a", ints [1;2;3]); (str "b", VObj [(str "x", VInt 5)])]))
      [SKey (str "c"); STail; SIdx (-2)], Ok tt).
Proof. vm_compute. reflexivity. Qed.
Example C05_ex_unset : dereference_unset (RVar (var_of sample) [SKey (str "b"); SKey (str "x")])
  = (RVar (var_of (VObj [(str "a", ints [1;2;3]); (str "b", VObj [])])) [SKey (str "b"); SKey (str "x")], Ok (VInt 5)).
Proof. vm_compute. reflexivity. Qed.
Example C05_ex_tree : tree sample.
Proof. cbn. unfold zlen, int64_max. cbn. repeat split; try lia; repeat constructor; cbn; intuition discriminate. Qed.
Example C05_ex_room : room_ok ample.
Proof. unfold room_ok, ample, int64_max. intros len n H. apply Z.leb_le in H. lia. Qed.
