(* C48: copy-on-write strings *)
From Verif Require Import Base CowStrModel CowStrSpec CowStrProofs.

(* false as it stands: append() and pop_back() take the characters from the
   start of the block even if the string begins somewhere else in it *)
Theorem C48_strings_refuted : forall fresh, exists m v, reach fresh any m v /\ ~ denotes m v.
Proof. exact string_refuted. Qed.
Print Assumptions C48_strings_refuted.

Theorem C48_append_overflow_refuted : forall fresh, exists m v s,
  reach fresh any m v /\ legal v s /\ run1 fresh m s = UB.
Proof. exact overflow_refuted. Qed.
Print Assumptions C48_append_overflow_refuted.

(* true of programs that append to and pop from strings at the start of their
   block only *)
Theorem C48_strings_partial : forall fresh m v,
  reach fresh at_start m v -> denotes m v /\ no_leak m.
Proof. exact start_values. Qed.
Print Assumptions C48_strings_partial.

Theorem C48_step_partial : forall fresh m v s,
  reach fresh at_start m v -> legal v s -> at_start m v s ->
  match run1 fresh m s with
  | Ok m' => deep v s <> None
  | Throw => deep v s = None \/ ~ small m s
  | UB => False
  end.
Proof. exact start_step. Qed.
Print Assumptions C48_step_partial.

(* true of programs without literals assigned and without proper tails *)
Theorem C48_tame_strings_partial : forall fresh m v,
  reach fresh tame m v -> denotes m v /\ no_leak m.
Proof. exact tame_values. Qed.
Print Assumptions C48_tame_strings_partial.

Theorem C48_tame_step_partial : forall fresh m v s,
  reach fresh tame m v -> legal v s -> tame m v s ->
  match run1 fresh m s with
  | Ok m' => deep v s <> None
  | Throw => deep v s = None \/ ~ small m s
  | UB => False
  end.
Proof. exact tame_step. Qed.
Print Assumptions C48_tame_step_partial.

Definition star (s i : nat) : Z := 42.
Definition shown (m : mem) : list (option (outcome bytes)) :=
  map (option_map (contents m)) (objs m).
(* a copy is appended to, then the original is changed; both own a block *)
Example C48_ex_copy :
  (fun r => match r with Ok m => Some (shown m, map (option_map nref) (blocks m)) | _ => None end)
    (run star init [NewLit [97; 98]; AppendLit 0 [99]; NewCopy 0; AppendLit 1 [100]; Put 0 0 120; Pop 1 1])
  = Some ([Some (Ok [120; 98; 99]); Some (Ok [97; 98; 99])], [Some 1; Some 1]).
Proof. reflexivity. Qed.
(* a block shared by three, kept until the last goes away *)
Example C48_ex_share :
  (fun r => match r with Ok m => Some (shown m, map (option_map nref) (blocks m)) | _ => None end)
    (run star init [NewLit [97; 98]; AppendLit 0 [99]; NewCopy 0; NewLit [1]; Assign 2 1; Drop 0])
  = Some ([None; Some (Ok [97; 98; 99]); Some (Ok [97; 98; 99])], [Some 2])
  /\ (fun r => match r with Ok m => Some (blocks m) | _ => None end)
    (run star init [NewLit [97; 98]; AppendLit 0 [99]; NewCopy 0; NewLit [1]; Assign 2 1; Drop 0; Drop 1; Clear 2; Shrink 2])
  = Some [None].
Proof. split; reflexivity. Qed.
(* the tail of a string whose owner is gone: "  abc" -> "abc" -> "  ayz" *)
Example C48_ex_tail :
  (fun r => match r with Ok m => Some (shown m) | _ => None end)
    (run star init [NewLit []; AppendLit 0 [32; 32; 97; 98; 99]; NewSub 0 2 9; Drop 0; AppendLit 1 [121; 122]])
  = Some [None; Some (Ok [32; 32; 97; 121; 122])].
Proof. reflexivity. Qed.
