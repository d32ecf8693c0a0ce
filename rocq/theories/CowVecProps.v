(* C32: copy-on-write arrays *)
From Verif Require Import Base CowVecModel CowVecSpec CowVecProofs.

(* vectors behave as if every copy were deep; a block lives exactly as long as
   some vector uses it, and every element is destroyed before its block goes *)
Theorem C32_vectors : forall (A : Type) e b lim (m : mem A) v,
  0 < e < b -> reach e b lim m v -> denotes m v /\ no_leak m.
Proof. intros A e b lim m v He; exact (@vector_values A e b lim He m v). Qed.
Print Assumptions C32_vectors.

(* no operation is undefined: nothing is constructed over an element, destroyed
   twice, read before it is there or written outside of its block, even if the
   argument is an element of the same vector; an operation throws only for a
   position out of range or near the limit of sizes *)
Theorem C32_step : forall (A : Type) e b lim (m : mem A) v s,
  0 < e < b -> reach e b lim m v -> legal v s ->
  match run1 e b lim m s with
  | Ok m' => deep v s <> None
  | Throw => deep v s = None \/ ~ small b lim m v s
  | UB => False
  end.
Proof. intros A e b lim m v s He; exact (@vector_step A e b lim He m v s). Qed.
Print Assumptions C32_step.

Fixpoint run (m : mem Z) (l : list (stmt Z)) : outcome (mem Z) :=
  match l with
  | [] => Ok m
  | s :: l => match run1 16 32 1000 m s with Ok m => run m l | Throw => Throw | UB => UB end
  end.
Definition shown (r : outcome (mem Z)) :=
  match r with
  | Ok m => Some (map (option_map (contents m)) (objs m),
                  map (fun x => match x with Live b => Some (nref b) | Gone _ => None end) (blocks m))
  | _ => None
  end.
(* a copy is changed, then the original *)
Example C32_ex_copy :
  shown (run init [New; Append 0 (Vals [1; 2; 3]); NewCopy 0; Put 1 0 9; Insert1 0 1 (Vals [7]); Erase 1 0 2])
  = Some ([Some (Ok [1; 7; 2; 3]); Some (Ok [3])], [None; Some 1; Some 1]).
Proof. vm_compute; reflexivity. Qed.
(* an element of the vector itself is appended, with a new block needed *)
Example C32_ex_alias :
  shown (run init [New; Append 0 (Vals [5; 6; 7]); Append 0 (Copies 20 0 1); Pop 0 18; Append 0 (All 0); Reserve 0 0])
  = Some ([Some (Ok [5; 6; 7; 6; 6; 5; 6; 7; 6; 6])], [None; None; Some 1]).
Proof. vm_compute; reflexivity. Qed.
(* a block shared by three, given back by the last *)
Example C32_ex_share :
  shown (run init [New; Append 0 (Vals [5; 6]); NewCopy 0; New; Assign 2 1; Drop 0])
  = Some ([None; Some (Ok [5; 6]); Some (Ok [5; 6])], [Some 2]) /\
  shown (run init [New; Append 0 (Vals [5; 6]); NewCopy 0; New; Assign 2 1; Drop 0; Clear 1; Drop 2])
  = Some ([None; Some (Ok []); None], [None]).
Proof. vm_compute; auto. Qed.
