(* C63 *)
From Verif Require Import Base Monad HashModel LinkModel LinkSpec LinkProofs4.
From Coq Require Import Permutation.

(* C63: programs with any number of tables of buckets in a circular list see
   finite maps; nothing undefined happens, and std::bad_alloc comes only when
   the buckets would take two gigabytes.  For all keys, hash functions, values
   and sizes of buckets. *)
Theorem C63_finite_maps : forall (K V : Type) (eqb : K -> K -> bool) (hash : K -> Z) (live : V -> bool) bsz least,
  (forall a b, reflect (a = b) (eqb a b)) -> 0 < bsz -> 5 <= least < 2 ^ 31 ->
  forall l, all_legal [] l ->
  match run eqb hash live bsz least [] l with
  | Ok rs => history eqb live [] l rs
  | Throw => fails eqb live bsz least [] l
  | UB => False
  end.
Proof. exact @histories. Qed.
Print Assumptions C63_finite_maps.

(* Variable_HashMap: the keys are addresses, the values are pointers which may
   be null, a bucket has 32 bytes *)
Theorem C63_variable_hashmap : forall l, all_legal [] l ->
  match run Z.eqb to_u64 (fun v : option Z => match v with Some _ => true | None => false end) 32 5 [] l with
  | Ok rs => history Z.eqb (fun v => match v with Some _ => true | None => false end) [] l rs
  | Throw => fails Z.eqb (fun v => match v with Some _ => true | None => false end) 32 5 [] l
  | UB => False
  end.
Proof. exact addresses. Qed.
Print Assumptions C63_variable_hashmap.

(* ------------------------------------------------------------------ *)
Definition some (v : option Z) : bool := match v with Some _ => true | None => false end.
Notation runv := (run Z.eqb to_u64 some 32 5).

(* two maps: a key stays with its first value; null pointers are not merged,
   and are skipped by the extraction, which begins with the newest *)
Example C63_ex_merge : runv []
  [New; New; Insert 0 16 (Some 1); Insert 0 16 (Some 2); Insert 0 32 None; Insert 0 48 (Some 3);
   Insert 1 48 (Some 4); Merge 0 1; Size 1; Find 1 48; Find 1 32; Extract 1 (Some 9); Extract 1 None;
   Extract 1 (Some 9); Insert 0 64 None; Extract 0 (Some 9); Size 0; Extract 0 None; Extract 0 (Some 9);
   Size 0; Drop 1; Drop 0] =
  Ok [RUnit; RUnit; RBool true; RBool false; RBool true; RBool true;
      RBool true; RUnit; RNum 2; RFound (Some (Some 4)); RFound None; RVar true (Some 1); RVar true (Some 4);
      RVar false (Some 9); RBool true; RVar true (Some 3); RNum 2; RVar true (Some 1); RVar false None;
      RNum 0; RUnit; RUnit].
Proof. vm_compute. reflexivity. Qed.

(* five keys that all want the last bucket, of seven or of fifteen: the others
   begin at the front *)
Definition crowd : list Z := [8; 21; 42; 55; 63].
Example C63_ex_origins : map (fun k => origin to_u64 7 k) crowd = [6; 6; 6; 6; 6]%nat /\
  map (fun k => origin to_u64 15 k) crowd = [14; 14; 14; 14; 14]%nat.
Proof. vm_compute. auto. Qed.
Example C63_ex_crowd : runv [] (New :: map (fun k => Insert 0 k (Some k)) crowd ++
   [Erase 0 8; Find 0 21; Find 0 63; Find 0 8; Erase 0 8; Size 0; Swap 0 0; Clear 0; Size 0; Find 0 21]) =
  Ok ([RUnit] ++ map (fun _ => RBool true) crowd ++
      [RFound (Some (Some 8)); RFound (Some (Some 21)); RFound (Some (Some 63)); RFound None; RFound None;
       RNum 4; RUnit; RUnit; RNum 0; RFound None]).
Proof. vm_compute. reflexivity. Qed.

(* a dictionary: assigning through the reference of insert *)
Example C63_ex_dictionary :
  run Z.eqb (fun _ => 2 ^ 30) (fun _ : Z => true) 64 11 []
    [New; Put 0 1 0 10; Put 0 2 0 20; Put 0 1 0 11; Write 0 2 21; Write 0 3 30; Find 0 1; Find 0 2; Find 0 3;
     Erase 0 1; Find 0 1; Find 0 2; Drop 0] =
  Ok [RUnit; RBool true; RBool true; RBool false; RBool true; RBool false; RFound (Some 11); RFound (Some 21);
      RFound None; RFound (Some 11); RFound None; RFound (Some 21); RUnit].
Proof. vm_compute. reflexivity. Qed.

(* the storage of the buckets goes back to the pool that it came from, although
   do_clear gives the size of one bucket less: 8 buckets of 32 bytes are asked
   for as 6, and freed as 7 *)
Example C63_ex_pool :
  allocate (K := Z) (V := Z) 32 5 =
    Ok (8, repeat (Cell None None None) 7 ++ [Cell (Some 7%nat) (Some 7%nat) None]) /\
  XmemModel.pool_for_size (32 * 7) = Ok (8, 256).
Proof. vm_compute. auto. Qed.
