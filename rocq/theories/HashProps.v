(* C31: hash maps *)
From Verif Require Import Base HashModel HashSpec HashStepProofs.

(* for every hash function, equality, growth and sharing, maps behave as finite
   maps that are copied deeply: iteration meets every pair once, size() is their
   number, find() finds the value of each key and nothing else; a block lives
   exactly as long as some map uses it and is never more than half full *)
Theorem C31_maps : forall (K V : Type) (eqb : K -> K -> bool) (hash : K -> Z) e b lim (m : mem K V) v,
  (forall x y, reflect (x = y) (eqb x y)) -> 0 < e < b ->
  reach eqb hash e b lim m v -> denotes eqb hash m v /\ tidy m.
Proof. intros K V eqb hash e b lim m v H1 H2; exact (@map_values K V eqb hash H1 e b lim H2 m v). Qed.
Print Assumptions C31_maps.

(* no operation is undefined, no search of a bucket fails; an operation throws
   only near the limit of sizes *)
Theorem C31_step : forall (K V : Type) (eqb : K -> K -> bool) (hash : K -> Z) e b lim (m : mem K V) v s,
  (forall x y, reflect (x = y) (eqb x y)) -> 0 < e < b ->
  reach eqb hash e b lim m v -> legal m v s ->
  match run1 eqb hash e b lim m s with
  | Ok m' => True
  | Throw => ~ small b lim m v s
  | UB => False
  end.
Proof. intros K V eqb hash e b lim m v s H1 H2; exact (@map_step K V eqb hash H1 e b lim H2 m v s). Qed.
Print Assumptions C31_step.

(* after reserve(n) there is room for n elements *)
Theorem C31_reserve : forall (K V : Type) (eqb : K -> K -> bool) (hash : K -> Z) e b lim (m : mem K V) v h n m',
  (forall x y, reflect (x = y) (eqb x y)) -> 0 < e < b ->
  reach eqb hash e b lim m v -> val v h <> None ->
  run1 eqb hash e b lim m (Reserve h n) = Ok m' ->
  exists o c, obj m' h = Ok o /\ capacity m' o = Ok c /\ (n <= c)%nat.
Proof. intros K V eqb hash e b lim m v h n m' H1 H2; exact (@map_reserve K V eqb hash H1 e b lim H2 m v h n m'). Qed.
Print Assumptions C31_reserve.

Fixpoint run (hash : Z -> Z) (m : mem Z Z) (l : list (stmt Z Z)) : outcome (mem Z Z) :=
  match l with
  | [] => Ok m
  | s :: l => match run1 Z.eqb hash 8 32 1000 m s with Ok m => run hash m l | Throw => Throw | UB => UB end
  end.
Definition shown (r : outcome (mem Z Z)) :=
  match r with
  | Ok m => Some (map (option_map (iterate m)) (objs m),
                  map (fun x => match x with Live b => Some (nref b) | Gone => None end) (blocks m))
  | _ => None
  end.
Definition first_buckets n (r : outcome (mem Z Z)) :=
  match r with Ok m => Some (firstn n (buckets m 0), skipn (length (buckets m 0) - n) (buckets m 0)) | _ => None end.

(* all keys collide at the last bucket and wrap around; erasing the first of the
   chain moves the others back *)
Example C31_ex_wrap :
  let last := fun _ : Z => 3954393975 in
  first_buckets 3 (run last init [New; Put 0 1 10; Put 0 2 20; Put 0 3 30])
  = Some ([Some (2, 20); Some (3, 30); None], [None; None; Some (1, 10)]) /\
  first_buckets 3 (run last init [New; Put 0 1 10; Put 0 2 20; Put 0 3 30; Erase 0 1; Emplace 0 2 5; Index 0 3 0 31])
  = Some ([Some (3, 31); None; None], [None; None; Some (2, 20)]).
Proof. vm_compute; auto. Qed.
(* a copy shares the block until one of the two is changed *)
Example C31_ex_copy :
  shown (run (fun k => k) init [New; Insert 0 [(1, 10); (2, 20); (1, 11)]; NewCopy 0; New; Swap 1 2])
  = Some ([Some (Ok [(2, 20); (1, 10)]); Some (Ok []); Some (Ok [(2, 20); (1, 10)])], [Some 2]) /\
  shown (run (fun k => k) init [New; Insert 0 [(1, 10); (2, 20); (1, 11)]; NewCopy 0; FindPut 1 2 7; FindPut 1 3 8; Clear 0])
  = Some ([Some (Ok []); Some (Ok [(2, 7); (1, 10)])], [Some 1; Some 1]).
Proof. vm_compute; auto. Qed.

(* insert(first, last) with iterators that do not tell how far they are apart
   forgets elements: reallocate_reserve() is told to keep what has been inserted
   so far only if the map was not empty *)
Definition many (n : nat) : list (Z * Z) := map (fun i => (Z.of_nat i, 0)) (seq 0 n).
Theorem C31_insert_unknown_refuted : exists l m,
  run (fun k => k) init [New; InsertUnknown 0 l] = Ok m /\
  nth_error (deep Z.eqb init [Some []] (InsertUnknown 0 l)) 0 = Some (Some (rev (many 19))) /\
  lookup Z.eqb (fun k => k) m (Some 0%nat) 0 = Ok None.
Proof.
  exists (many 19). destruct (run (fun k => k) init [New; InsertUnknown 0 (many 19)]) as [m| |] eqn:E;
    vm_compute in E; try discriminate E.
  exists m. split; [reflexivity|]. split; [vm_compute; reflexivity|].
  injection E as <-. vm_compute; reflexivity.
Qed.
Print Assumptions C31_insert_unknown_refuted.
