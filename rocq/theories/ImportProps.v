(* C79: importing scripts *)
From Verif Require Import Base Text ImportModel ImportSpec ImportProofs.

(* If there are n files, imports are never nested deeper than that, however the
   files import each other; a script does what it shall, and afterwards no file
   is locked, even if there was an exception. *)
Theorem C79_import : forall id_of contents flock all, (forall k, flock k = true) -> (forall p i, id_of p = Some i -> In i all) ->
  forall p k, exists st' tr r, import id_of contents flock (length all) (Loader [] k) p = (st', tr, r) /\
    locked st' = [] /\ loads id_of contents [] p tr r /\ r <> UB.
Proof. exact import_ok. Qed.
Print Assumptions C79_import.

(* what it shall do is unique *)
Theorem C79_unique : forall id_of contents A p tr r tr' r',
  loads id_of contents A p tr r -> loads id_of contents A p tr' r' -> tr = tr' /\ r = r'.
Proof. exact (fun id_of contents A p tr r tr' r' H => proj1 (loads_unique id_of contents A) p tr r H tr' r'). Qed.
Print Assumptions C79_unique.

(* no file is loaded while it is being loaded *)
Theorem C79_nested : forall id_of contents A p tr r, loads id_of contents A p tr r -> nested A tr.
Proof. exact (fun id_of contents A p tr r => proj1 (loads_nested id_of contents A) p tr r). Qed.
Print Assumptions C79_nested.

(* But if flock has failed once, the file can never be imported again. *)
Theorem C79_leak_refuted : exists id_of contents flock p st tr,
  import id_of contents flock 1 (Loader [] 0) p = (st, tr, Throw) /\ (forall k, (calls st <= k)%nat -> flock k = true) /\
  import id_of contents flock 1 st p = (st, [Refused p], Throw) /\
  exists tr', loads id_of contents [] p tr' (Ok tt).
Proof. exact leak. Qed.
Print Assumptions C79_leak_refuted.

(* example: a imports b twice and catches, b imports a by another name, which is
   refused; the second time b is loaded again *)
Definition ex_id (p : path) : option Z :=
  if list_eq_dec Z.eq_dec p (str "a") then Some 1 else if list_eq_dec Z.eq_dec p (str "b") then Some 2
  else if list_eq_dec Z.eq_dec p (str "link-to-a") then Some 1 else None.
Definition ex_contents (i : Z) : script :=
  if i =? 1 then [Say 10; Import (str "b") true; Import (str "b") true; Import (str "c") false; Say 11]
  else [Say 20; Import (str "link-to-a") false; Say 21].
Example C79_ex : import ex_id ex_contents (fun _ => true) 2 (Loader [] 0) (str "a") =
  (Loader [] 3,
   [Began 1; Said 10; Began 2; Said 20; Refused (str "link-to-a"); Ended 2; Began 2; Said 20; Refused (str "link-to-a"); Ended 2;
    Refused (str "c"); Ended 1], Throw).
Proof. vm_compute. reflexivity. Qed.
Example C79_ex_known : forall p i, ex_id p = Some i -> In i [1; 2].
Proof. intros p i. unfold ex_id. repeat (destruct (list_eq_dec _ _ _); [intros E; injection E as <-; cbn; auto|]). discriminate. Qed.
