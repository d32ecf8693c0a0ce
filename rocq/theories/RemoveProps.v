(* C75: std.filesystem.remove_recursive *)
From Verif Require Import Base Text RemoveModel RemoveSpec RemoveProofs.

(* If nothing below the path is protected, all of it is removed and nothing
   else, and the result is how many paths there were. *)
Theorem C75_complete : forall deny t p, tree t -> p <> [] -> (forall q, below p q -> deny q = false) ->
  exists t', remove_recursive deny t p = (t', Ok (Z.of_nat (length t - length t'))) /\ cut p t t' /\
    (length t' <= length t)%nat.
Proof. exact remove_complete. Qed.
Print Assumptions C75_complete.

(* what that means *)
Theorem C75_gone : forall p t t', cut p t t' -> forall e, In e t' <-> In e t /\ ~ below p (fst e).
Proof. exact cut_gone. Qed.
Print Assumptions C75_gone.

(* Whatever is protected, it ends; if it does not throw then all is removed. *)
Theorem C75_result : forall deny t p, tree t -> p <> [] ->
  exists t' r, remove_recursive deny t p = (t', r) /\
    (r = Throw \/ r = Ok (Z.of_nat (length t - length t')) /\ cut p t t').
Proof. exact remove_result. Qed.
Print Assumptions C75_result.

(* Nothing that is not below the path is ever removed, even if it throws, and
   even if the list is not a tree. *)
Theorem C75_only : forall deny t p t' r, remove_recursive deny t p = (t', r) ->
  (forall e, In e t' -> In e t) /\ (forall e, In e t -> ~ below p (fst e) -> In e t').
Proof. exact remove_only. Qed.
Print Assumptions C75_only.

(* examples *)
Definition ex_a := str "a". Definition ex_b := str "b". Definition ex_c := str "c".
Definition ex_fs : fs :=
  [([ex_a], Directory); ([ex_b], Plain); ([ex_a; ex_b], Directory); ([ex_a; ex_b; ex_c], Plain);
   ([ex_a; ex_a], Plain); ([str "ab"], Plain); ([ex_a; ex_b; ex_a], Directory)].
Example C75_ex_tree : tree ex_fs.
Proof.
  split; [|split].
  - repeat constructor; cbn; intuition discriminate.
  - intros p n k H. unfold ex_fs in H. cbn [In] in H.
    destruct (list_eq_dec (list_eq_dec Z.eq_dec) p []) as [E|E]; [now left|]. right.
    destruct p as [|x [|y [|z p]]]; [now elim E| | |];
      repeat (destruct H as [H|H]; [try (cbn [app] in H; injection H; intros; subst; cbn; auto; fail); try discriminate H|]);
      try contradiction.
    all: cbn [app] in H; destruct p; discriminate H.
  - cbn. intuition discriminate.
Qed.
Example C75_ex : remove_recursive (fun _ => false) ex_fs [ex_a] = ([([ex_b], Plain); ([str "ab"], Plain)], Ok 5).
Proof. vm_compute. reflexivity. Qed.
Example C75_ex_missing : remove_recursive (fun _ => false) ex_fs [ex_c] = (ex_fs, Ok 0).
Proof. vm_compute. reflexivity. Qed.
(* a directory that cannot be removed: what was removed before is lost *)
Example C75_ex_denied : remove_recursive (fun q => path_eqb q [ex_a; ex_b]) ex_fs [ex_a] =
  ([([ex_a], Directory); ([ex_b], Plain); ([ex_a; ex_b], Directory); ([ex_a; ex_b; ex_c], Plain);
    ([str "ab"], Plain); ([ex_a; ex_b; ex_a], Directory)], Throw).
Proof. vm_compute. reflexivity. Qed.
