From Verif Require Import Base Monad Text SortModel ValueModel ArgModel ArgSpec ArgProofs.

(* Reading an overload (start, one call for each parameter, end) gives what the
   parameters say about the arguments, and lists the overload. *)
Theorem C58_overload : forall R (deref : R -> option value) r_of ps (r : reader) args, stack r = rev args -> small ps args ->
  match overload deref r_of ps args with
  | Ok v => exists r', try_overload deref r_of ps r = Ok (r', v) /\ after r r' (map shown ps)
  | _ => try_overload deref r_of ps r = Throw
  end.
Proof. intros R. exact try_overload_ok. Qed.
Print Assumptions C58_overload.

(* and with any number of arguments at the end *)
Theorem C58_variadic : forall R (deref : R -> option value) r_of ps (r : reader) args, stack r = rev args -> small ps args ->
  match overload_refs deref r_of ps args with
  | Ok v => exists r', try_refs deref r_of ps r = Ok (r', v) /\ after r r' (map shown ps ++ [str "..."])
  | _ => try_refs deref r_of ps r = Throw
  end.
Proof. intros R. exact try_refs_ok. Qed.
Print Assumptions C58_variadic.
Theorem C58_variadic_values : forall R (deref : R -> option value) r_of ps (r : reader) args, stack r = rev args -> small ps args ->
  match overload_values deref r_of ps args with
  | Ok v => exists r', try_values deref r_of ps r = Ok (r', v) /\ after r r' (map shown ps ++ [str "..."])
  | _ => try_values deref r_of ps r = Throw
  end.
Proof. intros R. exact try_values_ok. Qed.
Print Assumptions C58_variadic_values.

(* Overloads tried in turn: the first that takes the arguments is chosen; if
   there is none, all of them are listed, in order. *)
Theorem C58_resolve : forall R (deref : R -> option value) r_of pss (r : reader) args, stack r = rev args ->
  Forall (fun ps => small ps args) pss ->
  match first_fit deref r_of pss args with
  | Ok (Some (i, os)) => exists r', resolve deref r_of pss r = Ok (r', Some (i, os)) /\
      overload_count r' = (S i + overload_count r)%nat
  | Ok None => exists r', resolve deref r_of pss r = Ok (r', None) /\
      overloads r' = overloads r ++ concat (map (fun ps => listing (map shown ps) ++ str "|") pss)
  | _ => resolve deref r_of pss r = Throw
  end.
Proof. intros R. exact resolve_ok. Qed.
Print Assumptions C58_resolve.

(* A state that has been saved stays until it is saved over, and an overload
   that starts by loading it goes on as if the beginning had been read again. *)
Theorem C58_save : forall R (r : @reader R) i j s,
  nth_error (saved (save_state i r)) i = Some (cur_state r) /\
  (nth_error (saved r) j = Some s -> i <> j -> nth_error (saved (save_state i r)) j = Some s).
Proof. intros R r i j s. exact (conj (saved_at R r i) (saved_else R r i j s)). Qed.
Print Assumptions C58_save.
Theorem C58_load : forall R (deref : R -> option value) r_of ps qs (r r1 : reader) os r2 i args,
  stack r = rev args -> small (ps ++ qs) args ->
  takes deref r_of ps (start r) = Ok (r1, os) -> nth_error (saved r2) i = Some (cur_state r1) -> stack r2 = stack r ->
  exists r3, load_state i r2 = Ok r3 /\
    match overload deref r_of (ps ++ qs) args with
    | Ok v => exists r4 os' f, takes deref r_of qs r3 = Ok (r4, os') /\
        (exists r5, end_overload r4 = Ok (r5, f) /\ after r2 r5 (map shown (ps ++ qs))) /\
        v = (if f then Some (os ++ os') else None)
    | _ => takes deref r_of qs r3 = Throw
    end.
Proof. intros R. exact load_resumes. Qed.
Print Assumptions C58_load.

(* Nothing can be read after the end. *)
Theorem C58_ended : forall R (deref : R -> option value) r_of (r r' : reader) f, end_overload r = Ok (r', f) ->
  forall p, take deref r_of p r' = Throw /\ end_overload r' = Throw.
Proof. intros R deref r_of. exact (ended_throws deref r_of). Qed.
Print Assumptions C58_ended.

(* std.string.slice(text, [length]) and (text, from, [length]), say, with
   references that are values, or unreadable *)
Definition ex_deref (q : option value) : option value := q.
Definition ex_reader (args : list (option value)) : @reader (option value) :=
  {| stack := rev args; cur_state := empty_state; saved := []; overloads := [] |}.
Definition ex_pss : list (list param) := [[PReq KStr; POpt KInt]; [PReq KStr; PReq KReal; POpt KInt]].
Definition ex_roi (n : Z) : real := RFin (n <? 0) (Z.abs n) 0.
Definition ex_run (args : list (option value)) : option (bytes * option (nat * list out)) :=
  match resolve ex_deref ex_roi ex_pss (ex_reader args) with Ok (r, v) => Some (overloads r, v) | _ => None end.
Example C58_ex_first : ex_run [Some (VStr (str "x"))] =
  Some (str "string, [integer]|", Some (0%nat, [OReq (Some (VStr (str "x"))); OOpt None])).
Proof. vm_compute. reflexivity. Qed.
Example C58_ex_second : ex_run [Some (VStr []); Some (VInt 4); Some VNull] =
  Some (str "string, [integer]|string, real, [integer]|",
        Some (1%nat, [OReq (Some (VStr [])); OReq (Some (VReal (ex_roi 4))); OOpt None])).
Proof. vm_compute. reflexivity. Qed.
Example C58_ex_none : ex_run [Some (VInt 1); None] = Some (str "string, [integer]|string, real, [integer]|", None).
Proof. vm_compute. reflexivity. Qed.
Example C58_ex_throws : ex_run [Some (VStr []); None] = None.
Proof. vm_compute. reflexivity. Qed.
Example C58_ex_variadic :
  match try_values ex_deref ex_roi [PReq KInt] (ex_reader [Some (VInt 1); Some (VBool true); Some (VInt 2)]) with
  | Ok (r, v) => (overloads r, v) = (str "integer, ...|", Some ([OReq (Some (VInt 1))], [VBool true; VInt 2]))
  | _ => False
  end.
Proof. vm_compute. reflexivity. Qed.
