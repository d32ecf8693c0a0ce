(* Subscripts and references: asteria/utils.hpp, asteria/src/runtime/subscript.cpp
   and asteria/src/runtime/reference.cpp. *)
From Verif Require Import Base Monad SeqModel ValueModel.
Open Scope Z_scope.

(* utils.hpp:148-186 Wrapped_Index: (nappend, nprepend, rindex).  The signed
   subtractions at 166 and 171 are undefined when they leave int64_t; rindex is
   computed modulo 2^64. *)
Definition sub_i64 (x y : Z) : outcome Z := if is_int64b (x - y) then Ok (x - y) else UB.
Definition wrap_array_index (ssize sindex : Z) : outcome (Z * Z * Z) :=
  if 0 <=? sindex then
    do last <- sub_i64 ssize 1;
    do nappend <- sub_i64 (Z.max last sindex) last;
    Ok (to_u64 nappend, 0, to_u64 sindex)
  else
    do first <- sub_i64 0 ssize;
    do nprepend <- sub_i64 first (Z.min sindex first);
    do t <- add_i64 sindex ssize;
    Ok (0, to_u64 nprepend, to_u64 (to_u64 t + to_u64 nprepend)).

(* runtime/subscript.hpp:13-52 the alternatives of Subscript *)
Inductive subscript :=
  | SIdx (i : Z)
  | SKey (k : bytes)
  | SHead
  | STail
  | SRand (seed : Z).

(* A pointer to an element of a given parent. *)
Inductive loc := LIdx (i : nat) | LKey (k : bytes).

(* cow_hashmap of keys, as an association list: find, mut_ptr; the tables
   themselves are the subject of C31 *)
Definition key_eqb (a b : bytes) : bool := if list_eq_dec Z.eq_dec a b then true else false.
Fixpoint obj_find (o : list (bytes * value)) (k : bytes) : option value :=
  match o with
  | [] => None
  | (k', v) :: o' => if key_eqb k k' then Some v else obj_find o' k
  end.
Fixpoint obj_set (o : list (bytes * value)) (k : bytes) (x : value) : list (bytes * value) :=
  match o with
  | [] => []
  | (k', v) :: o' => if key_eqb k k' then (k', x) :: o' else (k', v) :: obj_set o' k x
  end.
(* cow_hashmap::try_emplace *)
Definition obj_emplace (o : list (bytes * value)) (k : bytes) : list (bytes * value) :=
  match obj_find o k with Some _ => o | None => (k, VNull) :: o end.
(* cow_hashmap::erase *)
Fixpoint obj_erase (o : list (bytes * value)) (k : bytes) : list (bytes * value) :=
  match o with
  | [] => []
  | (k', v) :: o' => if key_eqb k k' then o' else (k', v) :: obj_erase o' k
  end.

(* reading and writing through a pointer *)
Definition get_loc (parent : value) (l : loc) : option value :=
  match parent, l with
  | VArr a, LIdx i => nth_error a i
  | VObj o, LKey k => obj_find o k
  | _, _ => None
  end.
Definition set_loc (parent : value) (l : loc) (x : value) : value :=
  match parent, l with
  | VArr a, LIdx i => VArr (set_nth a i x)
  | VObj o, LKey k => VObj (obj_set o k x)
  | p, _ => p
  end.

(* forming &data[off]: only elements of the array may be addressed *)
Definition at_index (a : list value) (off : Z) : outcome loc :=
  if (0 <=? off) && (off <? zlen a) then Ok (LIdx (Z.to_nat off)) else UB.
Definition some {A} (m : outcome A) : outcome (option A) := do x <- m; Ok (Some x).

(* subscript.cpp:11-114 apply_read_opt; None is the null pointer *)
Definition apply_read_opt (s : subscript) (parent : value) : outcome (option loc) :=
  match s with
  | SIdx i =>
    match parent with
    | VNull => Ok None
    | VArr arr =>
      do (nappend, nprepend, rindex) <- wrap_array_index (zlen arr) i;
      if negb (Z.lor nprepend nappend =? 0) then Ok None else some (at_index arr rindex)
    | _ => Throw
    end
  | SKey k =>
    match parent with
    | VNull => Ok None
    | VObj obj => match obj_find obj k with Some _ => Ok (Some (LKey k)) | None => Ok None end
    | _ => Throw
    end
  | SHead =>
    match parent with
    | VNull => Ok None
    | VArr arr => if zlen arr =? 0 then Ok None else some (at_index arr 0)
    | _ => Throw
    end
  | STail =>
    match parent with
    | VNull => Ok None
    | VArr arr => if zlen arr =? 0 then Ok None else some (at_index arr (zlen arr - 1))
    | _ => Throw
    end
  | SRand seed =>
    match parent with
    | VNull => Ok None
    | VArr arr => if zlen arr =? 0 then Ok None else some (at_index arr (probe_origin (zlen arr) seed))
    | _ => Throw
    end
  end.

(* subscript.cpp:115-218 apply_write_opt; it does not change the parent *)
Definition apply_write_opt (s : subscript) (parent : value) : outcome (option loc) :=
  match s with
  | SIdx i =>
    match parent with
    | VNull => Ok None
    | VArr arr =>
      do (nappend, nprepend, rindex) <- wrap_array_index (zlen arr) i;
      if negb (Z.lor nprepend nappend =? 0) then Ok None else some (at_index arr rindex)
    | _ => Throw
    end
  | SKey k =>
    match parent with
    | VNull => Ok None
    | VObj obj => match obj_find obj k with Some _ => Ok (Some (LKey k)) | None => Ok None end
    | _ => Throw
    end
  | SHead =>
    match parent with
    | VNull => Ok None
    | VArr arr => if zlen arr =? 0 then Ok None else some (at_index arr 0)
    | _ => Throw
    end
  | STail =>
    match parent with
    | VNull => Ok None
    | VArr arr => if zlen arr =? 0 then Ok None else some (at_index arr (zlen arr - 1))
    | _ => Throw
    end
  | SRand seed =>
    match parent with
    | VNull => Ok None
    | VArr arr => if zlen arr =? 0 then Ok None else some (at_index arr (probe_origin (zlen arr) seed))
    | _ => Throw
    end
  end.

Section Open.
(* room len n: growing a vector of len elements by n succeeds; otherwise
   length_error (cow_vector.ipp:328-340) or bad_alloc is thrown and the vector
   keeps its elements *)
Variable room : Z -> Z -> bool.

(* cow_vector.hpp:679-687 insert(begin(), n): append, then rotate *)
Definition insert_front (arr : list value) (n : Z) (x : value) : list value * outcome unit :=
  if room (zlen arr) n then
    match vec_insert arr 0 (repeat x (Z.to_nat n)) with
    | Ok arr' => (arr', Ok tt)
    | Throw => (arr, Throw)
    | UB => (arr, UB)
    end
  else (arr, Throw).
(* cow_vector.hpp:480-502 append, 560-579 emplace_back *)
Definition append_back (arr : list value) (n : Z) (x : value) : list value * outcome unit :=
  if room (zlen arr) n then (arr ++ repeat x (Z.to_nat n), Ok tt) else (arr, Throw).

(* subscript.cpp:219-330 apply_open, on the array or object that the parent is
   or has just become; the new parent is returned also when it throws *)
Definition open_array (s : subscript) (arr : list value) : value * outcome loc :=
  match s with
  | SIdx i =>
    match wrap_array_index (zlen arr) i with
    | Ok (nappend, nprepend, rindex) =>
      let '(arr', r) :=
        if negb (nprepend =? 0) then insert_front arr nprepend VNull
        else if negb (nappend =? 0) then append_back arr nappend VNull
        else (arr, Ok tt) in
      (VArr arr', do _ <- r; at_index arr' rindex)
    | Throw => (VArr arr, Throw)
    | UB => (VArr arr, UB)
    end
  | SHead =>
    let '(arr', r) := insert_front arr 1 (match arr with [] => VNull | x :: _ => x end) in
    (VArr arr', do _ <- r; at_index arr' 0)
  | STail =>
    let '(arr', r) := append_back arr 1 (match arr with [] => VNull | x :: t => last t x end) in
    (VArr arr', do _ <- r; at_index arr' (zlen arr' - 1))
  | SRand seed =>
    if zlen arr =? 0 then (VArr arr, Throw)
    else (VArr arr, at_index arr (probe_origin (zlen arr) seed))
  | SKey _ => (VArr arr, Throw)
  end.
Definition apply_open (s : subscript) (parent : value) : value * outcome loc :=
  match s with
  | SKey k =>
    match parent with
    | VNull => (VObj (obj_emplace [] k), Ok (LKey k))
    | VObj obj => (VObj (obj_emplace obj k), Ok (LKey k))
    | _ => (parent, Throw)
    end
  | _ =>
    match parent with
    | VNull => open_array s []
    | VArr arr => open_array s arr
    | _ => (parent, Throw)
    end
  end.

(* taking the element at an index out of an array (move, then erase) *)
Definition take_index (arr : list value) (off : Z) : value * outcome value :=
  if (0 <=? off) && (off <? zlen arr) then
    match nth_error arr (Z.to_nat off), vec_erase arr (Z.to_nat off) 1 with
    | Some x, Ok arr' => (VArr arr', Ok x)
    | _, _ => (VArr arr, UB)
    end
  else (VArr arr, UB).

(* subscript.cpp:331-448 apply_unset *)
Definition apply_unset (s : subscript) (parent : value) : value * outcome value :=
  match s with
  | SIdx i =>
    match parent with
    | VNull => (parent, Ok VNull)
    | VArr arr =>
      match wrap_array_index (zlen arr) i with
      | Ok (nappend, nprepend, rindex) =>
        if negb (Z.lor nprepend nappend =? 0) then (parent, Ok VNull) else take_index arr rindex
      | Throw => (parent, Throw)
      | UB => (parent, UB)
      end
    | _ => (parent, Throw)
    end
  | SKey k =>
    match parent with
    | VNull => (parent, Ok VNull)
    | VObj obj =>
      match obj_find obj k with
      | Some x => (VObj (obj_erase obj k), Ok x)
      | None => (parent, Ok VNull)
      end
    | _ => (parent, Throw)
    end
  | SHead =>
    match parent with
    | VNull => (parent, Ok VNull)
    | VArr arr => if zlen arr =? 0 then (parent, Ok VNull) else take_index arr 0
    | _ => (parent, Throw)
    end
  | STail =>
    match parent with
    | VNull => (parent, Ok VNull)
    | VArr arr => if zlen arr =? 0 then (parent, Ok VNull) else take_index arr (zlen arr - 1)
    | _ => (parent, Throw)
    end
  | SRand seed =>
    match parent with
    | VNull => (parent, Ok VNull)
    | VArr arr => if zlen arr =? 0 then (parent, Ok VNull) else take_index arr (probe_origin (zlen arr) seed)
    | _ => (parent, Throw)
    end
  end.

(* reference.cpp:87-95 and 109-117 the loop of dereference_readonly *)
Fixpoint read_chain (subs : list subscript) (v : value) {struct subs} : outcome value :=
  match subs with
  | [] => Ok v
  | s :: subs' =>
    do p <- apply_read_opt s v;
    match p with
    | None => Ok VNull
    | Some l => match get_loc v l with Some x => read_chain subs' x | None => UB end
    end
  end.

(* reference.cpp:137-145 the loop of dereference_copy on a temporary *)
Fixpoint copy_chain (subs : list subscript) (v : value) {struct subs} : outcome value :=
  match subs with
  | [] => Ok v
  | s :: subs' =>
    do p <- apply_write_opt s v;
    match p with
    | None => Ok VNull
    | Some l => match get_loc v l with Some x => copy_chain subs' x | None => UB end
    end
  end.

(* reference.cpp:210-214 the loop of dereference_mutable: the new root and the
   path to the final element *)
Fixpoint open_chain (subs : list subscript) (v : value) {struct subs} : value * outcome (list loc) :=
  match subs with
  | [] => (v, Ok [])
  | s :: subs' =>
    match apply_open s v with
    | (v', Ok l) =>
      match get_loc v' l with
      | Some x =>
        let '(x', r) := open_chain subs' x in
        (set_loc v' l x', do path <- r; Ok (l :: path))
      | None => (v', UB)
      end
    | (v', Throw) => (v', Throw)
    | (v', UB) => (v', UB)
    end
  end.

(* storing through the Value& that dereference_mutable returned *)
Fixpoint store (path : list loc) (v new : value) {struct path} : outcome value :=
  match path with
  | [] => Ok new
  | l :: path' =>
    match get_loc v l with
    | Some x => do x' <- store path' x new; Ok (set_loc v l x')
    | None => UB
    end
  end.

(* reference.cpp:246-260 the end of dereference_unset *)
Fixpoint unset_chain (subs : list subscript) (v : value) {struct subs} : value * outcome value :=
  match subs with
  | [] => (v, Throw)
  | [s] => apply_unset s v
  | s :: subs' =>
    match apply_write_opt s v with
    | Ok None => (v, Ok VNull)
    | Ok (Some l) =>
      match get_loc v l with
      | Some x => let '(x', r) := unset_chain subs' x in (set_loc v l x', r)
      | None => (v, UB)
      end
    | Throw => (v, Throw)
    | UB => (v, UB)
    end
  end.

(* runtime/variable.hpp: the parts of a variable that matter here *)
Record variable := { v_init : bool; v_const : bool; v_val : value }.
(* runtime/reference.hpp: the states of a reference, with the variable it refers to *)
Inductive reference :=
  | RBad | RVoid | RPtc
  | RTemp (val : value) (subs : list subscript)
  | RVar (var : variable) (subs : list subscript).

(* reference.cpp:75-123 *)
Definition dereference_readonly (r : reference) : outcome value :=
  match r with
  | RTemp val subs => read_chain subs val
  | RVar var subs => if v_init var then read_chain subs (v_val var) else Throw
  | _ => Throw
  end.
(* reference.cpp:125-184; the reference becomes a temporary *)
Definition dereference_copy (r : reference) : outcome reference :=
  match r with
  | RTemp val subs => do x <- copy_chain subs val; Ok (RTemp x [])
  | RVar var subs => if v_init var then do x <- read_chain subs (v_val var); Ok (RTemp x []) else Throw
  | _ => Throw
  end.

Definition with_val (var : variable) (v : value) : variable :=
  {| v_init := v_init var; v_const := v_const var; v_val := v |}.
(* reference.cpp:186-221 dereference_mutable, followed by an assignment of `new`
   to what it returns: the reference afterwards, and whether it threw *)
Definition assign (r : reference) (new : value) : reference * outcome unit :=
  match r with
  | RVar var subs =>
    if negb (v_init var) then (r, Throw)
    else if v_const var then (r, Throw)
    else
      match open_chain subs (v_val var) with
      | (v', Ok path) =>
        match store path v' new with
        | Ok v'' => (RVar (with_val var v'') subs, Ok tt)
        | Throw => (RVar (with_val var v') subs, Throw)
        | UB => (RVar (with_val var v') subs, UB)
        end
      | (v', Throw) => (RVar (with_val var v') subs, Throw)
      | (v', UB) => (RVar (with_val var v') subs, UB)
      end
  | _ => (r, Throw)
  end.
(* reference.cpp:223-264 *)
Definition dereference_unset (r : reference) : reference * outcome value :=
  match r with
  | RVar var subs =>
    if negb (v_init var) then (r, Throw)
    else if v_const var then (r, Throw)
    else let '(v', x) := unset_chain subs (v_val var) in (RVar (with_val var v') subs, x)
  | _ => (r, Throw)
  end.
End Open.
