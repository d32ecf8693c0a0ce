(* Searching, counting and excluding elements of arrays, their extremes, and generation.
   Source: asteria/src/library/array.cpp.

   Iterators are offsets.  Callbacks may keep state of their own and may throw (None), as in
   SortModel.  Loops take fuel; UB if it is used up. *)
From Verif Require Import Base Monad SortModel SeqModel ValueModel.

Local Open Scope Z_scope.

Section Find.
  Context {A St : Type}.
  (* array.cpp:68-79: whether an element matches.  If the target is a function it is called,
     and its result tested; otherwise the element is compared with it. *)
  Variable test : St -> A -> St * option bool.

  Definition deref (l : list A) (pos : Z) : outcome A :=
    if 0 <=? pos then match nth_error l (Z.to_nat pos) with Some x => Ok x | None => UB end else UB.

  (* array.cpp:62-84 do_find_opt; [rv]: the iterators are reverse, which refer to the element
     before their base *)
  Fixpoint do_find_opt (rv : bool) (fuel : nat) (l : list A) (st : St) (it last : Z) (match_ : bool)
      : St * outcome (option Z) :=
    if it =? last then (st, Ok None)
    else match fuel with
    | O => (st, UB)
    | S fuel =>
      match deref l (if rv then it - 1 else it) with
      | Ok x =>
        let '(st, r) := test st x in
        match r with
        | None => (st, Throw)
        | Some result =>
          if Bool.eqb result match_ then (st, Ok (Some it))
          else do_find_opt rv fuel l st (if rv then it - 1 else it + 1) last match_
        end
      | Throw => (st, Throw)
      | UB => (st, UB)
      end
    end.

  Definition sliced {B} (st : St) (data : list A) (from length : option Z) (f : Z -> Z -> St * outcome B)
      : St * outcome B :=
    match do_slice (zlen data) from length with
    | Ok (b, e) => f b e
    | Throw => (st, Throw)
    | UB => (st, UB)
    end.

  (* array.cpp:287-305 std_array_find and std_array_find_not *)
  Definition array_find (match_ : bool) (st : St) (data : list A) (from length : option Z) : St * outcome (option Z) :=
    sliced st data from length (fun b e => do_find_opt false (Datatypes.length data) data st b e match_).

  (* array.cpp:307-327 std_array_rfind and std_array_rfind_not *)
  Definition array_rfind (match_ : bool) (st : St) (data : list A) (from length : option Z) : St * outcome (option Z) :=
    sliced st data from length (fun b e =>
      match do_find_opt true (Datatypes.length data) data st e b match_ with
      | (st, Ok (Some it)) => (st, Ok (Some (it - 1)))
      | r => r
      end).

  (* array.cpp:334-338 and 348-352 *)
  Fixpoint count_loop (fuel : nat) (l : list A) (st : St) (first last : Z) (match_ : bool) (count : Z)
      : St * outcome Z :=
    match fuel with
    | O => (st, UB)
    | S fuel =>
      match do_find_opt false (length l) l st first last match_ with
      | (st, Ok (Some it)) => count_loop fuel l st (it + 1) last match_ (count + 1)
      | (st, Ok None) => (st, Ok count)
      | (st, Throw) => (st, Throw)
      | (st, UB) => (st, UB)
      end
    end.
  (* array.cpp:329-355 std_array_count and std_array_count_not *)
  Definition array_count (match_ : bool) (st : St) (data : list A) (from length : option Z) : St * outcome Z :=
    sliced st data from length (fun b e => count_loop (S (Datatypes.length data)) data st b e match_ 0).

  (* array.cpp:364-367 and 378-381; [erase] gives the position after the element *)
  Fixpoint exclude_loop (fuel : nat) (l : list A) (st : St) (first last dist : Z) (match_ : bool)
      : St * outcome (list A) :=
    match fuel with
    | O => (st, UB)
    | S fuel =>
      match do_find_opt false (length l) l st first last match_ with
      | (st, Ok (Some it)) =>
        match vec_erase l (Z.to_nat it) 1 with
        | Ok l => exclude_loop fuel l st it (zlen l - dist) dist match_
        | Throw => (st, Throw)
        | UB => (st, UB)
        end
      | (st, Ok None) => (st, Ok l)
      | (st, Throw) => (st, Throw)
      | (st, UB) => (st, UB)
      end
    end.
  (* array.cpp:357-383 std_array_exclude and std_array_exclude_not *)
  Definition array_exclude (match_ : bool) (st : St) (data : list A) (from length : option Z) : St * outcome (list A) :=
    sliced st data from length (fun b e =>
      exclude_loop (S (Datatypes.length data)) data st b e (zlen data - e) match_).
End Find.

Section Extreme.
  Context {A St : Type}.
  (* array.cpp:86-101 do_compare_total, as in SortModel *)
  Variable comp : St -> A -> A -> St * option compare.

  (* array.cpp:529-553 std_array_max_of and std_array_min_of: [wanted] is what the comparison
     gives if the result shall be replaced.  A null element is None. *)
  Fixpoint extreme_loop (wanted : compare) (st : St) (result : option A) (l : list (option A))
      : St * outcome (option A) :=
    match l with
    | [] => (st, Ok result)
    | r :: l =>
      match result, r with
      | None, _ => extreme_loop wanted st r l
      | Some _, None => extreme_loop wanted st result l
      | Some a, Some b =>
        let '(st, c) := comp st a b in
        match c with
        | None => (st, Throw)
        | Some c => extreme_loop wanted st (if cmp_eqb c wanted then r else result) l
        end
      end
    end.
  Definition array_max_of (st : St) (data : list (option A)) := extreme_loop Less st None data.
  Definition array_min_of (st : St) (data : list (option A)) := extreme_loop Greater st None data.
End Extreme.

Section Generate.
  Context {A St : Type}.
  (* the generator, given how many elements there are and the last one *)
  Variable gen : St -> Z -> option A -> St * option A.
  (* how many elements an array can have at most *)
  Variable max_size : Z.

  (* array.cpp:568-581 *)
  Fixpoint generate_loop (fuel : nat) (st : St) (i length : Z) (data : list A) : St * outcome (list A) :=
    if i <? length then
      match fuel with
      | O => (st, UB)
      | S fuel =>
        let '(st, v) := gen st i (match rev data with [] => None | x :: _ => Some x end) in
        match v with
        | None => (st, Throw)
        | Some v => generate_loop fuel st (i + 1) length (data ++ [v])
        end
      end
    else (st, Ok data).

  (* array.cpp:561-583 std_array_generate; cow_vector.hpp:331-345 reserve and
     cow_vector.ipp:329-349 throw if too many elements are reserved *)
  Definition array_generate (st : St) (length : Z) : St * outcome (list A) :=
    if max_size <? to_u64 length then (st, Throw)
    else generate_loop (Z.to_nat length) st 0 length [].
End Generate.

(* array.cpp:92 without a comparator: the built-in comparison, which throws if its operands are
   unordered; see ValueModel for the fuel, which is enough for values of little depth *)
Definition builtin_compare (st : unit) (a b : value) : unit * option compare :=
  match compare_total 10 a b with
  | Some (Ok c) => (st, Some c)
  | _ => (st, None)
  end.
