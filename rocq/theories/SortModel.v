(* Merge sort and binary search of std.array.
   Source: asteria/src/library/array.cpp. *)
From Verif Require Import Base.

(* asteria/fwd.hpp, enum Compare *)
Inductive compare := Less | Equal | Greater | Unordered.
Definition cmp_eqb (a b : compare) : bool :=
  match a, b with
  | Less, Less | Equal, Equal | Greater, Greater | Unordered, Unordered => true
  | _, _ => false
  end.

Section Sort.
Context {A St : Type}.
(* array.cpp:86-101 do_compare_total.  A user-defined comparator is an arbitrary
   function that may keep state of its own and may throw (None); without one the
   state is not used. *)
Variable comp : St -> A -> A -> St * option compare.

(* The state threaded through a call, with the result or an exception. *)
Definition step (B : Type) : Type := (St * outcome B)%type.

(* array.cpp:170-188, lambda output_element in do_merge_blocks.  `out` is the
   part of the output array before bout, last element first, so that bout[-1]
   is its head. *)
Definition output_element (unique : bool) (st : St) (out : list A) (elem : A) : step (list A) :=
  if unique then
    match out with
    | [] => (st, Ok (elem :: out))
    | prev :: _ =>
      let '(st, c) := comp st prev elem in
      match c with
      | None => (st, Throw)
      | Some Unordered => (st, Throw)
      | Some Equal => (st, Ok out)
      | Some _ => (st, Ok (elem :: out))
      end
    end
  else (st, Ok (elem :: out)).

(* array.cpp:222-225 and 229-232: move all elements of a range *)
Fixpoint output_all (unique : bool) (st : St) (out : list A) (l : list A) : step (list A) :=
  match l with
  | [] => (st, Ok out)
  | x :: t =>
    match output_element unique st out x with
    | (st, Ok out) => output_all unique st out t
    | r => r
    end
  end.

(* array.cpp:203-225: merge the blocks b0 and b1, which are the ranges
   [bpos[i], epos[i]).  Reading an empty block is UB. *)
Fixpoint merge_two (unique : bool) (fuel : nat) (st : St) (out b0 b1 : list A) : step (list A) :=
  match fuel with
  | O => (st, UB)
  | S fuel =>
    match b0, b1 with
    | x :: t0, y :: t1 =>
      let '(st, c) := comp st x y in
      match c with
      | None => (st, Throw)
      | Some Unordered => (st, Throw)
      | Some Greater =>
        match output_element unique st out y with
        | (st, Ok out) =>
          match t1 with
          | [] => output_all unique st out b0
          | _ => merge_two unique fuel st out b0 t1
          end
        | r => r
        end
      | Some _ =>
        match output_element unique st out x with
        | (st, Ok out) =>
          match t0 with
          | [] => output_all unique st out b1
          | _ => merge_two unique fuel st out t0 b1
          end
        | r => r
        end
      end
    | _, _ => (st, UB)
    end
  end.

(* array.cpp:190-232: the loop over pairs of blocks; `l` is [bin, ein) *)
Fixpoint merge_pairs (unique : bool) (bsize : nat) (fuel : nat) (st : St) (out l : list A) : step (list A) :=
  match fuel with
  | O => (st, UB)
  | S fuel =>
    if (bsize <? length l)%nat then
      let b0 := firstn bsize l in
      let l1 := skipn bsize l in
      let n1 := Nat.min (length l1) bsize in
      let b1 := firstn n1 l1 in
      let l2 := skipn n1 l1 in
      match merge_two unique (length b0 + length b1) st out b0 b1 with
      | (st, Ok out) => merge_pairs unique bsize fuel st out l2
      | r => r
      end
    else output_all unique st out l
  end.

(* array.cpp:155-238 do_merge_blocks.  The result is the output array after
   erasing the elements from bout on.  Elements moved from the input are dead
   afterwards; the output array is never shorter than the input. *)
Definition merge_blocks (unique : bool) (bsize : nat) (st : St) (input : list A) : step (list A) :=
  match merge_pairs unique bsize (S (length input)) st [] input with
  | (st, Ok out) => (st, Ok (rev out))
  | r => r
  end.

(* array.cpp:447-468 std_array_sort: the loop doubling bsize *)
Fixpoint sort_loop (fuel : nat) (bsize : nat) (st : St) (data : list A) : step (list A) :=
  if (bsize <? length data)%nat then
    match fuel with
    | O => (st, UB)
    | S fuel =>
      match merge_blocks false bsize st data with
      | (st, Ok temp) => sort_loop fuel (bsize * 2) st temp
      | r => r
      end
    end
  else (st, Ok data).
Definition array_sort (st : St) (data : list A) : step (list A) :=
  if (length data <=? 1)%nat then (st, Ok data) else sort_loop (length data) 1 st data.

(* array.cpp:470-492 std_array_usort *)
Fixpoint usort_loop (fuel : nat) (bsize : nat) (st : St) (data : list A) : step (list A) :=
  if (bsize * 2 <? length data)%nat then
    match fuel with
    | O => (st, UB)
    | S fuel =>
      match merge_blocks false bsize st data with
      | (st, Ok temp) => usort_loop fuel (bsize * 2) st temp
      | r => r
      end
    end
  else merge_blocks true bsize st data.
Definition array_usort (st : St) (data : list A) : step (list A) :=
  if (length data <=? 1)%nat then (st, Ok data) else usort_loop (length data) 1 st data.

(* array.cpp:104-128 do_bsearch on the positions [bpos, epos) *)
Fixpoint bsearch (fuel : nat) (st : St) (data : list A) (bpos epos : nat) (target : A) : step (nat * bool) :=
  if (epos <=? bpos)%nat then (st, Ok (bpos, false))
  else match fuel with
  | O => (st, UB)
  | S fuel =>
    let mpos := (bpos + (epos - bpos) / 2)%nat in
    match nth_error data mpos with
    | None => (st, UB)
    | Some x =>
      let '(st, c) := comp st target x in
      match c with
      | None => (st, Throw)
      | Some Equal => (st, Ok (mpos, true))
      | Some Less => bsearch fuel st data bpos mpos target
      | Some _ => bsearch fuel st data (mpos + 1) epos target
      end
    end
  end.

(* array.cpp:130-153 do_bound *)
Fixpoint bound (pred : compare -> bool) (fuel : nat) (st : St) (data : list A) (bpos epos : nat) (target : A) : step nat :=
  if (epos <=? bpos)%nat then (st, Ok bpos)
  else match fuel with
  | O => (st, UB)
  | S fuel =>
    let mpos := (bpos + (epos - bpos) / 2)%nat in
    match nth_error data mpos with
    | None => (st, UB)
    | Some x =>
      let '(st, c) := comp st target x in
      match c with
      | None => (st, Throw)
      | Some c =>
        if pred c then bound pred fuel st data bpos mpos target
        else bound pred fuel st data (mpos + 1) epos target
      end
    end
  end.

(* array.cpp:405-411 std_array_binary_search *)
Definition array_binary_search (st : St) (data : list A) (target : A) : step (option nat) :=
  match bsearch (length data) st data 0 (length data) target with
  | (st, Ok (p, true)) => (st, Ok (Some p))
  | (st, Ok (_, false)) => (st, Ok None)
  | (st, Throw) => (st, Throw)
  | (st, UB) => (st, UB)
  end.
(* array.cpp:414-421 std_array_lower_bound, 424-431 std_array_upper_bound *)
Definition pred_lower (c : compare) : bool := negb (cmp_eqb c Greater).
Definition pred_upper (c : compare) : bool := cmp_eqb c Less.
Definition array_lower_bound (st : St) (data : list A) (target : A) : step nat :=
  bound pred_lower (length data) st data 0 (length data) target.
Definition array_upper_bound (st : St) (data : list A) (target : A) : step nat :=
  bound pred_upper (length data) st data 0 (length data) target.
(* array.cpp:434-445 std_array_equal_range: offset and length *)
Definition array_equal_range (st : St) (data : list A) (target : A) : step (nat * nat) :=
  match bsearch (length data) st data 0 (length data) target with
  | (st, Ok (p, _)) =>
    match bound pred_lower (length data) st data 0 p target with
    | (st, Ok lpos) =>
      match bound pred_upper (length data) st data p (length data) target with
      | (st, Ok upos) => (st, Ok (lpos, upos - lpos)%nat)
      | (st, Throw) => (st, Throw)
      | (st, UB) => (st, UB)
      end
    | (st, Throw) => (st, Throw)
    | (st, UB) => (st, UB)
    end
  | (st, Throw) => (st, Throw)
  | (st, UB) => (st, UB)
  end.

(* array.cpp:385-402 std_array_is_sorted *)
Fixpoint is_sorted_loop (st : St) (prev : A) (l : list A) : step bool :=
  match l with
  | [] => (st, Ok true)
  | x :: t =>
    let '(st, c) := comp st prev x in
    match c with
    | None => (st, Throw)
    | Some Greater => (st, Ok false)
    | Some _ => is_sorted_loop st x t
    end
  end.
Definition array_is_sorted (st : St) (data : list A) : step bool :=
  match data with
  | [] => (st, Ok true)
  | x :: t =>
    let '(st, c) := comp st x x in
    match c with
    | None => (st, Throw)
    | Some Equal => is_sorted_loop st x t
    | Some _ => (st, Ok false)
    end
  end.

(* array.cpp:529-552 std_array_max_of (want = Less) and std_array_min_of
   (want = Greater); is_null tells null values apart.  The result starts as
   null, given by null_value. *)
Variables (is_null : A -> bool).
Fixpoint select_loop (want : compare) (st : St) (result : A) (data : list A) : step A :=
  match data with
  | [] => (st, Ok result)
  | r :: t =>
    if is_null result then select_loop want st r t
    else if is_null r then select_loop want st result t
    else
      let '(st, c) := comp st result r in
      match c with
      | None => (st, Throw)
      | Some c => select_loop want st (if cmp_eqb c want then r else result) t
      end
  end.
End Sort.

(* array.cpp:494-527 std_array_ksort: key-value pairs in the iteration order of
   the object, sorted by key *)
Definition array_ksort {K V St : Type} (comp : St -> K -> K -> St * option compare)
    (st : St) (pairs : list (K * V)) : St * outcome (list (K * V)) :=
  array_sort (fun st p q => comp st (fst p) (fst q)) st pairs.
