(* Value::print_to and Value::dump: asteria/src/value.cpp:13-31, 420-536 and 546-679.

   Both expand the recursion by hand with a stack of iterators.  A frame of the stack is what
   the iterator has yet to visit after the current element; for dump it also has the index of
   the current element.  An object is iterated in the order of its list.  The sink is a string
   that is appended to.  What reals, opaque objects and functions print are parameters.  One
   unit of fuel is used for each value visited and each turn of the loop over the stack; UB if
   it is used up, and if an iterator is dereferenced at the end. *)
From Verif Require Import Base Text Monad NumPutModel ValueModel TokModel FmtModel.

Local Open Scope Z_scope.

Section Print.
  Variable real_text : real -> bytes.
  Variable opaque_text : Z -> bytes.
  Variable function_text : Z -> bytes.

  (* Rbr_array and Rbr_object, 33-45 *)
  Inductive frame :=
    | Rbr_array (index : Z) (rest : list value)
    | Rbr_object (rest : list (bytes * value)).

  (* ascii_numput.cpp:1358-1365, put_TB *)
  Definition put_TB (value : bool) : bytes := if value then str "true" else str "false".

  Definition put_key (key : bytes) (sep : bytes) : bytes := str """" ++ c_quote key ++ str """" ++ sep.

  (* [fmt << a] before the rest *)
  Definition before (text : bytes) (rest : outcome bytes) : outcome bytes :=
    do r <- rest ; Ok (text ++ r).

  (* 420-536: with a value, from label r; without, the loop over the stack *)
  Fixpoint print_loop (fuel : nat) (qval : option value) (stack : list frame) : outcome bytes :=
    match fuel with
    | O => UB
    | S fuel =>
      match qval with
      | Some VNull => before (str "null") (print_loop fuel None stack)
      | Some (VBool b) => before (put_TB b) (print_loop fuel None stack)
      | Some (VInt n) => do t <- put_DI n 1 ; before t (print_loop fuel None stack)
      | Some (VReal r) => before (real_text r) (print_loop fuel None stack)
      | Some (VStr s) => before (str """" ++ c_quote s ++ str """") (print_loop fuel None stack)
      | Some (VOpaque i) => before (str "(opaque) [[" ++ opaque_text i ++ str "]]") (print_loop fuel None stack)
      | Some (VFunc i) => before (str "(function) [[" ++ function_text i ++ str "]]") (print_loop fuel None stack)
      | Some (VArr l) =>
        match l with
        | [] => before (str "[ ]") (print_loop fuel None stack)
        | v :: rest => before (str "[ ") (print_loop fuel (Some v) (Rbr_array 0 rest :: stack))
        end
      | Some (VObj l) =>
        match l with
        | [] => before (str "{ }") (print_loop fuel None stack)
        | (k, v) :: rest =>
          before (str "{ " ++ put_key k (str ": ")) (print_loop fuel (Some v) (Rbr_object rest :: stack))
        end
      | None =>
        match stack with
        | [] => Ok []
        | Rbr_array i (v :: rest) :: stack =>
          before (str ", ") (print_loop fuel (Some v) (Rbr_array (i + 1) rest :: stack))
        | Rbr_array _ [] :: stack => before (str " ]") (print_loop fuel None stack)
        | Rbr_object ((k, v) :: rest) :: stack =>
          before (str ", " ++ put_key k (str ": ")) (print_loop fuel (Some v) (Rbr_object rest :: stack))
        | Rbr_object [] :: stack => before (str " }") (print_loop fuel None stack)
        end
      end
    end.

  (* how many units of fuel a value takes *)
  Fixpoint work (v : value) : nat :=
    match v with
    | VArr l => S (fold_right (fun v n => S (work v + n))%nat O l)
    | VObj l => S (fold_right (fun kv n => S (work (snd kv) + n))%nat O l)
    | _ => 1%nat
    end.

  Definition print_to (v : value) : outcome bytes := print_loop (S (work v)) (Some v) [].

  (* 13-31, do_break_line; the loop puts up to 32 spaces at a time *)
  Fixpoint put_spaces (fuel : nat) (rem : Z) : outcome bytes :=
    if rem =? 0 then Ok []
    else match fuel with
         | O => UB
         | S fuel =>
           let n := Z.min rem 32 in
           before (repeat 32 (Z.to_nat n)) (put_spaces fuel (rem - n))
         end.
  Definition break_line (step next : Z) : outcome bytes :=
    if step =? 0 then Ok [32]
    else before [10] (put_spaces (Z.to_nat (next / 32 + 1)) next).

  Section Dump.
    Variables indent hanging : Z.

    Definition break_at (depth : nat) : outcome bytes :=
      break_line indent (to_u64 (hanging + indent * Z.of_nat depth)).

    (* 546-679 *)
    Fixpoint dump_loop (fuel : nat) (qval : option value) (stack : list frame) : outcome bytes :=
      match fuel with
      | O => UB
      | S fuel =>
        match qval with
        | Some VNull => before (str "null;") (dump_loop fuel None stack)
        | Some (VBool b) => before (str "boolean " ++ put_TB b ++ str ";") (dump_loop fuel None stack)
        | Some (VInt n) =>
          do t <- put_DI n 1 ; before (str "integer " ++ t ++ str ";") (dump_loop fuel None stack)
        | Some (VReal r) => before (str "real " ++ real_text r ++ str ";") (dump_loop fuel None stack)
        | Some (VStr s) =>
          do t <- put_DU (Z.of_nat (length s)) 1 ;
          before (str "string(" ++ t ++ str ") """ ++ c_quote s ++ str """;") (dump_loop fuel None stack)
        | Some (VOpaque i) => before (str "opaque [[" ++ opaque_text i ++ str "]];") (dump_loop fuel None stack)
        | Some (VFunc i) => before (str "function [[" ++ function_text i ++ str "]];") (dump_loop fuel None stack)
        | Some (VArr l) =>
          match l with
          | [] => before (str "array(0) [ ];") (dump_loop fuel None stack)
          | v :: rest =>
            do t <- put_DU (Z.of_nat (length l)) 1 ;
            do b <- break_at (length stack + 1) ;
            do i <- put_DI 0 1 ;
            before (str "array(" ++ t ++ str ") [" ++ b ++ i ++ str " = ")
              (dump_loop fuel (Some v) (Rbr_array 0 rest :: stack))
          end
        | Some (VObj l) =>
          match l with
          | [] => before (str "object(0) { };") (dump_loop fuel None stack)
          | (k, v) :: rest =>
            do t <- put_DU (Z.of_nat (length l)) 1 ;
            do b <- break_at (length stack + 1) ;
            before (str "object(" ++ t ++ str ") {" ++ b ++ put_key k (str " = "))
              (dump_loop fuel (Some v) (Rbr_object rest :: stack))
          end
        | None =>
          match stack with
          | [] => Ok []
          | Rbr_array i (v :: rest) :: below =>
            do b <- break_at (length stack) ;
            do t <- put_DI (i + 1) 1 ;
            before (b ++ t ++ str " = ") (dump_loop fuel (Some v) (Rbr_array (i + 1) rest :: below))
          | Rbr_array _ [] :: below =>
            do b <- break_at (length stack - 1) ;
            before (b ++ str "];") (dump_loop fuel None below)
          | Rbr_object ((k, v) :: rest) :: below =>
            do b <- break_at (length stack) ;
            before (b ++ put_key k (str " = ")) (dump_loop fuel (Some v) (Rbr_object rest :: below))
          | Rbr_object [] :: below =>
            do b <- break_at (length stack - 1) ;
            before (b ++ str "};") (dump_loop fuel None below)
          end
        end
      end.

    Definition dump (v : value) : outcome bytes := dump_loop (S (work v)) (Some v) [].
  End Dump.
End Print.
