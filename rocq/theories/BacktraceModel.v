(* Backtraces of runtime errors.
   Source: asteria/src/runtime/runtime_error.cpp:14-79 and
   asteria/runtime/runtime_error.hpp:35-130.
   A frame is the texts of its type, its location and its value; the value that
   was thrown is its text.  Simplification: `format` is concatenation here (see
   FmtModel for templates). *)
From Verif Require Import Base Text Monad FmtModel.
Local Open Scope Z_scope.

Record frame := Frame { ftype : bytes; sloc : bytes; fvalue : bytes }.
Record error := Error { thrown : bytes; frames : list frame; frame_ins : nat }.

(* cpp 27-37 *)
Definition insert_frame (e : error) (f : frame) : outcome error :=
  if (frame_ins e <=? length (frames e))%nat then
    Ok (Error (thrown e) (firstn (frame_ins e) (frames e) ++ f :: skipn (frame_ins e) (frames e)) (frame_ins e + 1))
  else UB.
(* hpp 35-63, cpp 14-25; `nested` is the error being handled, if it is one *)
Definition create (thrown : bytes) (nested : option error) (f : frame) : outcome error :=
  insert_frame (Error thrown (match nested with Some n => frames n | None => [] end) 0) f.
(* hpp 100-130 *)
Inductive push := Inner (f : frame) | Outer (f : frame).
     (* Outer: push_frame_catch and push_frame_defer *)
Definition push_frame (e : error) (p : push) : outcome error :=
  match p with
  | Inner f => insert_frame e f
  | Outer f => do e <- insert_frame e f ; Ok (Error (thrown e) (frames e) (length (frames e)))
  end.
Fixpoint push_all (e : error) (ps : list push) : outcome error :=
  match ps with
  | [] => Ok e
  | p :: ps => do e <- push_frame e p ; push_all e ps
  end.

(* cpp 62: copy_backward to before the terminator; `sbuf` is what is before it *)
Definition copy_backward (sbuf t : bytes) : outcome bytes :=
  if (length t <=? length sbuf)%nat then Ok (firstn (length sbuf - length t) sbuf ++ t) else UB.
(* cpp 66-76 *)
Definition shown (v : bytes) : outcome bytes :=
  if 80 <? Z.of_nat (length v) then
    do n <- put_DU (Z.of_nat (length v) - 60) 1 ;
    Ok (firstn 60 v ++ str " ... (" ++ n ++ str " characters omitted)")
  else Ok v.
(* cpp 57-77 *)
Fixpoint lines (sbuf : bytes) (k : Z) (fs : list frame) : outcome bytes :=
  match fs with
  | [] => Ok []
  | f :: fs =>
    do n <- put_DU (k + 1) 1 ;
    do sbuf <- copy_backward sbuf n ;
    do v <- shown (fvalue f) ;
    do rest <- lines sbuf (k + 1) fs ;
    Ok ([10] ++ str "  " ++ sbuf ++ str ") " ++ ftype f ++ str " at '" ++ sloc f ++ str "': " ++ v ++ rest)
  end.
(* cpp 39-78; sbuf has room for 24 characters *)
Definition message (e : error) : outcome bytes :=
  do n <- put_DU (Z.of_nat (length (frames e))) 1 ;
  if (length n + 1 <=? 24)%nat then
    do l <- lines (repeat 32 (length n)) 0 (frames e) ;
    Ok (str "runtime error: " ++ thrown e ++ [10] ++ str "[backtrace frames:" ++ l ++ [10] ++ str "  -- end of backtrace frames]")
  else UB.
