(* C84: backtraces of runtime errors. *)
From Verif Require Import Base Text Monad FmtSpec BacktraceModel BacktraceSpec BacktraceProofs.

(* Frames are in the order in which they were pushed, except that those of the
   error that was being handled when this one was thrown come right after the
   first `catch` or `defer`, or at the end if there is none. *)
Theorem C84_order : forall t nested f ps, exists e0 e, create t nested f = Ok e0 /\ push_all e0 ps = Ok e /\ thrown e = t /\
  ordered (match nested with Some n => frames n | None => [] end) (Inner f :: ps) (frames e).
Proof. exact order_ok. Qed.
Print Assumptions C84_order.
Theorem C84_order_unique : forall nested ps a b, ordered nested ps a -> ordered nested ps b -> a = b.
Proof. exact ordered_unique. Qed.
Print Assumptions C84_order_unique.

(* The message lists all frames, with numbers from 1 on that are aligned to the
   right in a column as wide as the last, and never writes outside its buffer. *)
Theorem C84_message : forall e, fits e -> exists m, message e = Ok m /\ says e m.
Proof. exact message_ok. Qed.
Print Assumptions C84_message.

Local Definition fr (c : Z) : frame := Frame (str "plain expression") (str "a.txt:1:2") [c].
Example C84_ex_order :
  (do e <- create [] (Some (Error [] [fr 1; fr 2] 0)) (fr 3) ; do e <- push_all e [Inner (fr 4); Outer (fr 5); Inner (fr 6); Outer (fr 7)] ; Ok (frames e))
    = Ok [fr 3; fr 4; fr 5; fr 1; fr 2; fr 6; fr 7]
  /\ (do e <- create [] (Some (Error [] [fr 1; fr 2] 0)) (fr 3) ; do e <- push_all e [Inner (fr 4)] ; Ok (frames e)) = Ok [fr 3; fr 4; fr 1; fr 2].
Proof. vm_compute. split; reflexivity. Qed.
Example C84_ex_message : message (Error (str "oops") (Frame (str "throw") (str "a.txt:3:4") (repeat 120 81) :: repeat (Frame (str "try") (str "a.txt:1:2") (repeat 121 80)) 9) 1)
  = Ok (str "runtime error: oops" ++ [10] ++ str "[backtrace frames:"
     ++ [10] ++ str "   1) throw at 'a.txt:3:4': " ++ repeat 120 60 ++ str " ... (21 characters omitted)"
     ++ concat (map (fun n => [10] ++ str "  " ++ n ++ str ") try at 'a.txt:1:2': " ++ repeat 121 80)
          [str " 2"; str " 3"; str " 4"; str " 5"; str " 6"; str " 7"; str " 8"; str " 9"; str "10"])
     ++ [10] ++ str "  -- end of backtrace frames]").
Proof. vm_compute. reflexivity. Qed.
