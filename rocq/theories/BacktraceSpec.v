(* The order of frames and the form of the message. *)
From Verif Require Import Base Text FmtSpec BacktraceModel.
Local Open Scope Z_scope.

Definition the_frame (p : push) : frame := match p with Inner f | Outer f => f end.
(* frames up to the first handler, then those of the error that was being
   handled, then all others *)
Inductive ordered (nested : list frame) : list push -> list frame -> Prop :=
| O_open ps : Forall (fun p => exists f, p = Inner f) ps -> ordered nested ps (map the_frame ps ++ nested)
| O_closed ps f qs : Forall (fun p => exists f, p = Inner f) ps ->
    ordered nested (ps ++ Outer f :: qs) (map the_frame ps ++ f :: nested ++ map the_frame qs).

(* a value of more than 80 characters: its first 60, and how many are left out *)
Definition abridged (v text : bytes) : Prop :=
  (Z.of_nat (length v) <= 80 /\ text = v) \/
  (exists a b n, v = a ++ b /\ length a = 60%nat /\ (20 < length b)%nat /\ decimal (Z.of_nat (length b)) n /\ text = a ++ str " ... (" ++ n ++ str " characters omitted)").
(* numbers are aligned to the right *)
Definition line (w : nat) (k : Z) (f : frame) (text : bytes) : Prop :=
  exists pad n v, decimal k n /\ (pad + length n)%nat = w /\ abridged (fvalue f) v /\
    text = [10] ++ str "  " ++ (repeat 32 pad ++ n) ++ str ") " ++ ftype f ++ str " at '" ++ sloc f ++ str "': " ++ v.
Inductive all_lines (w : nat) : Z -> list frame -> bytes -> Prop :=
| L_nil k : all_lines w k [] []
| L_cons k f fs t ts : line w k f t -> all_lines w (k + 1) fs ts -> all_lines w k (f :: fs) (t ++ ts).
Definition says (e : error) (m : bytes) : Prop :=
  exists n l, decimal (Z.of_nat (length (frames e))) n /\ all_lines (length n) 1 (frames e) l /\
    m = str "runtime error: " ++ thrown e ++ [10] ++ str "[backtrace frames:" ++ l ++ [10] ++ str "  -- end of backtrace frames]".
(* nothing is longer than memory *)
Definition fits (e : error) : Prop :=
  Z.of_nat (length (frames e)) < 2 ^ 63 /\ Forall (fun f => Z.of_nat (length (fvalue f)) < 2 ^ 63) (frames e).
