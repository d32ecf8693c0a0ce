(* The same programs on queues of characters.  A program is proper if it writes
   characters between -128 and 127, writes no more than it reserves, and takes
   no more characters away than there are. *)
From Verif Require Import Base LinbufModel.

Definition char_ok (c : Z) : Prop := -128 <= c <= 127.
(* the effect of one command: what must hold, the new queue, what is read *)
Inductive does : list Z -> command -> list Z -> list output -> Prop :=
| D_putc q c : char_ok c -> does q (Putc c) (q ++ [c]) []
| D_fill q n c : char_ok c -> does q (PutnFill n c) (q ++ repeat c n) []
| D_putn q l : Forall char_ok l -> does q (Putn l) (q ++ l) []
| D_reserve q n l : Forall char_ok l -> (length l <= n)%nat -> does q (Reserve n l) (q ++ l) []
| D_clear q : does q Clear [] []
| D_discard a q : does (a ++ q) (Discard (length a)) q []
| D_unaccept q b : does (q ++ b) (Unaccept (length b)) q []
| D_peekn a q n : length a = n \/ (length a < n)%nat /\ q = [] -> does (a ++ q) (Peekn n) (a ++ q) [Chars a]
| D_getn a q n : length a = n \/ (length a < n)%nat /\ q = [] -> does (a ++ q) (Getn n) q [Chars a]
| D_peekc c q u : u = c \/ u = c + 256 -> 0 <= u < 256 -> does (c :: q) Peekc (c :: q) [Int u]
| D_getc c q u : u = c \/ u = c + 256 -> 0 <= u < 256 -> does (c :: q) Getc q [Int u]
| D_peekc_end : does [] Peekc [] [Int (-1)]
| D_getc_end : does [] Getc [] [Int (-1)]
| D_size q : does q Size q [Count (length q)].
Inductive plays : list Z -> list command -> list output -> Prop :=
| P_nil q : plays q [] []
| P_cons q c q' out cmds outs : does q c q' out -> plays q' cmds outs -> plays q (c :: cmds) (out ++ outs).

(* how much is asked for in all *)
Definition asked (c : command) : nat :=
  match c with Putc _ => 1 | PutnFill n _ => n | Putn l => length l | Reserve n _ => n | _ => O end.
Definition all_asked (cmds : list command) : nat := fold_right (fun c n => asked c + n)%nat O cmds.

(* the commands that make sense for a queue *)
Definition proper (q : list Z) (c : command) : Prop :=
  match c with
  | Putc c | PutnFill _ c => char_ok c
  | Putn l => Forall char_ok l
  | Reserve n l => Forall char_ok l /\ (length l <= n)%nat
  | Discard n | Unaccept n => (n <= length q)%nat
  | _ => True
  end.

(* the states that programs reach *)
Inductive after (max : nat) (debug : bool) : buffer -> buffer -> Prop :=
| A_nil s : after max debug s s
| A_cons s c s1 out s2 : step max debug s c = Ok (s1, out) -> after max debug s1 s2 -> after max debug s s2.
