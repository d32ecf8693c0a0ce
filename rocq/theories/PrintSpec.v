(* How values are written, by recursion on them. *)
From Verif Require Import Base Text ValueModel FmtSpec.

Local Open Scope Z_scope.

(* the decimal text of an integer *)
Inductive integer_text : Z -> bytes -> Prop :=
  | I_nonneg n t : 0 <= n -> decimal n t -> integer_text n t
  | I_neg n t : n < 0 -> decimal (- n) t -> integer_text n (str "-" ++ t).

(* how a character appears in a string literal *)
Definition hex_digit (d : Z) : Z := if d <? 10 then 48 + d else 55 + d.
Definition escaped (c : Z) : bytes :=
  match find (fun p => fst p =? c)
    [(0, str "\0"); (7, str "\a"); (8, str "\b"); (9, str "\t"); (10, str "\n"); (11, str "\v");
     (12, str "\f"); (13, str "\r"); (26, str "\Z"); (27, str "\e"); (34, str "\"""); (39, str "\'");
     (92, str "\\")] with
  | Some (_, e) => e
  | None => if (32 <=? c) && (c <=? 126) then [c]
            else str "\x" ++ [hex_digit (c / 16); hex_digit (c mod 16)]
  end.
Definition literal (s : bytes) : bytes := str """" ++ flat_map escaped s ++ str """".

(* the texts, with [sep] in between *)
Fixpoint join (sep : bytes) (l : list bytes) : bytes :=
  match l with
  | [] => []
  | [t] => t
  | t :: l => t ++ sep ++ join sep l
  end.

Section Print.
  Variable real_text : real -> bytes.
  Variable opaque_text : Z -> bytes.
  Variable function_text : Z -> bytes.

  Inductive prints : value -> bytes -> Prop :=
    | P_null : prints VNull (str "null")
    | P_true : prints (VBool true) (str "true")
    | P_false : prints (VBool false) (str "false")
    | P_int n t : integer_text n t -> prints (VInt n) t
    | P_real r : prints (VReal r) (real_text r)
    | P_str s : prints (VStr s) (literal s)
    | P_opaque i : prints (VOpaque i) (str "(opaque) [[" ++ opaque_text i ++ str "]]")
    | P_func i : prints (VFunc i) (str "(function) [[" ++ function_text i ++ str "]]")
    | P_arr_empty : prints (VArr []) (str "[ ]")
    | P_arr l ts : l <> [] -> elements l ts ->
      prints (VArr l) (str "[ " ++ join (str ", ") ts ++ str " ]")
    | P_obj_empty : prints (VObj []) (str "{ }")
    | P_obj l ts : l <> [] -> fields l ts ->
      prints (VObj l) (str "{ " ++ join (str ", ") ts ++ str " }")
  with elements : list value -> list bytes -> Prop :=
    | E_nil : elements [] []
    | E_cons v t l ts : prints v t -> elements l ts -> elements (v :: l) (t :: ts)
  with fields : list (bytes * value) -> list bytes -> Prop :=
    | F_nil : fields [] []
    | F_cons k v t l ts : prints v t -> fields l ts ->
      fields ((k, v) :: l) ((literal k ++ str ": " ++ t) :: ts).

  Variables indent hanging : Z.

  (* a new line at a depth, or a space if lines are not broken *)
  Definition new_line (depth : nat) : bytes :=
    if indent =? 0 then str " "
    else 10 :: repeat 32 (Z.to_nat (hanging + indent * Z.of_nat depth)).

  Inductive dumps : nat -> value -> bytes -> Prop :=
    | D_null d : dumps d VNull (str "null;")
    | D_true d : dumps d (VBool true) (str "boolean true;")
    | D_false d : dumps d (VBool false) (str "boolean false;")
    | D_int d n t : integer_text n t -> dumps d (VInt n) (str "integer " ++ t ++ str ";")
    | D_real d r : dumps d (VReal r) (str "real " ++ real_text r ++ str ";")
    | D_str d s n : decimal (Z.of_nat (length s)) n ->
      dumps d (VStr s) (str "string(" ++ n ++ str ") " ++ literal s ++ str ";")
    | D_opaque d i : dumps d (VOpaque i) (str "opaque [[" ++ opaque_text i ++ str "]];")
    | D_func d i : dumps d (VFunc i) (str "function [[" ++ function_text i ++ str "]];")
    | D_arr_empty d : dumps d (VArr []) (str "array(0) [ ];")
    | D_arr d l n t : l <> [] -> decimal (Z.of_nat (length l)) n -> dumps_elements (S d) 0 l t ->
      dumps d (VArr l) (str "array(" ++ n ++ str ") [" ++ t ++ new_line d ++ str "];")
    | D_obj_empty d : dumps d (VObj []) (str "object(0) { };")
    | D_obj d l n t : l <> [] -> decimal (Z.of_nat (length l)) n -> dumps_fields (S d) l t ->
      dumps d (VObj l) (str "object(" ++ n ++ str ") {" ++ t ++ new_line d ++ str "};")
  with dumps_elements : nat -> Z -> list value -> bytes -> Prop :=
    | De_nil d i : dumps_elements d i [] []
    | De_cons d i n v t l ts : decimal i n -> dumps d v t -> dumps_elements d (i + 1) l ts ->
      dumps_elements d i (v :: l) (new_line d ++ n ++ str " = " ++ t ++ ts)
  with dumps_fields : nat -> list (bytes * value) -> bytes -> Prop :=
    | Df_nil d : dumps_fields d [] []
    | Df_cons d k v t l ts : dumps d v t -> dumps_fields d l ts ->
      dumps_fields d ((k, v) :: l) (new_line d ++ literal k ++ str " = " ++ t ++ ts).
End Print.

(* a value as it can exist: integers of 64 bits, strings of bytes, sizes that fit *)
Fixpoint value_ok (v : value) : Prop :=
  match v with
  | VInt n => - 2 ^ 63 <= n < 2 ^ 63
  | VStr s => all_bytes s /\ Z.of_nat (length s) < 2 ^ 63
  | VArr l => Z.of_nat (length l) < 2 ^ 63 /\ fold_right (fun v P => value_ok v /\ P) True l
  | VObj l => Z.of_nat (length l) < 2 ^ 63 /\
              fold_right (fun kv P => all_bytes (fst kv) /\ value_ok (snd kv) /\ P) True l
  | _ => True
  end.

(* how deep a value is nested *)
Fixpoint depth (v : value) : nat :=
  match v with
  | VArr l => S (fold_right (fun v n => Nat.max (depth v) n) O l)
  | VObj l => S (fold_right (fun kv n => Nat.max (depth (snd kv)) n) O l)
  | _ => O
  end.

(* values made of null, booleans, integers, strings, arrays and objects *)
Fixpoint plain (v : value) : Prop :=
  match v with
  | VReal _ | VOpaque _ | VFunc _ => False
  | VArr l => fold_right (fun v P => plain v /\ P) True l
  | VObj l => fold_right (fun kv P => plain (snd kv) /\ P) True l
  | _ => True
  end.

(* characters that can be printed *)
Definition visible (t : bytes) : Prop := Forall (fun c => 32 <= c <= 126) t.

(* how many lines of a dump follow the first *)
Fixpoint breaks (v : value) : nat :=
  match v with
  | VArr [] | VObj [] => O
  | VArr l => S (fold_right (fun v n => S (breaks v + n)) O l)
  | VObj l => S (fold_right (fun kv n => S (breaks (snd kv) + n)) O l)
  | _ => O
  end.
