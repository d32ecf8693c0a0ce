(* RFC 4122: version 4, variant 1. *)
From Verif Require Import Base Text.

Definition hex (d : Z) : Z := nth (Z.to_nat d) (str "0123456789abcdef") 0.
Definition digit (d : Z) : Prop := 0 <= d < 16.
(* digits with hyphens in between *)
Definition dashed (ds : list Z) : bytes :=
  let s := map hex ds in
  firstn 8 s ++ str "-" ++ firstn 4 (skipn 8 s) ++ str "-" ++ firstn 4 (skipn 12 s) ++ str "-" ++
  firstn 4 (skipn 16 s) ++ str "-" ++ skipn 20 s.
Definition version4 (ds : list Z) : Prop :=
  length ds = 32%nat /\ Forall digit ds /\ nth 12 ds 0 = 4 /\ 8 <= nth 16 ds 0 < 12.
Definition u64 (q : Z) : Prop := 0 <= q < 2 ^ 64.
