(* C22, C23, C36: slices, rotation, shuffling and repetition *)
From Verif Require Import Base IntOpsModel SortSpec SeqModel SeqSpec SeqProofs.

Theorem C22_slice : forall (A : Type) (l : list A) from len, fits l -> opt_int64 from -> opt_int64 len ->
  slice l from len = Ok (window (range_low (zlen l) from) (range_high (zlen l) from len) 0 l).
Proof. exact @slice_ok. Qed.
Print Assumptions C22_slice.

Theorem C22_replace_slice : forall (A : Type) (l : list A) from len rep rfrom rlen, fits l -> fits rep ->
  opt_int64 from -> opt_int64 len -> opt_int64 rfrom -> opt_int64 rlen ->
  string_replace_slice l from len rep rfrom rlen = Ok (replaced l from len rep rfrom rlen) /\
  array_replace_slice l from len rep rfrom rlen = Ok (replaced l from len rep rfrom rlen).
Proof. exact @replace_slice_ok. Qed.
Print Assumptions C22_replace_slice.

Example C22_ex_inside : slice [1;2;3;4;5] (Some (-4)) (Some 2) = Ok [2;3].
Proof. reflexivity. Qed.
Example C22_ex_before : slice [1;2;3;4;5] (Some (-7)) (Some 3) = Ok [1].
Proof. reflexivity. Qed.
Example C22_ex_extreme : slice [1;2;3] (Some int64_min) (Some int64_max) = Ok [1;2].
Proof. reflexivity. Qed.
Example C22_ex_replace : array_replace_slice [1;2;3;4;5] (Some 1) (Some 2) [7;8;9] None None = Ok [1;7;8;9;4;5].
Proof. reflexivity. Qed.

Theorem C23_rotate : forall (A : Type) (l : list A) shift, fits l -> is_int64 shift ->
  exists out, array_rotate l shift = Ok out /\ length out = length l /\
  forall i, (i < length l)%nat ->
    nth_error out (Z.to_nat ((Z.of_nat i + shift) mod zlen l)) = nth_error l i.
Proof. exact @array_rotate_ok. Qed.
Print Assumptions C23_rotate.

Theorem C23_shuffle : forall (A : Type) (l : list A) lcg, fits l ->
  exists out, array_shuffle l lcg = Ok out /\ Permutation l out.
Proof. exact @shuffle_ok. Qed.
Print Assumptions C23_shuffle.

Example C23_ex_rotate : array_rotate [1;2;3;4;5;6] 4 = Ok [3;4;5;6;1;2].
Proof. reflexivity. Qed.
Example C23_ex_rotate_neg : array_rotate [1;2;3;4;5;6] (-8) = Ok [3;4;5;6;1;2].
Proof. reflexivity. Qed.
Example C23_ex_shuffle : array_shuffle [1;2;3;4;5] 42 <> Ok [1;2;3;4;5].
Proof. vm_compute. discriminate. Qed.

Theorem C36_duplicate : forall (A : Type) (src : list A) count, fits src -> is_int64 count ->
  duplicate src count =
    if (0 <=? count) && (zlen src * count <=? int64_max) then Ok (times (Z.to_nat count) src) else Throw.
Proof. exact @duplicate_ok. Qed.
Print Assumptions C36_duplicate.

Example C36_ex : duplicate [1;2] 5 = Ok [1;2;1;2;1;2;1;2;1;2].
Proof. reflexivity. Qed.
Example C36_ex_neg : duplicate [1;2] (-1) = Throw.
Proof. reflexivity. Qed.
Example C36_ex_overflow : duplicate [1;2;3;4] (2 ^ 62) = Throw.
Proof. reflexivity. Qed.
