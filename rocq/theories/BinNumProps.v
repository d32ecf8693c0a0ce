(* Property theorems C24 (bit rotation) and C25 (binary packing). *)
From Verif Require Import Base BinNumModel BinNumSpec BinNumProofs.

Theorem C24_rotl : forall m x n, 0 <= m <= 64 -> is_int64 n ->
  exists r, rotl m x n = Ok r /\ is_rotation m x n r.
Proof. exact rotl_ok. Qed.
Print Assumptions C24_rotl.
Theorem C24_rotr : forall m x n, 0 <= m <= 64 -> is_int64 n ->
  exists r, rotr m x n = Ok r /\ is_rotation m x (- n) r.
Proof. exact rotr_ok. Qed.
Print Assumptions C24_rotr.
Theorem C24_width_checked : forall m x n, ~ 0 <= m <= 64 ->
  rotl m x n = Throw /\ rotr m x n = Throw.
Proof. exact rot_throw. Qed.
Print Assumptions C24_width_checked.
Theorem C24_inverse : forall m x n, 0 <= m <= 64 -> is_int64 n ->
  exists r, rotl m x n = Ok r /\ rotr m r n = Ok (to_i64 (x mod 2 ^ m)).
Proof. exact rot_inverse. Qed.
Print Assumptions C24_inverse.
Example C24_ex : rotl 12 0xABC (-4) = Ok 0xCAB /\ rotr 12 0xABC 100 = Ok 0xCAB /\
  rotl 64 int64_min 1 = Ok 1 /\ rotl 64 1 63 = Ok int64_min /\ rotl 65 1 1 = Throw /\ is_int64 (-4).
Proof. repeat split; try (vm_compute; reflexivity); vm_compute; congruence. Qed.

Theorem C25_layout : forall e w v, let s := pack1 e w v in
  length s = w /\ all_bytes s /\
  match e with LE => le_value s | BE => be_value s end = v mod 2 ^ (8 * Z.of_nat w).
Proof.
  exact (fun e w v => match store_spec e w (cast_u w v) with
    | conj a (conj b c) => conj a (conj b (eq_trans c (Z.mod_mod _ _ (Z.pow_nonzero 2 (8 * Z.of_nat w) ltac:(lia) ltac:(lia)))))
    end).
Qed.
Print Assumptions C25_layout.
Theorem C25_concat : forall e w v vs, pack e w (v :: vs) = pack1 e w v ++ pack e w vs.
Proof. exact (fun e w v vs => eq_refl). Qed.
Print Assumptions C25_concat.
Theorem C25_length : forall e w xs, length (pack e w xs) = (length xs * w)%nat.
Proof. exact pack_length. Qed.
Print Assumptions C25_length.
Theorem C25_unpack_pack : forall e w xs rs, (0 < w)%nat ->
  unpack e w (pack e w xs) = Ok rs <-> Forall2 (sign_extended w) xs rs.
Proof. exact pack_values. Qed.
Print Assumptions C25_unpack_pack.
Theorem C25_unpack_total : forall e w text, (0 < w)%nat -> all_bytes text ->
  (Z.of_nat (length text) mod Z.of_nat w <> 0 /\ unpack e w text = Throw) \/
  (Z.of_nat (length text) mod Z.of_nat w = 0 /\ exists rs, unpack e w text = Ok rs /\ pack e w rs = text).
Proof. exact unpack_total. Qed.
Print Assumptions C25_unpack_total.
Example C25_ex : pack BE 2 [258; -1; 65536] = [1; 2; 255; 255; 0; 0] /\
  unpack BE 2 (pack BE 2 [258; -1; 65536]) = Ok [258; -1; 0] /\
  pack LE 4 [258] = [2; 1; 0; 0] /\ unpack LE 4 [1; 2; 3] = Throw /\
  unpack LE 8 (pack LE 8 [int64_min]) = Ok [int64_min].
Proof. repeat split; vm_compute; reflexivity. Qed.
