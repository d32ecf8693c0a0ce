(* Lemmas about shifts and masks on Z, used by the codec proofs. *)
From Verif Require Import Base.

Lemma testbit_small b n i : 0 <= b < 2 ^ n -> n <= i -> 0 <= n -> Z.testbit b i = false.
Proof.
  intros H Hi Hn. rewrite <- (Z.mod_small b (2 ^ n)) by lia.
  apply Z.mod_pow2_bits_high; lia.
Qed.

Lemma land_mul_small a b n : 0 <= n -> 0 <= b < 2 ^ n -> Z.land (a * 2 ^ n) b = 0.
Proof.
  intros Hn Hb. apply Z.bits_inj'. intros i Hi. rewrite Z.land_spec, Z.bits_0.
  destruct (Z_lt_ge_dec i n).
  - rewrite Z.mul_pow2_bits_low by lia. reflexivity.
  - rewrite (testbit_small b n i) by lia. apply andb_false_r.
Qed.

Lemma lor_mul_add a b n : 0 <= n -> 0 <= b < 2 ^ n -> Z.lor (a * 2 ^ n) b = a * 2 ^ n + b.
Proof.
  intros Hn Hb. pose proof (land_mul_small a b n Hn Hb) as L.
  rewrite Z.add_nocarry_lxor by exact L. rewrite Z.lxor_lor by exact L. reflexivity.
Qed.

Lemma land_mask a n : 0 <= n -> Z.land a (2 ^ n - 1) = a mod 2 ^ n.
Proof. intros. rewrite <- Z.land_ones by lia. rewrite Z.ones_equiv. f_equal; lia. Qed.

Lemma shl_lor a b n : 0 <= n -> 0 <= b < 2 ^ n -> Z.lor (Z.shiftl a n) b = a * 2 ^ n + b.
Proof. intros. rewrite Z.shiftl_mul_pow2 by lia. apply lor_mul_add; lia. Qed.

(* Evaluate literal powers of two. *)
Ltac pows :=
  repeat match goal with
    | |- context [2 ^ Zpos ?p] =>
      let v := eval vm_compute in (2 ^ Zpos p) in change (2 ^ Zpos p) with v
    | H : context [2 ^ Zpos ?p] |- _ =>
      let v := eval vm_compute in (2 ^ Zpos p) in change (2 ^ Zpos p) with v in H
    | |- context [2 ^ 0] => change (2 ^ 0) with 1
    | H : context [2 ^ 0] |- _ => change (2 ^ 0) with 1 in H
  end.

(* Equality of lists of integer expressions, element by element. *)
Ltac leq :=
  match goal with
  | |- Some _ = Some _ => apply f_equal; leq
  | |- _ :: _ = _ :: _ => apply f_equal2; [try lia | leq]
  | |- _ => try reflexivity; try lia
  end.
Ltac lits := repeat match goal with
    | |- context [Z.add (Zpos ?p) (Zpos ?q)] =>
      let v := eval vm_compute in (Z.add (Zpos p) (Zpos q)) in change (Z.add (Zpos p) (Zpos q)) with v
    | |- context [Z.add 0 (Zpos ?q)] => change (Z.add 0 (Zpos q)) with (Zpos q)
    end; pows.

Lemma mod_mod_mul a q c : 0 < c -> 0 < q -> (a mod (c * q)) mod c = a mod c.
Proof.
  intros Hc Hq. rewrite (Z.rem_mul_r a c q) by lia.
  rewrite (Z.mul_comm c), Z.mod_add by lia. apply Z.mod_mod. lia.
Qed.
