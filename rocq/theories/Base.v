(* Shared definitions: machine integers as Z with explicit ranges, and a few
   list helpers.  Nothing here models a particular function of the code base. *)
From Coq Require Export List Arith ZArith NArith Lia Bool.
From Coq Require Export ZifyBool ZifyNat ZifyN.
Export ListNotations.
Open Scope Z_scope.

(* Range of C++ int64_t (asteria/fwd.hpp:578, V_integer). *)
Definition int64_min : Z := - 2 ^ 63.
Definition int64_max : Z := 2 ^ 63 - 1.
Definition is_int64 (z : Z) : Prop := int64_min <= z <= int64_max.
Definition is_int64b (z : Z) : bool := (int64_min <=? z) && (z <=? int64_max).

(* Range of uint64_t / size_t. *)
Definition is_uint64 (z : Z) : Prop := 0 <= z < 2 ^ 64.

(* Conversion to uint64_t, and the two's complement conversion back. *)
Definition to_u64 (z : Z) : Z := z mod 2 ^ 64.
Definition to_i64 (z : Z) : Z := (z + 2 ^ 63) mod 2 ^ 64 - 2 ^ 63.

(* A byte, i.e. the value of (uint8_t) ch. *)
Definition is_byte (b : Z) : Prop := 0 <= b < 256.
Definition is_byteb (b : Z) : bool := (0 <=? b) && (b <? 256).

Definition bytes := list Z.
Definition all_bytes (s : bytes) : Prop := Forall is_byte s.

(* Result of an operation of the C++ code: a value, a C++ exception, or
   undefined behaviour. *)
Inductive outcome (A : Type) : Type :=
  | Ok (a : A)
  | Throw
  | UB.
Arguments Ok {A} a.
Arguments Throw {A}.
Arguments UB {A}.

Lemma is_int64b_spec z : is_int64b z = true <-> is_int64 z.
Proof. unfold is_int64b, is_int64; lia. Qed.

Lemma to_i64_id z : is_int64 z -> to_i64 z = z.
Proof.
  unfold is_int64, to_i64, int64_min, int64_max; intros H.
  rewrite Z.mod_small by lia; lia.
Qed.

Lemma to_i64_range z : is_int64 (to_i64 z).
Proof.
  unfold is_int64, to_i64, int64_min, int64_max.
  pose proof (Z.mod_pos_bound (z + 2 ^ 63) (2 ^ 64) ltac:(lia)); lia.
Qed.

Lemma to_u64_range z : is_uint64 (to_u64 z).
Proof. unfold is_uint64, to_u64; apply Z.mod_pos_bound; lia. Qed.

(* Every byte satisfies a decidable property checked on 0..255. *)
Definition all_byte_values : list Z := map Z.of_nat (seq 0 256).

Lemma byte_in_all b : is_byte b -> In b all_byte_values.
Proof.
  unfold is_byte, all_byte_values; intros H.
  apply in_map_iff; exists (Z.to_nat b); split; [lia|].
  apply in_seq; lia.
Qed.

Lemma byte_forall (p : Z -> bool) :
  forallb p all_byte_values = true -> forall b, is_byte b -> p b = true.
Proof.
  intros H b Hb; rewrite forallb_forall in H; apply H, byte_in_all, Hb.
Qed.

Lemma Forall2_cons_inv_r {A B} (R : A -> B -> Prop) l y l' :
  Forall2 R l (y :: l') -> exists x t, l = x :: t /\ R x y /\ Forall2 R t l'.
Proof. intros H; inversion H; subst; eauto. Qed.
Lemma Forall2_nil_inv_r {A B} (R : A -> B -> Prop) l : Forall2 R l [] -> l = [].
Proof. intros H; inversion H; reflexivity. Qed.

#[export] Hint Unfold is_byte : core.
Arguments Z.add : simpl never.
Arguments Z.sub : simpl never.
Arguments Z.mul : simpl never.
Arguments Z.div : simpl never.
Arguments Z.modulo : simpl never.
Arguments Z.pow : simpl never.
