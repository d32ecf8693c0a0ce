From Verif Require Import Base Text UuidModel UuidSpec.

Definition nib (q i : Z) : Z := (q / 16 ^ i) mod 16.
Lemma nib_digit q i : digit (nib q i).
Proof. unfold digit, nib. apply Z.mod_pos_bound. lia. Qed.
Lemma hex_ok v : 0 <= v < 16 -> v + (0x30 - Z.shiftr (Z.land (9 - v) (- 0x2700)) 8) = hex v.
Proof.
  intros H. assert (E : v = 0 \/ v = 1 \/ v = 2 \/ v = 3 \/ v = 4 \/ v = 5 \/ v = 6 \/ v = 7 \/ v = 8 \/ v = 9 \/ v = 10 \/ v = 11 \/ v = 12 \/ v = 13 \/ v = 14 \/ v = 15) by lia.
  repeat (destruct E as [->|E]; [reflexivity|]). subst. reflexivity.
Qed.
Lemma y_ok q i : 0 <= i -> y q i = hex (nib q i).
Proof.
  intros I. unfold y. assert (E : Z.land (Z.shiftr q (i * 4)) 15 = nib q i).
  { change 15 with (Z.ones 4). rewrite Z.land_ones by lia. rewrite Z.shiftr_div_pow2 by lia. unfold nib.
    replace (2 ^ (i * 4)) with (16 ^ i); [reflexivity|]. change 16 with (2 ^ 4). rewrite <- Z.pow_mul_r by lia. f_equal. lia. }
  rewrite E. apply hex_ok. apply nib_digit.
Qed.
Definition variant (q1 : Z) : Z := 8 + q1 mod 4.
Lemma variant_ok q1 : nib (Z.lor 8 (Z.land q1 3)) 0 = variant q1.
Proof.
  change 3 with (Z.ones 2). rewrite Z.land_ones by lia. change (2 ^ 2) with 4. unfold variant. pose proof (Z.mod_pos_bound q1 4 ltac:(lia)) as B.
  assert (E : q1 mod 4 = 0 \/ q1 mod 4 = 1 \/ q1 mod 4 = 2 \/ q1 mod 4 = 3) by lia.
  destruct E as [->|[->|[->| ->]]]; reflexivity.
Qed.
Definition digits (q0 q1 : Z) : list Z :=
  map (nib q0) [0; 1; 2; 3; 4; 5; 6; 7; 8; 9; 10; 11] ++ [4] ++ map (nib q0) [12; 13; 14] ++ [variant q1] ++
  map (nib q1) [1; 2; 3; 4; 5; 6; 7; 8; 9; 10; 11; 12; 13; 14; 15].
Lemma uuid_digits q0 q1 : random_uuid q0 q1 = dashed (digits q0 q1).
Proof.
  unfold random_uuid. rewrite !y_ok by lia. rewrite variant_ok. reflexivity.
Qed.
Lemma digits_v4 q0 q1 : version4 (digits q0 q1).
Proof.
  unfold version4, digits. split; [reflexivity|]. pose proof (Z.mod_pos_bound q1 4 ltac:(lia)) as B. split.
  - rewrite !Forall_app. repeat split; try (apply Forall_map, Forall_forall; intros; apply nib_digit); repeat constructor; unfold digit, variant; lia.
  - split; [reflexivity|]. cbn [app map nth]. unfold variant. lia.
Qed.
Lemma uuid_shape q0 q1 : exists ds, version4 ds /\ random_uuid q0 q1 = dashed ds.
Proof. exists (digits q0 q1). split; [apply digits_v4|apply uuid_digits]. Qed.

(* numbers from digits, the lowest first *)
Fixpoint val (ds : list Z) : Z := match ds with [] => 0 | d :: ds => d + 16 * val ds end.
Lemma val_bound ds : Forall digit ds -> 0 <= val ds < 16 ^ Z.of_nat (length ds).
Proof.
  induction 1 as [|d ds H F IH]; [cbn; lia|]. unfold digit in H. cbn [val length]. rewrite Nat2Z.inj_succ, Z.pow_succ_r by lia. lia.
Qed.
Lemma nib_cons d q i : digit d -> 0 <= i -> nib (d + 16 * q) (i + 1) = nib q i.
Proof.
  intros D I. unfold nib. rewrite Z.pow_add_r by lia. change (16 ^ 1) with 16. rewrite (Z.mul_comm (16 ^ i) 16).
  rewrite <- Z.div_div by (try lia; apply Z.pow_pos_nonneg; lia). f_equal. f_equal. unfold digit in D.
  rewrite Z.mul_comm, Z.div_add by lia. rewrite Z.div_small by lia. lia.
Qed.
Lemma nib_val ds : Forall digit ds -> forall i, (i < length ds)%nat -> nib (val ds) (Z.of_nat i) = nth i ds 0.
Proof.
  induction 1 as [|d ds H F IH]; intros i L; [cbn in L; lia|]. cbn [val]. destruct i as [|i].
  - cbn [nth]. unfold nib. change (16 ^ Z.of_nat 0) with 1. rewrite Z.div_1_r. unfold digit in H. rewrite Z.add_comm, Z.mul_comm, Z.add_comm, Z.mod_add by lia. now apply Z.mod_small.
  - rewrite Nat2Z.inj_succ. unfold Z.succ. rewrite nib_cons by (assumption || lia). cbn [nth length] in *. apply IH. lia.
Qed.
Lemma nib_val' ds : Forall digit ds -> forall i, 0 <= i < Z.of_nat (length ds) -> nib (val ds) i = nth (Z.to_nat i) ds 0.
Proof. intros F i I. rewrite <- (nib_val ds F) by lia. now rewrite Z2Nat.id by lia. Qed.
Lemma uuid_all ds : version4 ds -> exists q0 q1, u64 q0 /\ u64 q1 /\ random_uuid q0 q1 = dashed ds.
Proof.
  intros (L & F & V & N).
  do 32 (destruct ds as [|? ds]; [discriminate L|]). destruct ds; [|discriminate L]. clear L. cbn [nth] in V, N. subst.
  repeat match goal with H : Forall digit (_ :: _) |- _ => apply Forall_cons_iff in H as [? H] end.
  match goal with |- context [dashed [?d0; ?d1; ?d2; ?d3; ?d4; ?d5; ?d6; ?d7; ?d8; ?d9; ?d10; ?d11; _; ?d13; ?d14; ?d15; ?v; ?e1; ?e2; ?e3; ?e4; ?e5; ?e6; ?e7; ?e8; ?e9; ?e10; ?e11; ?e12; ?e13; ?e14; ?e15]] =>
    pose (l0 := [d0; d1; d2; d3; d4; d5; d6; d7; d8; d9; d10; d11; d13; d14; d15; 0]);
    pose (l1 := [v; e1; e2; e3; e4; e5; e6; e7; e8; e9; e10; e11; e12; e13; e14; e15]) end.
  assert (D0 : digit 0) by (unfold digit; lia).
  assert (F0 : Forall digit l0) by (repeat (constructor; [assumption|]); constructor).
  assert (F1 : Forall digit l1) by (repeat (constructor; [assumption|]); constructor).
  exists (val l0), (val l1). split; [exact (val_bound l0 F0)|]. split; [exact (val_bound l1 F1)|].
  rewrite uuid_digits. f_equal. unfold digits.
  assert (V1 : variant (val l1) = z15).
  { unfold variant, l1. cbn [val]. match goal with |- 8 + (?a + 16 * ?t) mod 4 = _ => replace (a + 16 * t) with ((a - 8) + (2 + 4 * t) * 4) by lia end.
    rewrite Z.mod_add by lia. rewrite Z.mod_small by lia. lia. }
  rewrite V1. cbn [map app].
  rewrite !(nib_val' l0 F0), !(nib_val' l1 F1) by (cbn; lia).
  reflexivity.
Qed.

(* ---- which bits matter ---- *)
Lemma nib_mod q i n : 0 <= i < n -> nib (q mod 16 ^ n) i = nib q i.
Proof.
  intros H. unfold nib.
  replace (16 ^ n) with (16 ^ i * (16 * 16 ^ (n - i - 1))).
  2:{ rewrite <- Z.pow_succ_r, <- Z.pow_add_r by lia. f_equal. lia. }
  assert (P : 0 < 16 ^ i) by (apply Z.pow_pos_nonneg; lia). assert (Q : 0 < 16 ^ (n - i - 1)) by (apply Z.pow_pos_nonneg; lia).
  rewrite Z.rem_mul_r by lia. rewrite (Z.mul_comm (16 ^ i) (_ mod _)), Z.div_add by lia.
  rewrite (Z.div_small (q mod 16 ^ i)) by (apply Z.mod_pos_bound; lia). rewrite Z.add_0_l.
  rewrite Z.rem_mul_r by lia. rewrite (Z.mul_comm 16 (_ mod _)), Z.mod_add by lia. apply Z.mod_mod. lia.
Qed.
Lemma nibs_mod q q' : forall n : nat, (forall i, 0 <= i < Z.of_nat n -> nib q i = nib q' i) -> q mod 16 ^ Z.of_nat n = q' mod 16 ^ Z.of_nat n.
Proof.
  induction n as [|n IH]; intros H; [change (16 ^ Z.of_nat 0) with 1; now rewrite !Z.mod_1_r|].
  rewrite Nat2Z.inj_succ, Z.pow_succ_r, Z.mul_comm by lia. assert (P : 0 < 16 ^ Z.of_nat n) by (apply Z.pow_pos_nonneg; lia).
  rewrite !Z.rem_mul_r by lia. rewrite IH by (intros i I; apply H; lia). f_equal. f_equal. exact (H (Z.of_nat n) ltac:(lia)).
Qed.
Lemma hex_inj a b : digit a -> digit b -> hex a = hex b -> a = b.
Proof.
  intros A B E. assert (T : forallb (fun a => forallb (fun b => implb (hex a =? hex b) (a =? b)) (map Z.of_nat (seq 0 16))) (map Z.of_nat (seq 0 16)) = true) by (vm_compute; reflexivity).
  rewrite forallb_forall in T. assert (I : forall d, digit d -> In d (map Z.of_nat (seq 0 16))).
  { intros d D. apply in_map_iff. exists (Z.to_nat d). unfold digit in D. split; [lia|]. apply in_seq. lia. }
  specialize (T a (I a A)). rewrite forallb_forall in T. specialize (T b (I b B)). rewrite E, Z.eqb_refl in T. cbn in T. now apply Z.eqb_eq.
Qed.
Lemma nib_hex q q' i : hex (nib q i) = hex (nib q' i) -> nib q i = nib q' i.
Proof. apply hex_inj; apply nib_digit. Qed.
Lemma shift q i : 0 <= i -> nib q (i + 1) = nib (q / 16) i.
Proof.
  intros I. rewrite (Z.div_mod q 16) at 1 by lia. rewrite Z.add_comm. apply nib_cons; [|exact I]. unfold digit. apply Z.mod_pos_bound. lia.
Qed.
Lemma dashed_inj ds ds' : version4 ds -> version4 ds' -> dashed ds = dashed ds' -> ds = ds'.
Proof.
  intros (L & F & _ & _) (L' & F' & _ & _).
  do 32 (destruct ds as [|? ds]; [discriminate L|]). destruct ds; [|discriminate L]. clear L.
  do 32 (destruct ds' as [|? ds']; [discriminate L'|]). destruct ds'; [|discriminate L']. clear L'.
  repeat match goal with H : Forall digit (_ :: _) |- _ => apply Forall_cons_iff in H as [? H] end.
  unfold dashed. cbn [map firstn skipn app]. change (str "-") with [45]. cbn [app]. intros E. injection E. clear E. intros.
  repeat match goal with H : hex ?a = hex ?b |- _ => apply hex_inj in H; [subst|assumption|assumption] end. reflexivity.
Qed.
Lemma same_iff q0 q1 q0' q1' : u64 q1 -> u64 q1' ->
  (random_uuid q0 q1 = random_uuid q0' q1' <-> q0 mod 2 ^ 60 = q0' mod 2 ^ 60 /\ q1 mod 4 = q1' mod 4 /\ q1 / 16 = q1' / 16).
Proof.
  intros U U'. split.
  - rewrite !uuid_digits. intros E. apply dashed_inj in E; [|apply digits_v4|apply digits_v4].
    unfold digits in E. cbn [map app] in E. injection E. clear E. intros.
    assert (N0 : forall i, 0 <= i < Z.of_nat 15 -> nib q0 i = nib q0' i).
    { intros i I. assert (X : i = 0 \/ i = 1 \/ i = 2 \/ i = 3 \/ i = 4 \/ i = 5 \/ i = 6 \/ i = 7 \/ i = 8 \/ i = 9 \/ i = 10 \/ i = 11 \/ i = 12 \/ i = 13 \/ i = 14) by lia.
      repeat (destruct X as [->|X]; [assumption|]). now subst. }
    assert (N1 : forall i, 0 <= i < Z.of_nat 15 -> nib (q1 / 16) i = nib (q1' / 16) i).
    { intros i I. rewrite <- !shift by lia. assert (X : i = 0 \/ i = 1 \/ i = 2 \/ i = 3 \/ i = 4 \/ i = 5 \/ i = 6 \/ i = 7 \/ i = 8 \/ i = 9 \/ i = 10 \/ i = 11 \/ i = 12 \/ i = 13 \/ i = 14) by lia.
      repeat (destruct X as [->|X]; [assumption|]). now subst. }
    apply nibs_mod in N0, N1. split; [exact N0|]. unfold variant in *. split; [lia|].
    assert (W : forall q, u64 q -> q / 16 = (q / 16) mod 16 ^ Z.of_nat 15).
    { intros q Q. symmetry. apply Z.mod_small. unfold u64 in Q. split; [apply Z.div_pos; lia|]. apply Z.div_lt_upper_bound; [lia|exact (proj2 Q)]. }
    rewrite (W q1 U), (W q1' U'). exact N1.
  - intros (A & B & C). rewrite !uuid_digits. f_equal. unfold digits, variant. rewrite B.
    assert (N0 : forall i, 0 <= i < 15 -> nib q0 i = nib q0' i).
    { intros i I. rewrite <- (nib_mod q0 i 15), <- (nib_mod q0' i 15) by lia. change (16 ^ 15) with (2 ^ 60). now rewrite A. }
    assert (N1 : forall i, 1 <= i -> nib q1 i = nib q1' i).
    { intros i I. replace i with ((i - 1) + 1) by lia. rewrite !shift by lia. now rewrite C. }
    cbn [map]. rewrite !N0 by lia. now rewrite !N1 by lia.
Qed.
