From Verif Require Import Base SentryModel SentrySpec.

Lemma shift_ok u : - 2 ^ 63 <= u < 2 ^ 63 -> (Z.shiftr u 20 =? Z.shiftr u 63) = ((- 2 ^ 20 <=? u) && (u <? 2 ^ 20)).
Proof.
  intros B. rewrite !Z.shiftr_div_pow2 by lia. change (2 ^ 20) with 1048576 in *. change (2 ^ 63) with 9223372036854775808 in *.
  pose proof (Z.div_mod u 1048576 ltac:(lia)). pose proof (Z.mod_pos_bound u 1048576 ltac:(lia)).
  pose proof (Z.div_mod u 9223372036854775808 ltac:(lia)). pose proof (Z.mod_pos_bound u 9223372036854775808 ltac:(lia)). lia.
Qed.
Lemma ptrdiff_ok a b : address a -> address b -> ptrdiff a b = a - b /\ - 2 ^ 63 <= a - b < 2 ^ 63.
Proof.
  unfold address, ptrdiff. change (2 ^ 63) with 9223372036854775808. change (2 ^ 64) with 18446744073709551616. intros A B. rewrite Z.mod_small by lia. lia.
Qed.
Lemma copy_ok s a : address (base s) -> address a ->
  copy s a = if (- 2 ^ 20 <=? base s - a) && (base s - a <? 2 ^ 20) then Ok (Sentry (base s) a) else Throw.
Proof.
  intros B A. unfold copy, validate. cbn [base addr]. destruct (ptrdiff_ok (base s) a B A) as [-> R]. now rewrite shift_ok.
Qed.
Lemma copy_limit s a : address (base s) -> address a ->
  (Z.abs (base s - a) < 2 ^ 20 -> copy s a = Ok (Sentry (base s) a)) /\ (2 ^ 20 < Z.abs (base s - a) -> copy s a = Throw) /\ copy s a <> UB.
Proof.
  intros B A. rewrite (copy_ok s a B A). change (2 ^ 20) with 1048576.
  destruct (Z.leb_spec (Z.opp 1048576) (base s - a)), (Z.ltb_spec (base s - a) 1048576); cbn [andb]; repeat split; intros; try reflexivity; try discriminate; lia.
Qed.
Lemma copy_boundary s a : address (base s) -> address a -> copy s a = Ok (Sentry (base s) a) <-> - 2 ^ 20 <= base s - a < 2 ^ 20.
Proof.
  intros B A. rewrite (copy_ok s a B A). change (2 ^ 20) with 1048576.
  destruct (Z.leb_spec (Z.opp 1048576) (base s - a)), (Z.ltb_spec (base s - a) 1048576); cbn [andb]; split; intros; try reflexivity; try discriminate; lia.
Qed.
Lemma nested_ok f frames : 0 < f -> forall s a, address (base s) -> a <= base s -> descends f a frames ->
  match nested s frames with
  | Ok s' => base s' = base s /\ (frames = [] \/ f * Z.of_nat (length frames) + (base s - a) < 2 ^ 20)
  | Throw => exists b, In b frames /\ 2 ^ 20 <= base s - b
  | UB => False
  end.
Proof.
  intros F. induction frames as [|b frames IH]; intros s a B A D; cbn [nested]; [auto|].
  inversion D as [|? ? ? L D']; subst. assert (AB : address b) by (unfold address in *; lia).
  rewrite (copy_ok s b B AB). change (2 ^ 20) with 1048576 in *. destruct (Z.leb_spec (Z.opp 1048576) (base s - b)); [|lia].
  destruct (Z.ltb_spec (base s - b) 1048576) as [K|K]; cbn [andb]; [|exists b; split; [now left|exact K]].
  specialize (IH (Sentry (base s) b) b B ltac:(cbn; lia) D'). cbn [base] in IH. destruct (nested (Sentry (base s) b) frames) as [s'| |]; [|destruct IH as (c & I & J); exists c; split; [now right|exact J]|exact IH].
  destruct IH as [E Q]. split; [exact E|]. right. cbn [length]. destruct Q as [-> | Q]; cbn [length]; lia.
Qed.
Lemma depth_ok f a frames s' : 0 < f -> address a -> descends f a frames -> nested (new a) frames = Ok s' -> f * Z.of_nat (length frames) < 2 ^ 20.
Proof.
  intros F A D E. pose proof (nested_ok f frames F (new a) a A (Z.le_refl _) D) as N. rewrite E in N. cbn [new base] in N. destruct N as [_ [-> | N]]; [cbn; lia|lia].
Qed.
Lemma no_false_alarm f a frames : 0 < f -> address a -> descends f a frames -> (forall b, In b frames -> a - b < 2 ^ 20) -> exists s', nested (new a) frames = Ok s'.
Proof.
  intros F A D H. pose proof (nested_ok f frames F (new a) a A (Z.le_refl _) D) as N. destruct (nested (new a) frames) as [s'| |]; [eauto| |contradiction].
  destruct N as (b & I & J). specialize (H b I). cbn [new base] in J. lia.
Qed.
