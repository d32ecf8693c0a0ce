(* The stack machines of print_to and dump against the recursive description. *)
From Verif Require Import Base Text Monad NumPutModel ValueModel ValueProofs TokModel TokProofs1.
From Verif Require Import FmtModel FmtSpec FmtProofs1 PrintModel PrintSpec.

Local Open Scope Z_scope.

Lemma before_before a b r : before a (before b r) = before (a ++ b) r.
Proof. destruct r; cbn; [|reflexivity|reflexivity]. now rewrite app_assoc. Qed.

Definition same_text (a b : bytes) : bool := if list_eq_dec Z.eq_dec a b then true else false.
Lemma escapes_ok c : is_byte c -> nth (Z.to_nat c) char_escapes [] = escaped c.
Proof.
  intros H. assert (E : forallb (fun n => same_text (nth n char_escapes []) (escaped (Z.of_nat n))) (List.seq 0 256) = true)
    by (vm_compute; reflexivity).
  rewrite forallb_forall in E. specialize (E (Z.to_nat c)).
  unfold is_byte in H. rewrite Z2Nat.id in E by lia.
  assert (X : In (Z.to_nat c) (List.seq 0 256)) by (apply in_seq; lia).
  apply E in X. unfold same_text in X. destruct list_eq_dec in X; [assumption|discriminate].
Qed.
Lemma quote_ok s : all_bytes s -> c_quote s = flat_map escaped s.
Proof.
  unfold c_quote. induction 1 as [|c s Hc _ IH]; [reflexivity|]. cbn [flat_map].
  now rewrite IH, escapes_ok by exact Hc.
Qed.
Lemma literal_ok s : all_bytes s -> str """" ++ c_quote s ++ str """" = literal s.
Proof. intros H. unfold literal. now rewrite quote_ok. Qed.
Lemma key_ok k sep : all_bytes k -> put_key k sep = literal k ++ sep.
Proof. intros H. unfold put_key. rewrite <- literal_ok by exact H. now rewrite <- !app_assoc. Qed.

Lemma put_int n : - 2 ^ 63 <= n < 2 ^ 63 -> exists t, put_DI n 1 = Ok t /\ integer_text n t.
Proof.
  intros H. destruct (put_DI_1 n H) as (t & E & D). eexists. split; [exact E|].
  destruct (Z.ltb_spec n 0).
  - apply I_neg; [lia|]. now rewrite Z.abs_neq in D by lia.
  - apply I_nonneg; [lia|]. now rewrite Z.abs_eq in D by lia.
Qed.
Lemma put_index n : 0 <= n < 2 ^ 63 -> exists t, put_DI n 1 = Ok t /\ decimal n t.
Proof.
  intros H. destruct (put_DI_1 n) as (t & E & D); [lia|]. exists t.
  destruct (Z.ltb_spec n 0); [lia|]. rewrite Z.abs_eq in D by lia. now split.
Qed.

Lemma put_spaces_ok fuel : forall rem, 0 <= rem <= 32 * Z.of_nat fuel ->
  put_spaces fuel rem = Ok (repeat 32 (Z.to_nat rem)).
Proof.
  induction fuel as [|fuel IH]; intros rem H; [replace rem with 0 by lia; reflexivity|]. cbn [put_spaces].
  destruct (Z.eqb_spec rem 0) as [->|N]; [reflexivity|].
  rewrite IH by lia. cbn [before obind]. f_equal. rewrite <- repeat_app. f_equal. lia.
Qed.

Lemma break_at_ok indent hanging d : 0 <= indent -> 0 <= hanging ->
  hanging + indent * Z.of_nat d < 2 ^ 64 ->
  break_at indent hanging d = Ok (new_line indent hanging d).
Proof.
  intros Hi Hh Hb. unfold break_at, break_line, new_line. destruct (Z.eqb_spec indent 0); [reflexivity|].
  assert (0 <= indent * Z.of_nat d) by (apply Z.mul_nonneg_nonneg; lia).
  unfold to_u64. rewrite Z.mod_small by (change (2 ^ 64) with 18446744073709551616 in *; lia).
  set (x := hanging + _) in *.
  assert (x / 32 >= 0) by (apply Z.le_ge, Z.div_pos; lia).
  pose proof (Z.mod_pos_bound x 32 ltac:(lia)). pose proof (Z.div_mod x 32 ltac:(lia)).
  rewrite put_spaces_ok by lia. reflexivity.
Qed.

Section Machine.
  Variable real_text : real -> bytes.
  Variable opaque_text : Z -> bytes.
  Variable function_text : Z -> bytes.
  Notation print_loop := (print_loop real_text opaque_text function_text).
  Notation prints := (prints real_text opaque_text function_text).
  Notation elements := (elements real_text opaque_text function_text).
  Notation fields := (fields real_text opaque_text function_text).

  Definition visited (v : value) : Prop := value_ok v ->
    exists t, prints v t /\
    forall fuel stack, print_loop (work v + fuel) (Some v) stack = before t (print_loop fuel None stack).

  Notation works := (fold_right (fun v n => S (work v + n))%nat O).
  Notation worksf := (fold_right (fun kv : bytes * value => fun n => S (work (snd kv) + n))%nat O).

  Lemma array_rest l : Forall visited l -> fold_right (fun v P => value_ok v /\ P) True l ->
    exists ts, elements l ts /\
    forall fuel i stack, print_loop (S (works l) + fuel) None (Rbr_array i l :: stack)
      = before (flat_map (fun t => str ", " ++ t) ts ++ str " ]") (print_loop fuel None stack).
  Proof.
    induction 1 as [|v l Hv _ IH]; cbn [fold_right]; intros Hok.
    - exists []. split; [constructor|]. intros. reflexivity.
    - destruct Hok as [Ov Ol]. destruct (Hv Ov) as (t & Pt & Et). destruct (IH Ol) as (ts & Pts & Ets).
      exists (t :: ts). split; [now constructor|]. intros fuel i stack.
      replace (S (S (work v + works l)) + fuel)%nat with (S (work v + (S (works l) + fuel)))%nat by lia.
      cbn [PrintModel.print_loop]. rewrite Et, Ets, !before_before. f_equal.
      cbn [flat_map]. now rewrite !app_assoc.
  Qed.
  Lemma object_rest l : Forall (fun kv => visited (snd kv)) l ->
    fold_right (fun kv P => all_bytes (fst kv) /\ value_ok (snd kv) /\ P) True l ->
    exists ts, fields l ts /\
    forall fuel stack, print_loop (S (worksf l) + fuel) None (Rbr_object l :: stack)
      = before (flat_map (fun t => str ", " ++ t) ts ++ str " }") (print_loop fuel None stack).
  Proof.
    induction 1 as [|[k v] l Hv _ IH]; cbn [fold_right fst snd]; intros Hok.
    - exists []. split; [constructor|]. intros. reflexivity.
    - destruct Hok as (Ok & Ov & Ol). destruct (Hv Ov) as (t & Pt & Et). destruct (IH Ol) as (ts & Pts & Ets).
      exists ((literal k ++ str ": " ++ t) :: ts). split; [now constructor|]. intros fuel stack.
      cbn [snd] in *.
      replace (S (S (work v + worksf l)) + fuel)%nat with (S (work v + (S (worksf l) + fuel)))%nat by lia.
      cbn [PrintModel.print_loop]. rewrite Et, Ets, !before_before, key_ok by exact Ok. f_equal.
      cbn [flat_map]. now rewrite <- !app_assoc.
  Qed.

  Lemma join_cons sep t ts : join sep (t :: ts) = t ++ flat_map (fun t => sep ++ t) ts.
  Proof.
    revert t; induction ts as [|u ts IH]; intro t; [cbn; now rewrite app_nil_r|].
    change (join sep (t :: u :: ts)) with (t ++ sep ++ join sep (u :: ts)). rewrite IH. cbn [flat_map].
    now rewrite <- !app_assoc.
  Qed.

  Lemma visit v : visited v.
  Proof.
    induction v using value_ind'; intros Hok; cbn [value_ok] in Hok.
    - eexists; split; [constructor|]. reflexivity.
    - exists (put_TB b). split; [destruct b; constructor|]. reflexivity.
    - destruct (put_int n Hok) as (t & E & D). exists t. split; [now constructor|]. intros. cbn [work Nat.add PrintModel.print_loop].
      now rewrite E.
    - eexists; split; [constructor|]. reflexivity.
    - exists (literal s). split; [constructor|]. intros. cbn [work Nat.add PrintModel.print_loop].
      now rewrite literal_ok by apply Hok.
    - eexists; split; [constructor|]. reflexivity.
    - eexists; split; [constructor|]. reflexivity.
    - destruct Hok as [_ Hok]. destruct l as [|v l]; [eexists; split; [constructor|]; reflexivity|].
      inversion H as [|? ? Hv Hl]; subst. cbn [fold_right] in Hok. destruct Hok as [Ov Ol].
      destruct (Hv Ov) as (t & Pt & Et). destruct (array_rest l Hl Ol) as (ts & Pts & Ets).
      eexists. split; [apply P_arr; [discriminate|constructor; eassumption]|]. intros fuel stack.
      cbn [work fold_right].
      replace (S (S (work v + works l)) + fuel)%nat with (S (work v + (S (works l) + fuel)))%nat by lia.
      cbn [PrintModel.print_loop]. rewrite Et, Ets, !before_before, join_cons. f_equal. now rewrite <- !app_assoc.
    - destruct Hok as [_ Hok]. destruct l as [|[k v] l]; [eexists; split; [constructor|]; reflexivity|].
      inversion H as [|? ? Hv Hl]; subst. cbn [fold_right fst snd] in *. destruct Hok as (Okk & Ov & Ol).
      destruct (Hv Ov) as (t & Pt & Et). destruct (object_rest l Hl Ol) as (ts & Pts & Ets).
      eexists. split; [apply P_obj; [discriminate|constructor; eassumption]|]. intros fuel stack.
      cbn [work fold_right snd].
      replace (S (S (work v + worksf l)) + fuel)%nat with (S (work v + (S (worksf l) + fuel)))%nat by lia.
      cbn [PrintModel.print_loop]. rewrite Et, Ets, !before_before, join_cons, key_ok by exact Okk. f_equal.
      now rewrite <- !app_assoc.
  Qed.

  Lemma print_to_prints v : value_ok v ->
    exists t, print_to real_text opaque_text function_text v = Ok t /\ prints v t.
  Proof.
    intros Hok. destruct (visit v Hok) as (t & P & E). exists t. split; [|exact P].
    unfold print_to. replace (S (work v)) with (work v + 1)%nat by lia. rewrite E. cbn. now rewrite app_nil_r.
  Qed.

  Section Dump.
    Variables indent hanging : Z.
    Hypothesis Hi : 0 <= indent.
    Hypothesis Hh : 0 <= hanging.
    Notation dump_loop := (dump_loop real_text opaque_text function_text indent hanging).
    Notation dumps := (dumps real_text opaque_text function_text indent hanging).
    Notation dumps_elements := (dumps_elements real_text opaque_text function_text indent hanging).
    Notation dumps_fields := (dumps_fields real_text opaque_text function_text indent hanging).
    Notation new_line := (new_line indent hanging).
    Notation fits d := (hanging + indent * Z.of_nat d < 2 ^ 64).

    Lemma fits_less a b : (a <= b)%nat -> fits b -> fits a.
    Proof. intros H F. assert (indent * Z.of_nat a <= indent * Z.of_nat b) by (apply Z.mul_le_mono_nonneg_l; lia). lia. Qed.

    Definition dumped (v : value) : Prop := value_ok v -> forall d, fits (d + depth v)%nat ->
      exists t, dumps d v t /\
      forall fuel stack, length stack = d ->
        dump_loop (work v + fuel) (Some v) stack = before t (dump_loop fuel None stack).

    Notation depths := (fold_right (fun v n => Nat.max (depth v) n) O).
    Notation depthsf := (fold_right (fun (kv : bytes * value) n => Nat.max (depth (snd kv)) n) O).

    Lemma dump_array_rest d l : Forall dumped l -> fold_right (fun v P => value_ok v /\ P) True l ->
      fits (S d + depths l)%nat -> forall i, 0 <= i -> i + Z.of_nat (length l) < 2 ^ 63 ->
      exists t, dumps_elements (S d) (i + 1) l t /\
      forall fuel stack, length stack = d ->
        dump_loop (S (works l) + fuel) None (Rbr_array i l :: stack)
        = before (t ++ new_line d ++ str "];") (dump_loop fuel None stack).
    Proof.
      induction 1 as [|v l Hv _ IH]; cbn [fold_right]; intros Hok Hf i Hi0 Hn.
      - exists []. split; [constructor|]. intros fuel stack Hs. cbn [Nat.add PrintModel.dump_loop length].
        rewrite Hs, Nat.sub_succ, Nat.sub_0_r, break_at_ok; [reflexivity|assumption|assumption|].
        eapply fits_less; [|exact Hf]. lia.
      - destruct Hok as [Ov Ol]. cbn [length] in Hn.
        destruct (Hv Ov (S d)) as (t & Pt & Et); [eapply fits_less; [|exact Hf]; lia|].
        destruct (IH Ol ltac:(eapply fits_less; [|exact Hf]; lia) (i + 1)) as (ts & Pts & Ets); [lia|lia|].
        destruct (put_index (i + 1)) as (n & En & Dn); [lia|].
        eexists. split; [apply De_cons; eassumption|]. intros fuel stack Hs.
        replace (S (S (work v + works l)) + fuel)%nat with (S (work v + (S (works l) + fuel)))%nat by lia.
        cbn [PrintModel.dump_loop]. cbn [length]. rewrite Hs, break_at_ok; [|assumption|assumption|eapply fits_less; [|exact Hf]; lia].
        cbn [obind]. rewrite En. cbn [obind]. rewrite Et by (cbn; lia). rewrite Ets, !before_before by exact Hs.
        f_equal. now rewrite <- !app_assoc.
    Qed.
    Lemma dump_object_rest d l : Forall (fun kv => dumped (snd kv)) l ->
      fold_right (fun kv P => all_bytes (fst kv) /\ value_ok (snd kv) /\ P) True l ->
      fits (S d + depthsf l)%nat ->
      exists t, dumps_fields (S d) l t /\
      forall fuel stack, length stack = d ->
        dump_loop (S (worksf l) + fuel) None (Rbr_object l :: stack)
        = before (t ++ new_line d ++ str "};") (dump_loop fuel None stack).
    Proof.
      induction 1 as [|[k v] l Hv _ IH]; cbn [fold_right fst snd]; intros Hok Hf.
      - exists []. split; [constructor|]. intros fuel stack Hs. cbn [Nat.add PrintModel.dump_loop length].
        rewrite Hs, Nat.sub_succ, Nat.sub_0_r, break_at_ok; [reflexivity|assumption|assumption|].
        eapply fits_less; [|exact Hf]. lia.
      - destruct Hok as (Okk & Ov & Ol). cbn [snd] in *.
        destruct (Hv Ov (S d)) as (t & Pt & Et); [eapply fits_less; [|exact Hf]; lia|].
        destruct (IH Ol ltac:(eapply fits_less; [|exact Hf]; lia)) as (ts & Pts & Ets).
        eexists. split; [apply Df_cons; eassumption|]. intros fuel stack Hs.
        replace (S (S (work v + worksf l)) + fuel)%nat with (S (work v + (S (worksf l) + fuel)))%nat by lia.
        cbn [PrintModel.dump_loop]. cbn [length]. rewrite Hs, break_at_ok; [|assumption|assumption|eapply fits_less; [|exact Hf]; lia].
        cbn [obind]. rewrite Et by (cbn; lia). rewrite Ets, !before_before, key_ok by assumption.
        f_equal. now rewrite <- !app_assoc.
    Qed.

    Lemma dump_visit v : dumped v.
    Proof.
      induction v using value_ind'; intros Hok d Hf; cbn [value_ok] in Hok.
      - eexists; split; [constructor|]. reflexivity.
      - exists (str "boolean " ++ put_TB b ++ str ";"). split; [destruct b; constructor|]. reflexivity.
      - destruct (put_int n Hok) as (t & E & D). eexists. split; [apply D_int; exact D|]. intros. cbn [work Nat.add PrintModel.dump_loop].
        now rewrite E.
      - eexists; split; [constructor|]. reflexivity.
      - destruct Hok as [Hs Hn]. destruct (put_DU_1 (Z.of_nat (length s))) as (n & En & Dn); [lia|].
        eexists. split; [apply D_str; exact Dn|]. intros fuel stack _. cbn [work Nat.add PrintModel.dump_loop].
        rewrite En. cbn [obind]. f_equal. rewrite <- literal_ok by exact Hs.
        change (str ") """) with (str ") " ++ str """"). change (str """;") with (str """" ++ str ";").
        now rewrite <- !app_assoc.
      - eexists; split; [constructor|]. reflexivity.
      - eexists; split; [constructor|]. reflexivity.
      - destruct Hok as [Hn Hok]. destruct l as [|v l]; [eexists; split; [constructor|]; reflexivity|].
        inversion H as [|? ? Hv Hl]; subst. cbn [fold_right] in Hok. destruct Hok as [Ov Ol].
        cbn [depth fold_right] in Hf. destruct (Hv Ov (S d)) as (t & Pt & Et); [eapply fits_less; [|exact Hf]; lia|].
        destruct (dump_array_rest d l Hl Ol) with (i := 0) as (ts & Pts & Ets);
          [eapply fits_less; [|exact Hf]; lia|lia|cbn [length] in Hn; lia|].
        destruct (put_DU_1 (Z.of_nat (length (v :: l)))) as (n & En & Dn); [lia|].
        destruct (put_index 0) as (z & Ez & Dz); [lia|].
        eexists. split; [apply D_arr; [discriminate|exact Dn|eapply De_cons; eassumption]|]. intros fuel stack Hs.
        cbn [work fold_right].
        replace (S (S (work v + works l)) + fuel)%nat with (S (work v + (S (works l) + fuel)))%nat by lia.
        cbn [PrintModel.dump_loop]. rewrite En. cbn [obind]. rewrite Hs.
        rewrite break_at_ok; [|assumption|assumption|eapply fits_less; [|exact Hf]; lia]. cbn [obind]. rewrite Ez. cbn [obind].
        rewrite Et by (cbn; lia). rewrite Ets, !before_before by exact Hs. f_equal.
        replace (d + 1)%nat with (S d) by lia. now rewrite <- !app_assoc.
      - destruct Hok as [Hn Hok]. destruct l as [|[k v] l]; [eexists; split; [constructor|]; reflexivity|].
        inversion H as [|? ? Hv Hl]; subst. cbn [fold_right fst snd] in *. destruct Hok as (Okk & Ov & Ol).
        cbn [depth fold_right snd] in Hf. destruct (Hv Ov (S d)) as (t & Pt & Et); [eapply fits_less; [|exact Hf]; lia|].
        destruct (dump_object_rest d l Hl Ol) as (ts & Pts & Ets); [eapply fits_less; [|exact Hf]; lia|].
        destruct (put_DU_1 (Z.of_nat (length ((k, v) :: l)))) as (n & En & Dn); [lia|].
        eexists. split; [apply D_obj; [discriminate|exact Dn|eapply Df_cons; eassumption]|]. intros fuel stack Hs.
        cbn [work fold_right snd].
        replace (S (S (work v + worksf l)) + fuel)%nat with (S (work v + (S (worksf l) + fuel)))%nat by lia.
        cbn [PrintModel.dump_loop]. rewrite En. cbn [obind]. rewrite Hs.
        rewrite break_at_ok; [|assumption|assumption|eapply fits_less; [|exact Hf]; lia]. cbn [obind].
        rewrite Et by (cbn; lia). rewrite Ets, !before_before, key_ok by assumption. f_equal.
        replace (d + 1)%nat with (S d) by lia. now rewrite <- !app_assoc.
    Qed.

    Lemma dump_dumps v : value_ok v -> fits (depth v) ->
      exists t, dump real_text opaque_text function_text indent hanging v = Ok t /\ dumps 0 v t.
    Proof.
      intros Hok Hf. destruct (dump_visit v Hok 0%nat Hf) as (t & P & E). exists t. split; [|exact P].
      unfold dump. replace (S (work v)) with (work v + 1)%nat by lia. rewrite E by reflexivity. cbn. now rewrite app_nil_r.
    Qed.
  End Dump.
End Machine.
