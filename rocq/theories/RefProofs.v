From Verif Require Import Base Monad Lists SeqModel SeqSpec SeqProofs ValueModel ValueProofs RefModel RefSpec.
Open Scope Z_scope.

(* ---- Wrapped_Index ---- *)
Lemma to_u64_small x : 0 <= x < 2 ^ 64 -> to_u64 x = x.
Proof. intros H. unfold to_u64. apply Z.mod_small. exact H. Qed.
Lemma sub_ok x y : is_int64 (x - y) -> sub_i64 x y = Ok (x - y).
Proof. intros H. unfold sub_i64. apply is_int64b_spec in H. rewrite H. reflexivity. Qed.
Lemma wrap_pos n i : 0 <= n <= int64_max -> 0 <= i <= int64_max -> 0 < n \/ i < int64_max ->
  wrap_array_index n i = Ok (Z.max 0 (i + 1 - n), 0, i).
Proof.
  unfold wrap_array_index, int64_max. intros Hn Hi H. destruct (Z.leb_spec 0 i); [|lia].
  rewrite sub_ok by (unfold is_int64, int64_min, int64_max; lia). cbn [obind].
  rewrite sub_ok by (unfold is_int64, int64_min, int64_max; lia). cbn [obind].
  rewrite !to_u64_small by lia. peq. lia.
Qed.
Lemma wrap_neg n i : 0 <= n <= int64_max -> int64_min <= i < 0 -> 0 < n \/ int64_min < i ->
  wrap_array_index n i = Ok (0, Z.max 0 (- i - n), Z.max 0 (n + i)).
Proof.
  unfold wrap_array_index, int64_max, int64_min. intros Hn Hi H. destruct (Z.leb_spec 0 i); [lia|].
  rewrite sub_ok by (unfold is_int64, int64_min, int64_max; lia). cbn [obind].
  rewrite sub_ok by (unfold is_int64, int64_min, int64_max; lia). cbn [obind].
  rewrite add_ok by (unfold is_int64, int64_min, int64_max; lia). cbn [obind].
  rewrite (to_u64_small (0 - n - _)) by lia. peq; [lia|].
  unfold to_u64. rewrite Zplus_mod_idemp_l.
  replace (i + n + (0 - n - Z.min i (0 - n))) with (Z.max 0 (n + i)) by lia.
  apply Z.mod_small. lia.
Qed.
Lemma wrap_defined n i w : 0 <= n <= int64_max -> is_int64 i -> wrap_array_index n i = Ok w ->
  0 < n \/ int64_min < i < int64_max.
Proof.
  intros Hn Hi H. destruct (Z.ltb_spec 0 n); [left; assumption|right]. replace n with 0 in H by lia.
  unfold is_int64 in Hi. destruct (Z.eq_dec i int64_min) as [->|]; [discriminate|].
  destruct (Z.eq_dec i int64_max) as [->|]; [discriminate|]. lia.
Qed.
Lemma wrap_spec n i : 0 <= n <= int64_max -> is_int64 i -> 0 < n \/ int64_min < i < int64_max ->
  exists a p r, wrap_array_index n i = Ok (a, p, r) /\ 0 <= a /\ 0 <= p /\
  match elem_pos n i with
  | Some q => a = 0 /\ p = 0 /\ r = q /\ 0 <= q < n
  | None => if 0 <=? i then 0 < a /\ a = i + 1 - n /\ p = 0 /\ r = i else a = 0 /\ 0 < p /\ p = - i - n /\ r = 0
  end.
Proof.
  intros Hn Hi H. unfold is_int64 in Hi. unfold elem_pos. destruct (Z.leb_spec 0 i).
  - exists (Z.max 0 (i + 1 - n)), 0, i. rewrite wrap_pos by lia. split; [reflexivity|].
    destruct (Z.ltb_spec i n); lia.
  - exists 0, (Z.max 0 (- i - n)), (Z.max 0 (n + i)). rewrite wrap_neg by lia. split; [reflexivity|].
    destruct (Z.leb_spec 0 (n + i)); lia.
Qed.

(* ---- keys ---- *)
Lemma key_eqb_spec a b : reflect (a = b) (key_eqb a b).
Proof. unfold key_eqb. destruct (list_eq_dec Z.eq_dec a b); constructor; assumption. Qed.
Lemma key_eqb_refl a : key_eqb a a = true.
Proof. destruct (key_eqb_spec a a); congruence. Qed.
Lemma find_set o : forall k x k', obj_find (obj_set o k x) k' =
  if key_eqb k' k then match obj_find o k' with Some _ => Some x | None => None end else obj_find o k'.
Proof.
  induction o as [|[j v] o IH]; intros k x k'; cbn; [destruct (key_eqb k' k); reflexivity|].
  destruct (key_eqb_spec k j) as [->|N]; cbn.
  - destruct (key_eqb_spec k' j); reflexivity.
  - destruct (key_eqb_spec k' j) as [->|N']; [destruct (key_eqb_spec j k); congruence|]. apply IH.
Qed.
Lemma set_keys o : forall k x, map fst (obj_set o k x) = map fst o.
Proof. induction o as [|[j v] o IH]; intros k x; cbn; [reflexivity|]. destruct (key_eqb k j); cbn; [reflexivity|]. rewrite IH. reflexivity. Qed.
Lemma set_set o : forall k x y, obj_set (obj_set o k x) k y = obj_set o k y.
Proof.
  induction o as [|[j v] o IH]; intros k x y; cbn; [reflexivity|]. destruct (key_eqb k j) eqn:E; cbn; rewrite E; [reflexivity|].
  rewrite IH. reflexivity.
Qed.
Lemma set_same o : forall k x, obj_find o k = Some x -> obj_set o k x = o.
Proof.
  induction o as [|[j v] o IH]; intros k x; cbn; [discriminate|]. destruct (key_eqb k j) eqn:E; intros H.
  - injection H as ->. reflexivity.
  - rewrite IH by exact H. reflexivity.
Qed.
Lemma find_None o k : obj_find o k = None <-> ~ In k (map fst o).
Proof.
  induction o as [|[j v] o IH]; cbn; [tauto|]. destruct (key_eqb_spec k j) as [->|N].
  - split; [discriminate|]. intros H. destruct H. left. reflexivity.
  - rewrite IH. split; [intros H [E|E]; congruence|tauto].
Qed.
Lemma find_erase o : NoDup (map fst o) -> forall k k', obj_find (obj_erase o k) k' = if key_eqb k' k then None else obj_find o k'.
Proof.
  induction o as [|[j v] o IH]; cbn; intros ND k k'; [destruct (key_eqb k' k); reflexivity|]. inversion_clear ND as [|? ? N1 N2].
  destruct (key_eqb_spec k j) as [->|N].
  - destruct (key_eqb_spec k' j) as [->|]; [apply find_None; exact N1|reflexivity].
  - cbn. destruct (key_eqb_spec k' j) as [->|N'].
    + destruct (key_eqb_spec j k); congruence.
    + apply IH. exact N2.
Qed.
Lemma find_emplace o k k' : obj_find (obj_emplace o k) k' =
  match obj_find o k' with Some x => Some x | None => if key_eqb k' k then Some VNull else None end.
Proof.
  unfold obj_emplace. destruct (obj_find o k) eqn:E.
  - destruct (obj_find o k') eqn:F; [reflexivity|]. destruct (key_eqb_spec k' k); [congruence|reflexivity].
  - cbn. destruct (key_eqb_spec k' k) as [->|]; [rewrite E; reflexivity|]. destruct (obj_find o k'); reflexivity.
Qed.

(* ---- pointers ---- *)
Lemma set_nth_length {A} (l : list A) i x : length (set_nth l i x) = length l.
Proof. revert i. induction l as [|y l IH]; intros [|i]; cbn; auto. Qed.
Lemma set_nth_get {A} (l : list A) i x j : nth_error (set_nth l i x) j =
  if (i =? j)%nat then match nth_error l j with Some _ => Some x | None => None end else nth_error l j.
Proof.
  revert i j. induction l as [|y l IH]; intros [|i] [|j]; cbn; try reflexivity; try (destruct (i =? j)%nat; reflexivity).
  apply IH.
Qed.
Lemma set_nth_set {A} (l : list A) i x y : set_nth (set_nth l i x) i y = set_nth l i y.
Proof. revert i. induction l as [|z l IH]; intros [|i]; cbn; try reflexivity. rewrite IH. reflexivity. Qed.
Lemma set_nth_same {A} (l : list A) i x : nth_error l i = Some x -> set_nth l i x = l.
Proof. revert i. induction l as [|y l IH]; intros [|i]; cbn; intros H; try discriminate; [congruence|]. rewrite IH; auto. Qed.

Definition has (v : value) (l : loc) : Prop := get_loc v l <> None.
Lemma get_set v l x : has v l -> get_loc (set_loc v l x) l = Some x.
Proof.
  unfold has. destruct v, l; cbn; try congruence; intros H.
  - rewrite set_nth_get, Nat.eqb_refl. destruct (nth_error _ _); congruence.
  - rewrite find_set, key_eqb_refl. destruct (obj_find _ _); congruence.
Qed.
Lemma get_set_other v l x l' : l <> l' -> get_loc (set_loc v l x) l' = get_loc v l'.
Proof.
  destruct v, l, l'; cbn; try reflexivity; intros H.
  - rewrite set_nth_get. destruct (Nat.eqb_spec i i0); congruence.
  - rewrite find_set. destruct (key_eqb_spec k0 k); congruence.
Qed.
Lemma has_set v l x l' : has (set_loc v l x) l' <-> has v l'.
Proof.
  unfold has. destruct v, l, l'; cbn; try tauto.
  - rewrite set_nth_get. destruct (_ =? _)%nat; [|tauto]. destruct (nth_error _ _); split; congruence.
  - rewrite find_set. destruct (key_eqb _ _); [|tauto]. destruct (obj_find _ _); split; congruence.
Qed.
Lemma set_set_loc v l x y : set_loc (set_loc v l x) l y = set_loc v l y.
Proof. destruct v, l; cbn; try reflexivity; [rewrite set_nth_set|rewrite set_set]; reflexivity. Qed.
Lemma set_same_loc v l x : get_loc v l = Some x -> set_loc v l x = v.
Proof. destruct v, l; cbn; try discriminate; intros H; [rewrite set_nth_same|rewrite set_same]; auto. Qed.

(* ---- where subscripts point depends on the shape of the parent only ---- *)
Lemma zlen_set_nth (l : list value) i x : zlen (set_nth l i x) = zlen l.
Proof. unfold zlen. rewrite set_nth_length. reflexivity. Qed.
Lemma at_index_len a b off : zlen a = zlen b -> at_index a off = at_index b off.
Proof. intros H. unfold at_index. rewrite H. reflexivity. Qed.
Lemma read_shape_arr s a b : zlen a = zlen b -> apply_read_opt s (VArr a) = apply_read_opt s (VArr b).
Proof. intros H. destruct s; cbn; rewrite ?H, ?(at_index_len a b _ H); try reflexivity.
  destruct (wrap_array_index (zlen b) i) as [[[p q] r]| |]; cbn; rewrite ?(at_index_len a b _ H); reflexivity.
Qed.
Lemma read_set s v l x : apply_read_opt s (set_loc v l x) = apply_read_opt s v.
Proof.
  destruct v, l; cbn [set_loc]; try reflexivity.
  - apply read_shape_arr. apply zlen_set_nth.
  - destruct s; cbn; try reflexivity. rewrite find_set. destruct (key_eqb k0 k); [|reflexivity].
    destruct (obj_find l0 k0); reflexivity.
Qed.
Lemma write_read s v : apply_write_opt s v = apply_read_opt s v.
Proof. destruct s; reflexivity. Qed.

Lemma at_index_ok a off : 0 <= off < zlen a -> at_index a off = Ok (LIdx (Z.to_nat off)).
Proof. intros H. unfold at_index. destruct (Z.leb_spec 0 off), (Z.ltb_spec off (zlen a)); try lia. reflexivity. Qed.
Lemma at_index_has a off l : at_index a off = Ok l -> has (VArr a) l /\ l = LIdx (Z.to_nat off) /\ 0 <= off < zlen a.
Proof.
  unfold at_index. destruct (Z.leb_spec 0 off), (Z.ltb_spec off (zlen a)); cbn; try discriminate.
  intros E. injection E as <-. split; [|split; [reflexivity|lia]]. unfold has. cbn. apply nth_error_Some. unfold zlen in *. lia.
Qed.

(* reading finds an existing element *)
Lemma read_has s v l : apply_read_opt s v = Ok (Some l) -> has v l.
Proof.
  assert (SM : forall (a : list value) off l, some (at_index a off) = Ok (Some l) -> has (VArr a) l).
  { intros a off l0. unfold some. destruct (at_index a off) eqn:E; cbn; try discriminate. intros F. injection F as <-.
    apply (at_index_has _ _ _ E). }
  destruct s, v; cbn; try discriminate; intros H.
  - destruct (wrap_array_index (zlen l0) i) as [[[p q] r]| |]; cbn in H; try discriminate.
    destruct (negb _); try discriminate. eapply SM, H.
  - destruct (obj_find l0 k) eqn:E; try discriminate. injection H as <-. unfold has. cbn. congruence.
  - destruct (zlen l0 =? 0); try discriminate. eapply SM, H.
  - destruct (zlen l0 =? 0); try discriminate. eapply SM, H.
  - destruct (zlen l0 =? 0); try discriminate. eapply SM, H.
Qed.

(* ---- opening ---- *)
Section Room.
Variable room : Z -> Z -> bool.
Hypothesis ROOM : room_ok room.

Lemma insert_front_ok arr n x : insert_front room arr n x =
  if room (zlen arr) n then (repeat x (Z.to_nat n) ++ arr, Ok tt) else (arr, Throw).
Proof.
  unfold insert_front. destruct (room _ _); [|reflexivity].
  pose proof (vec_insert_ok [] arr (repeat x (Z.to_nat n))) as H. cbn [app length] in H. rewrite H. reflexivity.
Qed.
Lemma zlen_repeat (x : value) n : 0 <= n -> zlen (repeat x (Z.to_nat n)) = n.
Proof. intros H. unfold zlen. rewrite repeat_length. lia. Qed.
Lemma zlen_nonneg {A} (l : list A) : 0 <= zlen l.
Proof. unfold zlen. lia. Qed.
Lemma zlen_app' {A} (a b : list A) : zlen (a ++ b) = zlen a + zlen b.
Proof. unfold zlen. rewrite app_length. lia. Qed.
Lemma lor_zero a p : 0 <= a -> 0 <= p -> (Z.lor p a =? 0) = (p =? 0) && (a =? 0).
Proof.
  intros H1 H2. destruct (Z.eqb_spec (Z.lor p a) 0) as [E|N].
  - apply Z.lor_eq_0_iff in E. destruct E as [-> ->]. reflexivity.
  - destruct (Z.eqb_spec p 0), (Z.eqb_spec a 0); try reflexivity. subst. contradiction N. reflexivity.
Qed.

Lemma read_index arr i : zlen arr <= int64_max -> is_int64 i -> 0 < zlen arr \/ int64_min < i < int64_max ->
  apply_read_opt (SIdx i) (VArr arr) = Ok (match elem_pos (zlen arr) i with Some p => Some (LIdx (Z.to_nat p)) | None => None end).
Proof.
  intros Hn Hi H. pose proof (zlen_nonneg arr). cbn.
  destruct (wrap_spec (zlen arr) i ltac:(lia) Hi H) as (a & p & r & -> & Ha & Hp & S). cbn [obind].
  rewrite lor_zero by assumption.
  destruct (elem_pos (zlen arr) i).
  - destruct S as (-> & -> & -> & S). cbn. unfold some. rewrite at_index_ok by lia. reflexivity.
  - destruct (0 <=? i); destruct (Z.eqb_spec p 0), (Z.eqb_spec a 0); try lia; reflexivity.
Qed.

(* the array after opening at an index, and what the new element is *)
Definition opened (arr : list value) (i : Z) : list value :=
  match elem_pos (zlen arr) i with
  | Some _ => arr
  | None => if 0 <=? i then arr ++ repeat VNull (Z.to_nat (growth (zlen arr) i))
            else repeat VNull (Z.to_nat (growth (zlen arr) i)) ++ arr
  end.
Definition open_pos (n i : Z) : Z := match elem_pos n i with Some p => p | None => Z.max 0 i end.
Lemma open_index arr i : zlen arr <= int64_max -> is_int64 i -> 0 < zlen arr \/ int64_min < i < int64_max ->
  apply_open room (SIdx i) (VArr arr) =
    if (growth (zlen arr) i =? 0) || room (zlen arr) (growth (zlen arr) i)
    then (VArr (opened arr i), Ok (LIdx (Z.to_nat (open_pos (zlen arr) i))))
    else (VArr arr, Throw).
Proof.
  intros Hn Hi H. pose proof (zlen_nonneg arr). cbn [apply_open open_array].
  destruct (wrap_spec (zlen arr) i ltac:(lia) Hi H) as (a & p & r & -> & Ha & Hp & S).
  unfold opened, open_pos, growth. unfold elem_pos in *. destruct (Z.leb_spec 0 i).
  - destruct (Z.ltb_spec i (zlen arr)).
    + destruct S as (-> & -> & -> & S). replace (Z.max 0 (i + 1 - zlen arr)) with 0 by lia. cbn [negb Z.eqb orb obind].
      rewrite at_index_ok by lia. reflexivity.
    + destruct S as (S1 & S2 & -> & ->). cbn [negb Z.eqb]. replace (Z.max 0 (i + 1 - zlen arr)) with a by lia.
      destruct (Z.eqb_spec a 0); [lia|]. cbn [negb orb]. unfold append_back. destruct (room _ _); [|reflexivity]. cbn [obind].
      rewrite at_index_ok by (rewrite zlen_app', zlen_repeat; lia). rewrite Z.max_r by lia. reflexivity.
  - destruct (Z.leb_spec 0 (zlen arr + i)).
    + destruct S as (-> & -> & -> & S). replace (Z.max 0 (- i - zlen arr)) with 0 by lia. cbn [negb Z.eqb orb obind].
      rewrite at_index_ok by lia. reflexivity.
    + destruct S as (-> & S1 & S2 & ->). replace (Z.max 0 (- i - zlen arr)) with p by lia.
      destruct (Z.eqb_spec p 0); [lia|]. cbn [negb orb]. rewrite insert_front_ok. destruct (room _ _); [|reflexivity]. cbn [obind].
      rewrite at_index_ok by (rewrite zlen_app', zlen_repeat; pose proof (zlen_nonneg arr); lia).
      rewrite Z.max_l by lia. reflexivity.
Qed.

(* trees *)
Lemma tree_arr l : tree (VArr l) <-> zlen l <= int64_max /\ Forall tree l.
Proof.
  cbn. split; intros [H1 H2]; split; auto.
  - induction l; constructor; [apply H2|apply IHl; [|apply H2]]. unfold zlen in *. cbn [length] in H1. lia.
  - induction l; cbn; auto. inversion_clear H2. split; [assumption|apply IHl; [|assumption]]. unfold zlen in *. cbn [length] in H1. lia.
Qed.
Lemma tree_obj o : tree (VObj o) <-> NoDup (map fst o) /\ Forall (fun kx => tree (snd kx)) o.
Proof.
  cbn. split; intros [H1 H2]; split; auto; clear H1.
  - induction o; constructor; [apply H2|apply IHo, H2].
  - induction o; cbn; auto. inversion_clear H2. split; [assumption|apply IHo; assumption].
Qed.
Lemma tree_get v l x : tree v -> get_loc v l = Some x -> tree x.
Proof.
  destruct v, l; cbn [get_loc]; try discriminate; intros T H.
  - apply tree_arr in T. apply nth_error_In in H. destruct T as [_ T]. rewrite Forall_forall in T. auto.
  - apply tree_obj in T. destruct T as [_ T]. revert H. induction T as [|[j y] o Ty To IH]; cbn; [discriminate|].
    destruct (key_eqb k j); [|exact IH]. intros E. injection E as <-. exact Ty.
Qed.
Lemma tree_set v l x : tree v -> tree x -> tree (set_loc v l x).
Proof.
  destruct v, l; cbn [set_loc]; auto; intros T Tx.
  - rewrite tree_arr in *. rewrite zlen_set_nth. destruct T as [T1 T2]. split; [exact T1|]. clear T1. revert i.
    induction T2; intros [|i]; cbn; constructor; auto.
  - rewrite tree_obj in *. rewrite set_keys. destruct T as [T1 T2]. split; [exact T1|]. clear T1.
    induction T2 as [|[j y] o Ty To IH]; cbn; [constructor|]. destruct (key_eqb k j); constructor; auto.
Qed.
Lemma Forall_repeat {A} (P : A -> Prop) x n : P x -> Forall P (repeat x n).
Proof. intros H. induction n; cbn; constructor; auto. Qed.
Lemma growth_nonneg n i : 0 <= growth n i.
Proof. unfold growth. destruct (0 <=? i); lia. Qed.
Lemma zlen_opened arr i : zlen (opened arr i) = zlen arr + growth (zlen arr) i.
Proof.
  unfold opened, elem_pos, growth. destruct (Z.leb_spec 0 i).
  - destruct (Z.ltb_spec i (zlen arr)); [lia|]. rewrite zlen_app', zlen_repeat by lia. lia.
  - destruct (Z.leb_spec 0 (zlen arr + i)); [lia|]. rewrite zlen_app', zlen_repeat by lia. lia.
Qed.
Lemma opened_Forall (P : value -> Prop) arr i : P VNull -> Forall P arr -> Forall P (opened arr i).
Proof.
  intros HN HA. unfold opened. destruct (elem_pos _ _); [exact HA|].
  destruct (0 <=? i); apply Forall_app; split; auto using Forall_repeat.
Qed.

Lemma append_back_ok arr n x : append_back room arr n x =
  if room (zlen arr) n then (arr ++ repeat x (Z.to_nat n), Ok tt) else (arr, Throw).
Proof. reflexivity. Qed.

(* everything about a successful or failed open of an array *)
Lemma open_array_ok s arr : tree (VArr arr) -> int_sub s -> (forall k, s <> SKey k) ->
  match apply_open room s (VArr arr) with
  | (v', Ok l) => tree v' /\ has v' l /\ apply_read_opt s v' = Ok (Some l)
  | (v', Throw) => v' = VArr arr
  | (v', UB) => v' = VArr arr /\ arr = [] /\ ~ mild s
  end.
Proof.
  intros T Hs NK. pose proof T as T'. apply tree_arr in T. destruct T as [Tn TF]. pose proof (zlen_nonneg arr) as Z0.
  destruct s as [i|k| | |seed].
  - assert (D : (0 < zlen arr \/ int64_min < i < int64_max) \/ (zlen arr = 0 /\ ~ int64_min < i < int64_max)) by lia.
    destruct D as [D|[D1 D2]].
    + rewrite open_index by assumption.
      destruct ((growth (zlen arr) i =? 0) || room (zlen arr) (growth (zlen arr) i)) eqn:R; [|reflexivity].
      assert (L : zlen (opened arr i) <= int64_max).
      { rewrite zlen_opened. apply orb_true_iff in R. destruct R as [R|R].
        - apply Z.eqb_eq in R. rewrite R. lia.
        - apply ROOM in R. lia. }
      assert (OP : elem_pos (zlen (opened arr i)) i = Some (open_pos (zlen arr) i)).
      { rewrite zlen_opened. unfold elem_pos, open_pos, elem_pos, growth. destruct (Z.leb_spec 0 i).
        - destruct (Z.ltb_spec i (zlen arr)).
          + destruct (Z.ltb_spec i (zlen arr + Z.max 0 (i + 1 - zlen arr))); [reflexivity|lia].
          + destruct (Z.ltb_spec i (zlen arr + Z.max 0 (i + 1 - zlen arr))); [f_equal; lia|lia].
        - destruct (Z.leb_spec 0 (zlen arr + i)).
          + destruct (Z.leb_spec 0 (zlen arr + Z.max 0 (- i - zlen arr) + i)); [f_equal; lia|lia].
          + destruct (Z.leb_spec 0 (zlen arr + Z.max 0 (- i - zlen arr) + i)); [f_equal; lia|lia]. }
      assert (P : 0 <= open_pos (zlen arr) i < zlen (opened arr i)).
      { unfold elem_pos in OP. destruct (0 <=? i) eqn:E; [destruct (i <? _) eqn:F|destruct (0 <=? zlen _ + i) eqn:F]; try discriminate;
        injection OP as <-; lia. }
      assert (RD : apply_read_opt (SIdx i) (VArr (opened arr i)) = Ok (Some (LIdx (Z.to_nat (open_pos (zlen arr) i))))).
      { rewrite read_index by (try assumption; left; lia). rewrite OP. reflexivity. }
      split; [|split; [|exact RD]].
      * apply tree_arr. split; [exact L|]. apply opened_Forall; [exact I|exact TF].
      * eapply read_has, RD.
    + assert (arr = []) as -> by (destruct arr; [reflexivity|unfold zlen in D1; cbn in D1; lia]).
      cbn in Hs. unfold is_int64 in Hs. assert (E : i = int64_min \/ i = int64_max) by lia.
      destruct E as [-> | ->]; cbn; (split; [reflexivity|]); (split; [reflexivity|]); unfold int64_min, int64_max; lia.
  - destruct (NK k). reflexivity.
  - cbn [apply_open open_array]. rewrite insert_front_ok. destruct (room _ _) eqn:R; [|reflexivity]. cbn [obind].
    change (Z.to_nat 1) with 1%nat. cbn [repeat app]. set (x := match arr with [] => VNull | x :: _ => x end).
    assert (Lx : zlen (x :: arr) = zlen arr + 1) by (unfold zlen; cbn [length]; lia).
    rewrite at_index_ok by lia. apply ROOM in R.
    assert (RD : apply_read_opt SHead (VArr (x :: arr)) = Ok (Some (LIdx (Z.to_nat 0)))).
    { cbn [apply_read_opt]. destruct (Z.eqb_spec (zlen (x :: arr)) 0); [lia|]. unfold some. rewrite at_index_ok by lia. reflexivity. }
    split; [|split; [eapply read_has, RD|exact RD]].
    apply tree_arr. split; [lia|]. constructor; [|exact TF]. unfold x. destruct TF; [exact I|assumption].
  - cbn [apply_open open_array]. unfold append_back. destruct (room _ _) eqn:R; [|reflexivity]. cbn [obind].
    change (Z.to_nat 1) with 1%nat. cbn [repeat]. set (x := match arr with [] => VNull | x :: t => last t x end).
    assert (Lx : zlen (arr ++ [x]) = zlen arr + 1) by (rewrite zlen_app'; reflexivity).
    rewrite at_index_ok by lia. apply ROOM in R.
    assert (RD : apply_read_opt STail (VArr (arr ++ [x])) = Ok (Some (LIdx (Z.to_nat (zlen (arr ++ [x]) - 1))))).
    { cbn [apply_read_opt]. destruct (Z.eqb_spec (zlen (arr ++ [x])) 0); [lia|]. unfold some. rewrite at_index_ok by lia. reflexivity. }
    split; [|split; [eapply read_has, RD|exact RD]].
    apply tree_arr. split; [lia|]. apply Forall_app. split; [exact TF|]. constructor; [|constructor].
    unfold x. destruct TF as [|y t Ty Tt]; [exact I|]. clear - Ty Tt. revert y Ty. induction Tt as [|z t Tz Tt IH]; intros y Ty; [exact Ty|].
    cbn [last]. destruct t; [exact Tz|]. apply (IH y Ty).
  - cbn [apply_open open_array]. destruct (Z.eqb_spec (zlen arr) 0); [reflexivity|].
    pose proof (probe_origin_bound (zlen arr) seed) as B. unfold int64_max in Tn.
    rewrite at_index_ok by (apply B; lia). split; [exact T'|].
    assert (RD : apply_read_opt (SRand seed) (VArr arr) = Ok (Some (LIdx (Z.to_nat (probe_origin (zlen arr) seed))))).
    { cbn [apply_read_opt]. destruct (Z.eqb_spec (zlen arr) 0); [lia|]. unfold some. rewrite at_index_ok by (apply B; lia). reflexivity. }
    split; [eapply read_has, RD|exact RD].
Qed.

(* what a null parent becomes *)
Definition blank (s : subscript) (v : value) : value :=
  match v with VNull => match s with SKey _ => VObj [] | _ => VArr [] end | _ => v end.
Lemma open_blank s v : apply_open room s v = apply_open room s (blank s v).
Proof. destruct v; try reflexivity. destruct s; reflexivity. Qed.
Lemma tree_blank s v : tree v -> tree (blank s v).
Proof. destruct v; auto. intros _. destruct s; cbn; (split; [|exact I]); try constructor; unfold zlen, int64_max; cbn; lia. Qed.

Lemma open_ok s v : tree v -> int_sub s ->
  match apply_open room s v with
  | (v', Ok l) => tree v' /\ has v' l /\ apply_read_opt s v' = Ok (Some l)
  | (v', Throw) => v' = v \/ v = VNull
  | (v', UB) => ~ mild s
  end.
Proof.
  intros T Hs. rewrite open_blank. pose proof (tree_blank s v T) as TB.
  assert (NB : forall v', v' = blank s v -> v' = v \/ v = VNull) by (intros v' ->; destruct v; auto).
  destruct (blank s v) eqn:B; try (destruct v, s; discriminate B); try (destruct s; cbn; apply NB; reflexivity).
  - destruct (match s with SKey k => Some k | _ => None end) as [k|] eqn:SK.
    + destruct s; try discriminate. cbn. apply NB. reflexivity.
    + pose proof (open_array_ok s l TB Hs ltac:(intros k ->; discriminate)) as H.
      destruct (apply_open room s (VArr l)) as [v' [l'| |]]; [exact H|apply NB; exact H|apply H].
  - destruct s; try (cbn; apply NB; reflexivity). cbn. apply tree_obj in TB. destruct TB as [T1 T2]. split; [|split].
    + apply tree_obj. unfold obj_emplace. destruct (obj_find l k) eqn:E; [split; assumption|]. cbn. split.
      * constructor; [apply find_None; exact E|exact T1].
      * constructor; [exact I|exact T2].
    + unfold has. cbn. rewrite find_emplace, key_eqb_refl. destruct (obj_find l k); discriminate.
    + cbn. rewrite find_emplace, key_eqb_refl. destruct (obj_find l k); reflexivity.
Qed.

(* ---- chains ---- *)
Lemma open_tree subs : forall v v' path, tree v -> Forall int_sub subs -> open_chain room subs v = (v', Ok path) -> tree v'.
Proof.
  induction subs as [|s subs IH]; intros v v' path T HS; cbn [open_chain]; [intros H; injection H as <- _; exact T|].
  inversion_clear HS as [|? ? H1 H2]. pose proof (open_ok s v T H1) as O.
  destruct (apply_open room s v) as [v1 [l| |]]; try discriminate. destruct O as (T1 & Hl & _).
  destruct (get_loc v1 l) as [x|] eqn:G; [|destruct Hl; assumption].
  destruct (open_chain room subs x) as [x' [path'| |]] eqn:C; cbn [obind]; try discriminate.
  intros E. injection E as <- _. apply tree_set; [exact T1|]. eapply IH; [|exact H2|exact C]. eapply tree_get; eassumption.
Qed.
Lemma open_store subs : forall v v' path new, tree v -> Forall int_sub subs -> open_chain room subs v = (v', Ok path) ->
  exists v'', store path v' new = Ok v'' /\ read_chain subs v'' = Ok new /\ (tree new -> tree v'').
Proof.
  induction subs as [|s subs IH]; intros v v' path new T HS; cbn [open_chain].
  - intros H. injection H as <- <-. exists new. cbn. auto.
  - inversion_clear HS as [|? ? H1 H2]. pose proof (open_ok s v T H1) as O.
    destruct (apply_open room s v) as [v1 [l| |]]; try discriminate. destruct O as (T1 & Hl & RD).
    destruct (get_loc v1 l) as [x|] eqn:G; [|destruct Hl; assumption].
    destruct (open_chain room subs x) as [x' [path'| |]] eqn:C; cbn [obind]; try discriminate.
    intros E. injection E as <- <-. pose proof (tree_get _ _ _ T1 G) as Tx.
    destruct (IH x x' path' new Tx H2 C) as (x'' & S1 & S2 & S3).
    cbn [store]. rewrite get_set by exact Hl. rewrite S1. cbn [obind]. rewrite set_set_loc.
    eexists. split; [reflexivity|]. split.
    + cbn [read_chain]. rewrite read_set, RD. cbn [obind]. rewrite get_set by exact Hl. exact S2.
    + intros Tn. apply tree_set; [exact T1|]. auto.
Qed.
Lemma open_no_ub subs : forall v, tree v -> Forall int_sub subs -> Forall mild subs -> snd (open_chain room subs v) <> UB.
Proof.
  induction subs as [|s subs IH]; intros v T HS HM; cbn [open_chain]; [discriminate|].
  inversion_clear HS as [|? ? H1 H2]. inversion_clear HM as [|? ? M1 M2]. pose proof (open_ok s v T H1) as O.
  destruct (apply_open room s v) as [v1 [l| |]]; [|discriminate|destruct O; assumption]. destruct O as (T1 & Hl & RD).
  destruct (get_loc v1 l) as [x|] eqn:G; [|destruct Hl; assumption].
  specialize (IH x (tree_get _ _ _ T1 G) H2 M2). destruct (open_chain room subs x) as [x' [path'| |]]; cbn in *; congruence.
Qed.

(* reading what is missing *)
Lemma read_null subs : read_chain subs VNull = Ok VNull.
Proof. destruct subs as [|[]]; reflexivity. Qed.

Lemma opened_get arr i j : 0 <= j < zlen arr ->
  nth_error (opened arr i) (Z.to_nat (if 0 <=? i then j else j + growth (zlen arr) i)) = nth_error arr (Z.to_nat j).
Proof.
  intros Hj. unfold opened, growth, elem_pos. destruct (Z.leb_spec 0 i).
  - destruct (Z.ltb_spec i (zlen arr)); [reflexivity|]. apply nth_error_app1. unfold zlen in *. lia.
  - destruct (Z.leb_spec 0 (zlen arr + i)).
    + replace (Z.max 0 (- i - zlen arr)) with 0 by lia. rewrite Z.add_0_r. reflexivity.
    + rewrite nth_error_app2 by (rewrite repeat_length; lia). f_equal. rewrite repeat_length. lia.
Qed.
Lemma opened_new arr i j : 0 <= j < zlen (opened arr i) ->
  (if 0 <=? i then zlen arr <= j else j < growth (zlen arr) i) -> nth_error (opened arr i) (Z.to_nat j) = Some VNull.
Proof.
  rewrite zlen_opened. unfold opened, growth, elem_pos. intros Hj.
  assert (NR : forall n k, (k < n)%nat -> nth_error (repeat VNull n) k = Some VNull).
  { induction n; intros [|k]; cbn; intros; try lia; auto. apply IHn. lia. }
  destruct (Z.leb_spec 0 i).
  - intros H1. destruct (Z.ltb_spec i (zlen arr)); [lia|]. rewrite nth_error_app2 by (unfold zlen in *; lia).
    apply NR. unfold zlen in *. lia.
  - intros H1. destruct (Z.leb_spec 0 (zlen arr + i)); [lia|]. rewrite nth_error_app1 by (rewrite repeat_length; lia).
    apply NR. lia.
Qed.

(* reading an existing or missing element: null if missing *)
Definition child (s : subscript) (v : value) : outcome value := read_chain [s] v.
Lemma read_chain_cons s subs v : read_chain (s :: subs) v = do x <- child s v; read_chain subs x.
Proof.
  unfold child. cbn [read_chain]. destruct (apply_read_opt s v) as [[l|]| |]; cbn [obind]; try reflexivity.
  - destruct (get_loc v l); reflexivity.
  - rewrite read_null. reflexivity.
Qed.

(* opening a steady subscript makes the element that was read, or null *)
Lemma open_child s v v' l : tree v -> int_sub s -> steady s -> apply_open room s v = (v', Ok l) ->
  exists x, get_loc v' l = Some x /\ (forall y, child s v = Ok y -> y = x).
Proof.
  intros T Hs St. destruct s as [i|k| | |]; cbn [steady] in St; try contradiction.
  - rewrite open_blank. intros H. assert (exists arr, blank (SIdx i) v = VArr arr) as [arr B].
    { destruct v; cbn in *; try discriminate; eauto. }
    pose proof (tree_blank (SIdx i) v T) as TB. rewrite B in *. apply tree_arr in TB. destruct TB as [Tn _].
    assert (D : 0 < zlen arr \/ int64_min < i < int64_max).
    { cbn [apply_open open_array] in H. destruct (wrap_array_index (zlen arr) i) eqn:W; try discriminate.
      eapply wrap_defined; [|exact Hs|exact W]. pose proof (zlen_nonneg arr). lia. }
    rewrite open_index in H by assumption.
    destruct (_ || _); [|discriminate]. injection H as <- <-. cbn [get_loc].
    assert (CH : forall y, child (SIdx i) v = Ok y -> y = match elem_pos (zlen arr) i with
        | Some p => match nth_error arr (Z.to_nat p) with Some x => x | None => VNull end | None => VNull end).
    { intros y. unfold child. destruct v; try discriminate; cbn [blank] in B; injection B as B; subst arr.
      - cbn. intros E. injection E as <-. destruct (elem_pos 0 i) as [p|]; [destruct (Z.to_nat p)|]; reflexivity.
      - cbn [read_chain]. rewrite read_index by assumption. cbn [obind]. destruct (elem_pos _ _); [|intros E; injection E as <-; reflexivity].
        cbn [get_loc]. destruct (nth_error _ _); intros E; [injection E as <-; reflexivity|discriminate]. }
    unfold open_pos. destruct (elem_pos (zlen arr) i) as [p|] eqn:EP.
    + assert (opened arr i = arr) as -> by (unfold opened; rewrite EP; reflexivity).
      assert (0 <= p < zlen arr) by (unfold elem_pos in EP; destruct (Z.leb_spec 0 i); [destruct (Z.ltb_spec i (zlen arr))|destruct (Z.leb_spec 0 (zlen arr + i))]; try discriminate; injection EP as <-; lia).
      destruct (nth_error arr (Z.to_nat p)) eqn:N; [eauto|]. apply nth_error_None in N. unfold zlen in *. lia.
    + exists VNull. split; [|exact CH]. pose proof (zlen_nonneg arr). apply opened_new.
      * rewrite zlen_opened. unfold growth. unfold elem_pos in EP.
        destruct (Z.leb_spec 0 i); [destruct (Z.ltb_spec i (zlen arr))|destruct (Z.leb_spec 0 (zlen arr + i))]; try discriminate; lia.
      * unfold growth. unfold elem_pos in EP.
        destruct (Z.leb_spec 0 i); [destruct (Z.ltb_spec i (zlen arr))|destruct (Z.leb_spec 0 (zlen arr + i))]; try discriminate; lia.
  - destruct v; cbn [apply_open]; try discriminate; intros H; injection H as <- <-; cbn [get_loc].
    + rewrite find_emplace, key_eqb_refl. cbn. exists VNull. split; [reflexivity|]. cbn. intros y E. injection E as <-. reflexivity.
    + rewrite find_emplace, key_eqb_refl. unfold child. cbn. destruct (obj_find l0 k) eqn:E; cbn.
      * exists v. split; [reflexivity|]. rewrite E. intros y F. injection F as <-. reflexivity.
      * exists VNull. split; [reflexivity|]. intros y F. injection F as <-. reflexivity.
Qed.

Lemma elem_pos_bound n i p : 0 <= n -> elem_pos n i = Some p -> 0 <= p < n.
Proof.
  intros Hn. unfold elem_pos. destruct (Z.leb_spec 0 i); [destruct (Z.ltb_spec i n)|destruct (Z.leb_spec 0 (n + i))]; try discriminate;
  intros H'; injection H' as <-; lia.
Qed.
(* opening one element leaves the others *)
Lemma open_sibling s t v v' l x y : tree v -> int_sub s -> int_sub t -> apart s t -> apply_open room s v = (v', Ok l) ->
  child t v = Ok y -> child t (set_loc v' l x) = Ok y.
Proof.
  intros T Hs Ht Ap H Hy. destruct s as [i|k| | |], t as [j|k'| | |]; cbn [apart] in Ap; try contradiction.
  - rewrite open_blank in H. assert (exists arr, blank (SIdx i) v = VArr arr) as [arr B].
    { destruct v; cbn in *; try discriminate; eauto. }
    pose proof (tree_blank (SIdx i) v T) as TB. rewrite B in *. pose proof TB as TB'. apply tree_arr in TB. destruct TB as [Tn _].
    pose proof (zlen_nonneg arr) as Z0.
    assert (D : 0 < zlen arr \/ int64_min < i < int64_max).
    { cbn [apply_open open_array] in H. destruct (wrap_array_index (zlen arr) i) eqn:W; try discriminate.
      eapply wrap_defined; [|exact Hs|exact W]. lia. }
    pose proof (open_array_ok (SIdx i) arr TB' Hs ltac:(discriminate)) as O. rewrite H in O. destruct O as (TV & Hl & _).
    rewrite open_index in H by assumption.
    destruct (_ || _); [|discriminate]. injection H as <- <-.
    assert (CH : y = match elem_pos (zlen arr) j with
        | Some p => match nth_error arr (Z.to_nat p) with Some x => x | None => VNull end | None => VNull end).
    { unfold child in Hy. destruct v; try discriminate; cbn [blank] in B; injection B as B; subst arr.
      - cbn in Hy. injection Hy as <-. change (zlen (@nil value)) with 0; destruct (elem_pos 0 j) as [p|]; [destruct (Z.to_nat p)|]; reflexivity.
      - cbn [read_chain] in Hy. assert (DJ : 0 < zlen l \/ int64_min < j < int64_max).
        { cbn [apply_read_opt] in Hy. destruct (wrap_array_index (zlen l) j) eqn:W; try discriminate. eapply wrap_defined; [|exact Ht|exact W]. lia. }
        rewrite read_index in Hy by assumption. cbn [obind] in Hy.
        destruct (elem_pos _ _); [|injection Hy as <-; reflexivity].
        cbn [get_loc] in Hy. destruct (nth_error _ _); [injection Hy as <-; reflexivity|discriminate]. }
    clear Hy. apply tree_arr in TV. destruct TV as [TVn _].
    assert (PL : 0 < zlen (opened arr i)).
    { unfold has in Hl. cbn in Hl. apply nth_error_Some in Hl. unfold zlen. lia. }
    unfold child. cbn [set_loc read_chain].
    rewrite read_index by (rewrite ?zlen_set_nth; try assumption; left; exact PL). cbn [obind]. rewrite zlen_set_nth.
    (* position of j after opening *)
    rewrite zlen_opened in *. set (n := zlen arr) in *. set (g := growth n i) in *.
    destruct (elem_pos (n + g) j) as [q|] eqn:EQ.
    + pose proof (elem_pos_bound (n + g) j q ltac:(lia) EQ) as BQ.
      assert (NE : (Z.to_nat (open_pos n i) =? Z.to_nat q)%nat = false).
      { apply Nat.eqb_neq. unfold open_pos. unfold elem_pos in EQ |- *. unfold g, growth in *.
        destruct (Z.leb_spec 0 i), (Z.leb_spec 0 j); try lia.
        - destruct (Z.ltb_spec i n), (Z.ltb_spec j (n + Z.max 0 (i + 1 - n))); try discriminate; injection EQ as <-; lia.
        - destruct (Z.leb_spec 0 (n + i)), (Z.leb_spec 0 (n + Z.max 0 (- i - n) + j)); try discriminate; injection EQ as <-; lia. }
      cbn [get_loc]. rewrite set_nth_get, NE. subst y.
      destruct (elem_pos n j) as [p|] eqn:EP.
      * pose proof (elem_pos_bound n j p Z0 EP) as BP.
        pose proof (opened_get arr i p BP) as OG. fold n g in OG.
        replace (if 0 <=? i then p else p + g) with q in OG.
        -- rewrite OG. destruct (nth_error arr (Z.to_nat p)) eqn:N; [reflexivity|]. apply nth_error_None in N. unfold n, zlen in *. lia.
        -- unfold elem_pos in EP, EQ. unfold g, growth in *. destruct (Z.leb_spec 0 i), (Z.leb_spec 0 j); try lia.
           ++ destruct (Z.ltb_spec j n), (Z.ltb_spec j (n + Z.max 0 (i + 1 - n))); try discriminate; congruence.
           ++ destruct (Z.leb_spec 0 (n + j)), (Z.leb_spec 0 (n + Z.max 0 (- i - n) + j)); try discriminate.
              injection EP as <-. injection EQ as <-. lia.
      * pose proof (opened_new arr i q) as ON. rewrite zlen_opened in ON. fold n g in ON. rewrite ON; [reflexivity|exact BQ|].
        unfold elem_pos in EP, EQ. unfold g, growth in *. destruct (Z.leb_spec 0 i), (Z.leb_spec 0 j); try lia.
        -- destruct (Z.ltb_spec j n), (Z.ltb_spec j (n + Z.max 0 (i + 1 - n))); try discriminate. injection EQ as <-. lia.
        -- destruct (Z.leb_spec 0 (n + j)), (Z.leb_spec 0 (n + Z.max 0 (- i - n) + j)); try discriminate. injection EQ as <-. lia.
    + subst y. destruct (elem_pos n j) as [p|] eqn:EP; [|reflexivity]. exfalso.
      unfold elem_pos in EP, EQ. unfold g, growth in *. destruct (Z.leb_spec 0 i), (Z.leb_spec 0 j); try lia.
      * destruct (Z.ltb_spec j n), (Z.ltb_spec j (n + Z.max 0 (i + 1 - n))); try discriminate. lia.
      * destruct (Z.leb_spec 0 (n + j)), (Z.leb_spec 0 (n + Z.max 0 (- i - n) + j)); try discriminate. lia.
  - assert (KE : key_eqb k' k = false) by (destruct (key_eqb_spec k' k); congruence).
    destruct v; cbn [apply_open] in H; try discriminate; injection H as <- <-; unfold child in *; cbn in Hy |- *.
    + injection Hy as <-. cbn. rewrite key_eqb_refl. cbn. rewrite KE. reflexivity.
    + rewrite find_set, KE, find_emplace, KE. destruct (obj_find l0 k') eqn:E; cbn in *.
      * rewrite E in Hy. rewrite find_set, KE, find_emplace, E. exact Hy.
      * exact Hy.
Qed.

Lemma frame p : forall s1 r1 s2 r2 v v' path v'' new y, tree v ->
  Forall int_sub (p ++ s1 :: r1) -> int_sub s2 -> Forall steady p -> apart s1 s2 ->
  open_chain room (p ++ s1 :: r1) v = (v', Ok path) -> store path v' new = Ok v'' ->
  read_chain (p ++ s2 :: r2) v = Ok y -> read_chain (p ++ s2 :: r2) v'' = Ok y.
Proof.
  induction p as [|s p IH]; intros s1 r1 s2 r2 v v' path v'' new y T HS H2 SP Ap.
  - cbn [app open_chain] in *. inversion_clear HS as [|? ? I1 I2].
    pose proof (open_ok s1 v T I1) as O.
    destruct (apply_open room s1 v) as [v1 [l| |]] eqn:OP; try discriminate. destruct O as (T1 & Hl & RD).
    destruct (get_loc v1 l) as [x|] eqn:G; [|destruct Hl; assumption].
    destruct (open_chain room r1 x) as [x' [path'| |]] eqn:C; cbn [obind]; try discriminate.
    intros E. injection E as <- <-. cbn [store]. rewrite get_set by exact Hl.
    destruct (store path' x' new) as [x''| |]; cbn [obind]; try discriminate. intros E. injection E as <-. rewrite set_set_loc.
    rewrite !read_chain_cons. destruct (child s2 v) as [z| |] eqn:CZ; cbn [obind]; try discriminate.
    rewrite (open_sibling s1 s2 v v1 l x'' z T I1 H2 Ap OP CZ). auto.
  - cbn [app open_chain] in *. inversion_clear HS as [|? ? I1 I2]. inversion_clear SP as [|? ? St SP'].
    pose proof (open_ok s v T I1) as O.
    destruct (apply_open room s v) as [v1 [l| |]] eqn:OP; try discriminate. destruct O as (T1 & Hl & RD).
    destruct (open_child s v v1 l T I1 St OP) as (x & G & CX). rewrite G.
    destruct (open_chain room (p ++ s1 :: r1) x) as [x' [path'| |]] eqn:C; cbn [obind]; try discriminate.
    intros E. injection E as <- <-. cbn [store]. rewrite get_set by exact Hl.
    destruct (store path' x' new) as [x''| |] eqn:SX; cbn [obind]; try discriminate. intros E. injection E as <-. rewrite set_set_loc.
    rewrite !read_chain_cons. destruct (child s v) as [z| |] eqn:CZ; cbn [obind]; try discriminate.
    rewrite (CX z eq_refl). intros RX. unfold child. cbn [read_chain]. rewrite read_set, RD. cbn [obind].
    rewrite get_set by exact Hl. cbn [obind].
    eapply (IH s1 r1 s2 r2 x x' path' x'' new y); try eassumption. eapply tree_get; eassumption.
Qed.

(* ---- unset ---- *)
Lemma take_index_ok arr off : 0 <= off < zlen arr -> exists a x b, arr = a ++ x :: b /\ zlen a = off /\
  take_index arr off = (VArr (a ++ b), Ok x).
Proof.
  intros H. destruct (nth_error arr (Z.to_nat off)) as [x|] eqn:E.
  - destruct (nth_split _ _ _ E) as (a & b & EA & EL).
    exists a, x, b. split; [exact EA|]. split; [unfold zlen; lia|]. unfold take_index.
    destruct (Z.leb_spec 0 off), (Z.ltb_spec off (zlen arr)); try lia. cbn [andb]. rewrite E, EA, <- EL.
    pose proof (vec_erase_ok a [x] b) as V. cbn [app length] in V. rewrite V. reflexivity.
  - apply nth_error_None in E. unfold zlen in H. lia.
Qed.
Lemma take_index_bad arr off : ~ 0 <= off < zlen arr -> take_index arr off = (VArr arr, UB).
Proof. intros H. unfold take_index. destruct (Z.leb_spec 0 off), (Z.ltb_spec off (zlen arr)); try lia; reflexivity. Qed.
Lemma take_index_read arr off v' y : take_index arr off = (v', Ok y) ->
  (do p <- some (at_index arr off); match p with Some l => match get_loc (VArr arr) l with Some x => Ok x | None => UB end | None => Ok VNull end) = Ok y.
Proof.
  intros H. assert (D : 0 <= off < zlen arr \/ ~ 0 <= off < zlen arr) by lia. destruct D as [D|D].
  - unfold some. rewrite at_index_ok by exact D. cbn. destruct (take_index_ok arr off D) as (a & x & b & EA & EL & ET).
    rewrite ET in H. injection H as _ <-. replace (Z.to_nat off) with (length a) by (unfold zlen in EL; lia).
    rewrite EA, nth_error_mid. reflexivity.
  - rewrite take_index_bad in H by exact D. discriminate.
Qed.
Lemma take_index_throw arr off : snd (take_index arr off) <> Throw.
Proof.
  assert (D : 0 <= off < zlen arr \/ ~ 0 <= off < zlen arr) by lia. destruct D as [D|D].
  - destruct (take_index_ok arr off D) as (a & x & b & _ & _ & ->). discriminate.
  - rewrite take_index_bad by exact D. discriminate.
Qed.
Lemma unset_read s v v' y : apply_unset s v = (v', Ok y) -> child s v = Ok y.
Proof.
  unfold child. cbn [read_chain].
  destruct s, v; cbn [apply_unset apply_read_opt]; try discriminate; intros H;
    try (injection H as _ <-; reflexivity).
  - destruct (wrap_array_index (zlen l) i) as [[[a p] r]| |]; try discriminate. cbn [obind].
    destruct (negb _); [injection H as _ <-; reflexivity|]. apply take_index_read in H. exact H.
  - destruct (obj_find l k) eqn:E; cbn; [rewrite E|]; injection H as _ <-; reflexivity.
  - destruct (zlen l =? 0); [injection H as _ <-; reflexivity|]. apply take_index_read in H. exact H.
  - destruct (zlen l =? 0); [injection H as _ <-; reflexivity|]. apply take_index_read in H. exact H.
  - destruct (zlen l =? 0); [injection H as _ <-; reflexivity|]. apply take_index_read in H. exact H.
Qed.
Lemma unset_throw s v v' : apply_unset s v = (v', Throw) -> v' = v.
Proof.
  assert (TT : forall arr off, take_index arr off = (v', Throw) -> v' = VArr arr).
  { intros arr off E. pose proof (take_index_throw arr off) as N. rewrite E in N. destruct N. reflexivity. }
  destruct s, v; cbn [apply_unset]; try discriminate; intros H; try (injection H as <-; reflexivity).
  - destruct (wrap_array_index (zlen l) i) as [[[a p] r]| |]; try discriminate; [|injection H as <-; reflexivity].
    destruct (negb _); [discriminate|]. eapply TT, H.
  - destruct (obj_find l k); discriminate.
  - destruct (zlen l =? 0); [discriminate|]. eapply TT, H.
  - destruct (zlen l =? 0); [discriminate|]. eapply TT, H.
  - destruct (zlen l =? 0); [discriminate|]. eapply TT, H.
Qed.

Lemma unset_chain_cons s t subs v : unset_chain (s :: t :: subs) v =
    match apply_write_opt s v with
    | Ok None => (v, Ok VNull)
    | Ok (Some l) =>
      match get_loc v l with
      | Some x => let '(x', r) := unset_chain (t :: subs) x in (set_loc v l x', r)
      | None => (v, UB)
      end
    | Throw => (v, Throw)
    | UB => (v, UB)
    end.
Proof. reflexivity. Qed.

Lemma unset_chain_read subs : forall v v' y, unset_chain subs v = (v', Ok y) -> read_chain subs v = Ok y.
Proof.
  induction subs as [|s [|t subs] IH]; intros v v' y; [discriminate|apply unset_read|].
  rewrite unset_chain_cons, write_read. cbn [read_chain].
  destruct (apply_read_opt s v) as [[l|]| |]; cbn [obind]; try discriminate.
  - destruct (get_loc v l) as [x|]; try discriminate. destruct (unset_chain (t :: subs) x) as [x' r] eqn:U.
    intros E. injection E as _ ->. eapply IH, U.
  - intros E. injection E as _ <-. reflexivity.
Qed.
Lemma unset_chain_throw subs : forall v v', unset_chain subs v = (v', Throw) -> v' = v.
Proof.
  induction subs as [|s [|t subs] IH]; intros v v'; [intros H; injection H as <-; reflexivity|apply unset_throw|].
  rewrite unset_chain_cons. destruct (apply_write_opt s v) as [[l|]| |]; try discriminate.
  - destruct (get_loc v l) as [x|] eqn:G; try discriminate. destruct (unset_chain (t :: subs) x) as [x' r] eqn:U.
    intros E. injection E as <- ->. apply IH in U. subst x'. apply set_same_loc. exact G.
  - intros E. injection E as <-. reflexivity.
Qed.
Lemma unset_key p k : forall v v' y, tree v -> unset_chain (p ++ [SKey k]) v = (v', Ok y) ->
  read_chain (p ++ [SKey k]) v' = Ok VNull.
Proof.
  induction p as [|s p IH]; intros v v' y T.
  - cbn [app unset_chain]. destruct v; cbn [apply_unset]; try discriminate.
    + intros H. injection H as <- _. reflexivity.
    + destruct (obj_find l k) eqn:E; intros H; injection H as <- _; cbn.
      * apply tree_obj in T. rewrite find_erase by apply T. rewrite key_eqb_refl. reflexivity.
      * rewrite E. reflexivity.
  - destruct (p ++ [SKey k]) as [|t subs] eqn:EQ; [destruct p; discriminate|].
    cbn [app]. rewrite EQ. rewrite unset_chain_cons, write_read. 
    destruct (apply_read_opt s v) as [[l|]| |] eqn:RD; try discriminate.
    + destruct (get_loc v l) as [x|] eqn:G; try discriminate. destruct (unset_chain (t :: subs) x) as [x' r] eqn:U.
      intros E. injection E as <- ->.
      rewrite <- EQ in *. change (read_chain (s :: p ++ [SKey k]) (set_loc v l x') = Ok VNull).
      cbn [read_chain]. rewrite read_set, RD. cbn [obind]. rewrite get_set by (unfold has; congruence).
      eapply IH; [|exact U]. eapply tree_get; eassumption.
    + intros E. injection E as <- _. change (read_chain (s :: t :: subs) v = Ok VNull). cbn [read_chain]. rewrite RD. reflexivity.
Qed.

Lemma unset_index arr i p : zlen arr <= int64_max -> is_int64 i -> elem_pos (zlen arr) i = Some p ->
  exists x, nth_error arr (Z.to_nat p) = Some x /\
  unset_chain [SIdx i] (VArr arr) = (VArr (firstn (Z.to_nat p) arr ++ skipn (Z.to_nat p + 1) arr), Ok x).
Proof.
  intros Hn Hi EP. pose proof (zlen_nonneg arr) as Z0. pose proof (elem_pos_bound _ _ _ Z0 EP) as B.
  cbn [unset_chain apply_unset].
  destruct (wrap_spec (zlen arr) i ltac:(lia) Hi ltac:(left; lia)) as (a & q & r & -> & _ & _ & S).
  rewrite EP in S. destruct S as (-> & -> & -> & _). cbn [Z.lor negb Z.eqb].
  destruct (take_index_ok arr p B) as (u & x & w & EA & EL & ->).
  exists x. replace (Z.to_nat p) with (length u) by (unfold zlen in EL; lia). rewrite EA. split; [apply nth_error_mid|].
  rewrite firstn_length_app. change (x :: w) with ([x] ++ w). rewrite app_assoc.
  replace (length u + 1)%nat with (length (u ++ [x])) by (rewrite app_length; reflexivity). rewrite skipn_length_app. reflexivity.
Qed.

Lemma copy_read subs : forall v, copy_chain subs v = read_chain subs v.
Proof.
  induction subs as [|s subs IH]; intros v; [reflexivity|]. cbn [copy_chain read_chain]. rewrite write_read.
  destruct (apply_read_opt s v) as [[l|]| |]; cbn [obind]; try reflexivity; destruct (get_loc v l); auto.
Qed.

(* ---- references ---- *)
Lemma assign_read var subs new r' : tree (v_val var) -> Forall int_sub subs ->
  assign room (RVar var subs) new = (r', Ok tt) -> dereference_readonly r' = Ok new.
Proof.
  intros T HS. cbn [assign]. destruct (v_init var) eqn:Ei; cbn [negb]; [|discriminate]. destruct (v_const var); [discriminate|].
  destruct (open_chain room subs (v_val var)) as [v' [path| |]] eqn:C; try discriminate.
  destruct (open_store subs _ _ _ new T HS C) as (v'' & -> & R & _). intros E. injection E as <-.
  cbn. rewrite Ei. exact R.
Qed.
Lemma assign_no_ub r new : (forall var subs, r = RVar var subs -> tree (v_val var) /\ Forall int_sub subs /\ Forall mild subs) ->
  snd (assign room r new) <> UB.
Proof.
  destruct r; cbn [assign]; try discriminate. intros H. destruct (H var subs eq_refl) as (T & HS & HM).
  destruct (v_init var); cbn [negb]; [|discriminate]. destruct (v_const var); [discriminate|].
  pose proof (open_no_ub subs (v_val var) T HS HM) as N.
  destruct (open_chain room subs (v_val var)) as [v' [path| |]] eqn:C; cbn in *; try congruence.
  destruct (open_store subs _ _ _ new T HS C) as (v'' & -> & _). discriminate.
Qed.
Lemma assign_frame var p s1 r1 s2 r2 new r' y : tree (v_val var) ->
  Forall int_sub (p ++ s1 :: r1) -> int_sub s2 -> Forall steady p -> apart s1 s2 ->
  assign room (RVar var (p ++ s1 :: r1)) new = (r', Ok tt) ->
  dereference_readonly (RVar var (p ++ s2 :: r2)) = Ok y ->
  forall var', r' = RVar var' (p ++ s1 :: r1) -> dereference_readonly (RVar var' (p ++ s2 :: r2)) = Ok y.
Proof.
  intros T HS H2 SP Ap. cbn [assign dereference_readonly]. destruct (v_init var) eqn:Ei; cbn [negb]; [|discriminate]. destruct (v_const var); [discriminate|].
  destruct (open_chain room (p ++ s1 :: r1) (v_val var)) as [v' [path| |]] eqn:C; try discriminate.
  destruct (store path v' new) as [v''| |] eqn:S; try discriminate. intros E R var' ->. injection E as <-.
  cbn. rewrite Ei. eapply frame; eassumption.
Qed.

Lemma written_opened arr i new : set_nth (opened arr i) (Z.to_nat (open_pos (zlen arr) i)) new = written arr i new.
Proof.
  unfold written, opened, open_pos. destruct (elem_pos (zlen arr) i) as [p|] eqn:EP.
  - pose proof (elem_pos_bound _ _ _ (zlen_nonneg arr) EP) as B.
    destruct (take_index_ok arr p B) as (a & x & b & EA & EL & _).
    replace (Z.to_nat p) with (length a) by (unfold zlen in EL; lia). rewrite EA, set_nth_mid, firstn_length_app.
    change (x :: b) with ([x] ++ b). rewrite app_assoc.
    replace (length a + 1)%nat with (length (a ++ [x])) by (rewrite app_length; reflexivity). rewrite skipn_length_app. reflexivity.
  - pose proof (zlen_nonneg arr). unfold elem_pos in EP. unfold growth. destruct (Z.leb_spec 0 i).
    + destruct (Z.ltb_spec i (zlen arr)); [discriminate|].
      replace (Z.to_nat (Z.max 0 (i + 1 - zlen arr))) with (Z.to_nat (i - zlen arr) + 1)%nat by lia.
      rewrite repeat_app. cbn [repeat]. rewrite app_assoc.
      replace (Z.to_nat (Z.max 0 i)) with (length (arr ++ repeat VNull (Z.to_nat (i - zlen arr))))
        by (rewrite app_length, repeat_length; unfold zlen in *; lia).
      rewrite set_nth_mid, <- app_assoc. reflexivity.
    + destruct (Z.leb_spec 0 (zlen arr + i)); [discriminate|].
      replace (Z.to_nat (Z.max 0 (- i - zlen arr))) with (1 + Z.to_nat (- i - zlen arr - 1))%nat by lia.
      rewrite repeat_app. cbn [repeat app]. replace (Z.to_nat (Z.max 0 i)) with 0%nat by lia. reflexivity.
Qed.
Lemma write_index arr i new : zlen arr <= int64_max -> is_int64 i -> 0 < zlen arr \/ int64_min < i < int64_max ->
  assign room (RVar (var_of (VArr arr)) [SIdx i]) new =
    if (growth (zlen arr) i =? 0) || room (zlen arr) (growth (zlen arr) i)
    then (RVar (var_of (VArr (written arr i new))) [SIdx i], Ok tt)
    else (RVar (var_of (VArr arr)) [SIdx i], Throw).
Proof.
  intros Hn Hi D. cbn [assign var_of v_init v_const v_val negb open_chain].
  rewrite open_index by assumption. destruct (_ || _); [|reflexivity].
  assert (B : (Z.to_nat (open_pos (zlen arr) i) < length (opened arr i))%nat).
  { pose proof (zlen_opened arr i) as L. pose proof (zlen_nonneg arr). unfold zlen in L at 1. unfold open_pos, elem_pos, growth in *.
    destruct (Z.leb_spec 0 i); [destruct (Z.ltb_spec i (zlen arr))|destruct (Z.leb_spec 0 (zlen arr + i))]; lia. }
  cbn [get_loc]. destruct (nth_error (opened arr i) _) eqn:N; [|apply nth_error_None in N; lia].
  cbn [obind set_loc store get_loc]. rewrite set_nth_get, Nat.eqb_refl, N. cbn [obind].
  rewrite set_nth_set, written_opened. reflexivity.
Qed.
Lemma read_index_value arr i : zlen arr <= int64_max -> is_int64 i -> 0 < zlen arr \/ int64_min < i < int64_max ->
  dereference_readonly (RVar (var_of (VArr arr)) [SIdx i]) =
    Ok (match elem_pos (zlen arr) i with Some p => nth (Z.to_nat p) arr VNull | None => VNull end).
Proof.
  intros Hn Hi D. cbn [dereference_readonly var_of v_init v_val read_chain]. rewrite read_index by assumption. cbn [obind].
  destruct (elem_pos (zlen arr) i) as [p|] eqn:EP; [|reflexivity]. cbn [get_loc].
  pose proof (elem_pos_bound _ _ _ (zlen_nonneg arr) EP) as B.
  destruct (nth_error arr (Z.to_nat p)) eqn:N.
  - rewrite (nth_error_nth _ _ VNull N). reflexivity.
  - apply nth_error_None in N. unfold zlen in B. lia.
Qed.

Lemma deref_unset_read r r' y : dereference_unset r = (r', Ok y) -> dereference_readonly r = Ok y.
Proof.
  destruct r; try discriminate. cbn. destruct (v_init var); cbn [negb]; [|discriminate]. destruct (v_const var); [discriminate|].
  destruct (unset_chain subs (v_val var)) as [v' x] eqn:U. intros E. injection E as _ ->. eapply unset_chain_read, U.
Qed.
Lemma deref_unset_throw r r' : dereference_unset r = (r', Throw) -> r' = r.
Proof.
  destruct r; cbn; try (intros E; injection E as <-; reflexivity).
  destruct (v_init var) eqn:Ei; cbn [negb]; [|intros E; injection E as <-; reflexivity].
  destruct (v_const var) eqn:Ec; [intros E; injection E as <-; reflexivity|].
  destruct (unset_chain subs (v_val var)) as [v' x] eqn:U. intros E. injection E as <- ->. apply unset_chain_throw in U. subst v'.
  destruct var. reflexivity.
Qed.
Lemma deref_unset_key var p k r' y : tree (v_val var) ->
  dereference_unset (RVar var (p ++ [SKey k])) = (r', Ok y) -> dereference_readonly r' = Ok VNull.
Proof.
  intros T. cbn. destruct (v_init var) eqn:Ei; cbn [negb]; [|discriminate]. destruct (v_const var); [discriminate|].
  destruct (unset_chain (p ++ [SKey k]) (v_val var)) as [v' x] eqn:U. intros E. injection E as <- ->.
  cbn. rewrite Ei. eapply unset_key; eassumption.
Qed.
Lemma deref_copy r : dereference_copy r = do x <- dereference_readonly r; Ok (RTemp x []).
Proof.
  destruct r; cbn; try reflexivity; try (rewrite copy_read; reflexivity); destruct (v_init var); reflexivity.
Qed.
End Room.
