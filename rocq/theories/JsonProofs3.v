(* What the formatter writes, and when the parser takes it. *)
From Verif Require Import Base UtfModel UtfSpec JsonModel JsonSpec JsonProofs1 JsonProofs2.
From Coq Require Import Lia.

Section Value_ind.
Variable P : value -> Prop.
Hypothesis Hnull : P VNull.
Hypothesis Hbool : forall b, P (VBool b).
Hypothesis Hint : forall z, P (VInt z).
Hypothesis Hreal : forall r, P (VReal r).
Hypothesis Hstr : forall s, P (VStr s).
Hypothesis Hother : P VOther.
Hypothesis Harr : forall l, Forall P l -> P (VArr l).
Hypothesis Hobj : forall l, Forall (fun kx => P (snd kx)) l -> P (VObj l).
Fixpoint value_rec' (v : value) : P v :=
  match v with
  | VNull => Hnull | VBool b => Hbool b | VInt z => Hint z | VReal r => Hreal r | VStr s => Hstr s | VOther => Hother
  | VArr l => Harr l ((fix go (l : list value) : Forall P l :=
      match l with [] => Forall_nil _ | x :: l => Forall_cons _ (value_rec' x) (go l) end) l)
  | VObj l => Hobj l ((fix go (l : list (bytes * value)) : Forall (fun kx => P (snd kx)) l :=
      match l with [] => Forall_nil _ | x :: l => Forall_cons _ (value_rec' (snd x)) (go l) end) l)
  end.
End Value_ind.

Definition esc (s : bytes) : bytes := match escape_string s with Val e => e | _ => [] end.
Definition key_text (c : bytes) (k : bytes) : bytes := [quote] ++ esc k ++ [quote; 58] ++ match c with [] => [] | _ => [32] end.

Section Render.
Variable N : numerics.
Fixpoint render (c ad : bytes) (v : value) : bytes :=
  match v with
  | VNull | VOther => [110; 117; 108; 108]
  | VBool true => [116; 114; 117; 101]
  | VBool false => [102; 97; 108; 115; 101]
  | VInt z => show N (of_int N z)
  | VReal r => if finite N r then show N r else [110; 117; 108; 108]
  | VStr s => [quote] ++ esc s ++ [quote]
  | VArr [] => [91; 93]
  | VArr (x :: l) =>
      [91] ++ (c ++ ad) ++ render (c ++ ad) ad x
        ++ concat (map (fun x => [44] ++ (c ++ ad) ++ render (c ++ ad) ad x) l) ++ c ++ [93]
  | VObj [] => [123; 125]
  | VObj (kx :: l) =>
      [123] ++ (c ++ ad) ++ key_text (c ++ ad) (fst kx) ++ render (c ++ ad) ad (snd kx)
        ++ concat (map (fun kx => [44] ++ (c ++ ad) ++ key_text (c ++ ad) (fst kx) ++ render (c ++ ad) ad (snd kx)) l) ++ c ++ [125]
  end.
Definition putr (s : bytes) (r : res bytes) : res bytes := let* t := r in Val (s ++ t).
Lemma putr_putr : forall a b r, putr a (putr b r) = putr (a ++ b) r.
Proof. intros a b [t| | |]; cbn; try reflexivity. rewrite app_assoc. reflexivity. Qed.

Fixpoint cost (v : value) : nat :=
  match v with
  | VArr l => S (fold_right (fun x n => cost x + 1 + n)%nat O l)
  | VObj l => S (fold_right (fun kx n => cost (snd kx) + 1 + n)%nat O l)
  | _ => 1%nat
  end.
Lemma cost_nodes : forall v, (cost v + 1 = 2 * nodes v)%nat.
Proof.
  apply value_rec'; intros; try reflexivity.
  - cbn [cost nodes]. cut (fold_right (fun x n => cost x + 1 + n) 0 l = 2 * fold_right (fun x n => nodes x + n) 0 l)%nat; [lia|].
    induction H as [|x l Hx Hl IH]; [reflexivity|]. cbn [fold_right]. lia.
  - cbn [cost nodes]. cut (fold_right (fun kx n => cost (snd kx) + 1 + n) 0 l = 2 * fold_right (fun kx n => nodes (snd kx) + n) 0 l)%nat; [lia|].
    induction H as [|x l Hx Hl IH]; [reflexivity|]. cbn [fold_right]. lia.
Qed.

Definition costs (l : list value) : nat := fold_right (fun x n => cost x + 1 + n)%nat O l.
Definition kcosts (l : list (bytes * value)) : nat := fold_right (fun kx n => cost (snd kx) + 1 + n)%nat O l.
Lemma esc_ok : forall s, all_bytes s -> escape_string s = Val (esc s) /\ lit (esc s) (repair s).
Proof. intros s Hs. destruct (escape_string_ok s Hs) as [e [H1 H2]]. unfold esc. rewrite H1. auto. Qed.
Lemma print_key_ok : forall i k, all_bytes k -> print_key i k = Val (key_text (cur i) k).
Proof. intros i k Hk. unfold print_key. destruct (esc_ok k Hk) as [-> _]. reflexivity. Qed.

Lemma pop_ok : forall c ad stk f F (close : bytes),
  (f = OArr [] /\ close = [93]) \/ (f = OObj [] /\ close = [125]) ->
  print (S F) N (mk_indent (c ++ ad) ad) (f :: stk) OResume = putr (c ++ close) (print F N (mk_indent c ad) stk OResume).
Proof.
  intros c ad stk f F close H. cbn [print]. cbn [cur add].
  assert (Hl : (length (c ++ ad) <? length ad)%nat = false) by (rewrite app_length; apply Nat.ltb_ge; lia).
  assert (Hf : firstn (length (c ++ ad) - length ad) (c ++ ad) = c).
  { rewrite app_length. replace (length c + length ad - length ad)%nat with (length c) by lia. apply (firstn_app_2 0) || (rewrite firstn_app, Nat.sub_diag, firstn_all, firstn_O, app_nil_r; reflexivity). }
  destruct H as [[-> ->]|[-> ->]]; rewrite Hl, Hf; reflexivity.
Qed.

Lemma print_ok : forall v, bytes_only v -> forall F c ad stk,
  print (cost v + F) N (mk_indent c ad) stk (OUnpack v) = putr (render c ad v) (print F N (mk_indent c ad) stk OResume).
Proof.
  apply (value_rec' (fun v => bytes_only v -> forall F c ad stk,
    print (cost v + F) N (mk_indent c ad) stk (OUnpack v) = putr (render c ad v) (print F N (mk_indent c ad) stk OResume))).
  - reflexivity.
  - intros [] _; reflexivity.
  - reflexivity.
  - reflexivity.
  - intros s Hs F c ad stk. cbn [bytes_only] in Hs. cbn [cost Nat.add print render]. destruct (esc_ok s Hs) as [-> _]. reflexivity.
  - reflexivity.
  - intros l IH Hb F c ad stk.
    assert (Hrest : forall l, Forall (fun v => bytes_only v -> forall F c ad stk,
        print (cost v + F) N (mk_indent c ad) stk (OUnpack v) = putr (render c ad v) (print F N (mk_indent c ad) stk OResume)) l ->
      fold_right (fun x P => bytes_only x /\ P) True l ->
      print (costs l + S F)%nat N (mk_indent (c ++ ad) ad) (OArr l :: stk) OResume
      = putr (concat (map (fun x => [44] ++ (c ++ ad) ++ render (c ++ ad) ad x) l) ++ c ++ [93]) (print F N (mk_indent c ad) stk OResume)).
    { clear l IH Hb. intros l. induction l as [|x l IHl]; intros HF Hb.
      - cbn [costs kcosts fold_right Nat.add map concat app]. apply pop_ok. left. split; reflexivity.
      - inversion HF as [|? ? Hx HF']; subst. cbn [fold_right costs] in Hb |- *. fold (costs l). destruct Hb as [Hbx Hb].
        replace (cost x + 1 + costs l + S F)%nat
          with (S (cost x + (costs l + S F)))%nat by lia.
        cbn [print cur]. change (putr ([44] ++ (c ++ ad)) (print (cost x + (costs l + S F)) N (mk_indent (c ++ ad) ad) (OArr l :: stk) (OUnpack x)) = 
          putr (concat (map (fun x => [44] ++ (c ++ ad) ++ render (c ++ ad) ad x) (x :: l)) ++ c ++ [93]) (print F N (mk_indent c ad) stk OResume)).
        rewrite (Hx Hbx), (IHl HF' Hb), !putr_putr. f_equal. cbn [map concat]. rewrite <- !app_assoc. reflexivity. }
    destruct l as [|x l]; [reflexivity|]. cbn [bytes_only fold_right] in Hb. destruct Hb as [Hbx Hb]. inversion IH as [|? ? Hx HF]; subst.
    cbn [cost fold_right]. fold (costs l).
    replace (S (cost x + 1 + costs l) + F)%nat
      with (S (cost x + (costs l + S F)))%nat by lia.
    cbn [print cur add].
    change (putr ([91] ++ (c ++ ad)) (print (cost x + (costs l + S F)) N (mk_indent (c ++ ad) ad) (OArr l :: stk) (OUnpack x)) = 
      putr (render c ad (VArr (x :: l))) (print F N (mk_indent c ad) stk OResume)).
    rewrite (Hx Hbx), (Hrest l HF Hb), !putr_putr. f_equal. cbn [render]. rewrite <- !app_assoc. reflexivity.
  - intros l IH Hb F c ad stk.
    assert (Hrest : forall l, Forall (fun kx => bytes_only (snd kx) -> forall F c ad stk,
        print (cost (snd kx) + F) N (mk_indent c ad) stk (OUnpack (snd kx)) = putr (render c ad (snd kx)) (print F N (mk_indent c ad) stk OResume)) l ->
      fold_right (fun kx P => (all_bytes (fst kx) /\ bytes_only (snd kx)) /\ P) True l ->
      print (kcosts l + S F)%nat N (mk_indent (c ++ ad) ad) (OObj l :: stk) OResume
      = putr (concat (map (fun kx => [44] ++ (c ++ ad) ++ key_text (c ++ ad) (fst kx) ++ render (c ++ ad) ad (snd kx)) l) ++ c ++ [125]) (print F N (mk_indent c ad) stk OResume)).
    { clear l IH Hb. intros l. induction l as [|[k x] l IHl]; intros HF Hb.
      - cbn [costs kcosts fold_right Nat.add map concat app]. apply pop_ok. right. split; reflexivity.
      - inversion HF as [|? ? Hx HF']; subst. cbn [fold_right fst snd kcosts] in Hb, Hx |- *. fold (kcosts l). destruct Hb as [[Hbk Hbx] Hb].
        replace (cost x + 1 + kcosts l + S F)%nat
          with (S (cost x + (kcosts l + S F)))%nat by lia.
        cbn [print cur]. rewrite print_key_ok by assumption. cbn [rbind cur].
        change (putr ([44] ++ (c ++ ad) ++ key_text (c ++ ad) k) (print (cost x + (kcosts l + S F)) N (mk_indent (c ++ ad) ad) (OObj l :: stk) (OUnpack x)) = 
          putr (concat (map (fun kx => [44] ++ (c ++ ad) ++ key_text (c ++ ad) (fst kx) ++ render (c ++ ad) ad (snd kx)) ((k, x) :: l)) ++ c ++ [125]) (print F N (mk_indent c ad) stk OResume)).
        rewrite (Hx Hbx), (IHl HF' Hb), !putr_putr. f_equal. cbn [map concat fst snd]. rewrite <- !app_assoc. reflexivity. }
    destruct l as [|[k x] l]; [reflexivity|]. cbn [bytes_only fold_right fst snd] in Hb. destruct Hb as [[Hbk Hbx] Hb]. inversion IH as [|? ? Hx HF]; subst.
    cbn [cost fold_right snd] in Hx |- *. fold (kcosts l).
    replace (S (cost x + 1 + kcosts l) + F)%nat
      with (S (cost x + (kcosts l + S F)))%nat by lia.
    cbn [print cur add]. rewrite print_key_ok by assumption. cbn [rbind cur].
    change (putr ([123] ++ (c ++ ad) ++ key_text (c ++ ad) k) (print (cost x + (kcosts l + S F)) N (mk_indent (c ++ ad) ad) (OObj l :: stk) (OUnpack x)) = 
      putr (render c ad (VObj ((k, x) :: l))) (print F N (mk_indent c ad) stk OResume)).
    rewrite (Hx Hbx), (Hrest l HF Hb), !putr_putr. f_equal. cbn [render fst snd]. rewrite <- !app_assoc. reflexivity.
Qed.
Lemma format_ok : forall i v, bytes_only v -> json_format N i v = Val (render (cur i) (add i) v).
Proof.
  intros [c ad] v Hv. unfold json_format. pose proof (cost_nodes v). replace (2 * nodes v + 2)%nat with (cost v + 3)%nat by lia.
  rewrite print_ok by assumption. cbn. rewrite app_nil_r. reflexivity.
Qed.

(* ---- which values come back, as a computation ---- *)
Definition some {A} (o : option A) : bool := match o with Some _ => true | None => false end.
Definition mem (k : bytes) (l : list bytes) : bool := existsb (fun x => beqb x k) l.
(* ks: the keys before *)
Fixpoint okb (d : nat) (v : value) : bool :=
  (d <=? 32)%nat &&
  match v with
  | VInt z => some (back N (of_int N z))
  | VReal r => negb (finite N r) || some (back N r)
  | VArr l => forallb (okb (S d)) l
  | VObj l => (fix go (ks : list bytes) (l : list (bytes * value)) : bool :=
      match l with [] => true | kx :: l => negb (mem (repair (fst kx)) ks) && okb (S d) (snd kx) && go (ks ++ [repair (fst kx)]) l end) [] l
  | _ => true
  end.
Definition okmem (d : nat) : list bytes -> list (bytes * value) -> bool :=
  fix go (ks : list bytes) (l : list (bytes * value)) : bool :=
      match l with [] => true | kx :: l => negb (mem (repair (fst kx)) ks) && okb d (snd kx) && go (ks ++ [repair (fst kx)]) l end.
Lemma beqb_eq : forall a b, beqb a b = true <-> a = b.
Proof. intros a b. unfold beqb. destruct (list_eq_dec Z.eq_dec a b); split; congruence. Qed.
Lemma mem_in : forall k l, mem k l = true <-> In k l.
Proof.
  intros k l. unfold mem. rewrite existsb_exists. split.
  - intros [x [H1 H2]]. apply beqb_eq in H2. congruence.
  - intros H. exists k. split; [assumption|]. apply beqb_eq. reflexivity.
Qed.
Lemma okmem_spec : forall d l ks, okmem d ks l = true <->
  (forall kx, In kx l -> okb d (snd kx) = true) /\ (forall kx, In kx l -> ~ In (repair (fst kx)) ks) /\ NoDup (map (fun kx => repair (fst kx)) l).
Proof.
  intros d l. induction l as [|[k x] l IH]; intros ks.
  - cbn. split; [|reflexivity]. intros _. split; [intros ? []|]. split; [intros ? []|constructor].
  - cbn [okmem fst snd]. rewrite !andb_true_iff. fold (okmem d). rewrite IH. rewrite negb_true_iff. split.
    + intros [[H1 H2] [H3 [H4 H5]]]. split; [|split].
      * intros kx [<-|Hk]; [exact H2|auto].
      * intros kx [<-|Hk]; [cbn [fst]; intros Hi; apply (proj2 (mem_in _ _)) in Hi; rewrite Hi in H1; discriminate H1|]. intros Hi. apply (H4 kx Hk). apply in_app_iff. auto.
      * cbn [map fst]. constructor; [|assumption]. intros Hi. apply in_map_iff in Hi. destruct Hi as [kx [Hi1 Hi2]]. apply (H4 kx Hi2). rewrite Hi1. apply in_app_iff. right. left. reflexivity.
    + intros [H1 [H2 H3]]. cbn [map fst] in H3. inversion H3 as [|? ? Hn Hd]; subst. split; [split|split; [|split]].
      * destruct (mem (repair k) ks) eqn:E; [|reflexivity]. apply mem_in in E. exfalso. apply (H2 (k, x)); [left; reflexivity|exact E].
      * apply (H1 (k, x)). left. reflexivity.
      * intros kx Hk. apply H1. right. exact Hk.
      * intros kx Hk Hi. apply in_app_iff in Hi. destruct Hi as [Hi|[Hi|[]]]; [apply (H2 kx); [right; exact Hk|exact Hi]|].
        apply Hn. apply in_map_iff. exists kx. split; [symmetry; exact Hi|exact Hk].
      * exact Hd.
Qed.
Lemma fold_and : forall A (P : A -> Prop) l, fold_right (fun x Q => P x /\ Q) True l <-> forall x, In x l -> P x.
Proof.
  intros A P l. induction l as [|x l IH]; cbn [fold_right].
  - split; [intros _ ? []|auto].
  - rewrite IH. split.
    + intros [H1 H2] y [<-|Hy]; auto.
    + intros H. split; [apply H; left; reflexivity|]. intros y Hy. apply H. right. exact Hy.
Qed.
Lemma fold_max : forall A (f : A -> nat) l b, (fold_right (fun x n => Nat.max (f x) n) 0 l <= b <-> forall x, In x l -> f x <= b)%nat.
Proof.
  intros A f l b. induction l as [|x l IH]; cbn [fold_right].
  - split; [intros _ ? []|lia].
  - split.
    + intros H y [<-|Hy]; [lia|]. apply IH; [lia|assumption].
    + intros H. apply Nat.max_lub; [apply H; left; reflexivity|]. apply IH. intros y Hy. apply H. right. exact Hy.
Qed.
Lemma okb_spec : forall v d, okb d v = true <-> (d + depth v <= 32)%nat /\ clean N v.
Proof.
  apply (value_rec' (fun v => forall d, okb d v = true <-> (d + depth v <= 32)%nat /\ clean N v)); cbn [okb depth clean];
    try (intros; rewrite andb_true_r, Nat.leb_le, Nat.add_0_r; tauto).
  - intros z d. rewrite andb_true_iff, Nat.leb_le, Nat.add_0_r. destruct (back N (of_int N z)); cbn [some]; split; intros [H1 H2]; split; try assumption; try congruence. 
  - intros r d. rewrite andb_true_iff, Nat.leb_le, Nat.add_0_r. destruct (finite N r), (back N r); cbn [some negb orb]; split; intros [H1 H2]; split; try assumption; try congruence.
    exfalso. apply H2; reflexivity.
  - intros l IH d. rewrite andb_true_iff, Nat.leb_le, forallb_forall, fold_and. rewrite Forall_forall in IH. split.
    + intros [H1 H2]. assert (Hd : forall x, In x l -> (S d + depth x <= 32)%nat) by (intros x Hx; apply (IH x Hx); auto).
      split; [|intros x Hx; apply (IH x Hx (S d)); auto]. destruct l as [|y l']; [lia|]. 
      cut (fold_right (fun x n => Nat.max (depth x) n) 0 (y :: l') <= 31 - d)%nat; [pose proof (Hd y (or_introl eq_refl)); lia|].
      apply fold_max. intros x Hx. apply Hd in Hx. lia.
    + intros [H1 H2]. split; [lia|]. intros x Hx. apply (IH x Hx (S d)). split; [|auto]. destruct l as [|y l']; [destruct Hx|].
      assert (Hm : (fold_right (fun x n => Nat.max (depth x) n) 0 (y :: l') <= 31 - d)%nat) by lia.
      pose proof (proj1 (fold_max _ _ _ _) Hm x Hx). lia.
  - intros l IH d. fold (okmem (S d)). rewrite andb_true_iff, Nat.leb_le, okmem_spec, fold_and. rewrite Forall_forall in IH. split.
    + intros [H1 [H2 [_ H3]]]. assert (Hd : forall x, In x l -> (S d + depth (snd x) <= 32)%nat) by (intros x Hx; apply (IH x Hx); auto).
      split; [|split; [assumption|intros x Hx; apply (IH x Hx (S d)); auto]]. destruct l as [|y l']; [lia|]. 
      cut (fold_right (fun x n => Nat.max (depth (snd x)) n) 0 (y :: l') <= 31 - d)%nat; [pose proof (Hd y (or_introl eq_refl)); lia|].
      apply fold_max. intros x Hx. apply Hd in Hx. lia.
    + intros [H1 [H2 H3]]. split; [lia|]. split; [|split; [intros ? _ []|assumption]]. intros x Hx. apply (IH x Hx (S d)). split; [|auto]. destruct l as [|y l']; [destruct Hx|].
      assert (Hm : (fold_right (fun x n => Nat.max (depth (snd x)) n) 0 (y :: l') <= 31 - d)%nat) by lia.
      pose proof (proj1 (fold_max _ _ _ _) Hm x Hx). cbn beta in H. lia.
Qed.
End Render.
