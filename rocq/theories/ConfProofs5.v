(* Tokens make up a configuration exactly according to the grammar. *)
From Verif Require Import Base Text Monad UtfSpec NumSpec ConfModel ConfSpec.
From Verif Require Import ConfProofs1 ConfProofs2 ConfProofs3 ConfProofs4.

Local Open Scope Z_scope.

Definition stored (w : bytes) (v : cval) : Prop := number_value w = Ok v.

(* What the scanner guarantees *)
Definition number_start (c : Z) : Prop := c = 43 \/ c = 45 \/ decimal c.
Definition good (t : tok) : Prop :=
  match t with
  | TPunct c => In c (str "[]{}:=,;")
  | TWord w => exists c r, w = c :: r /\ letter c
  | TNum w => exists c r, w = c :: r /\ number_start c
  | TStr _ => True
  end.
Lemma piece_good u k nxt : piece u k nxt -> good k.
Proof.
  intros H. destruct H as [c nxt HI|c w nxt Hc HF HD|v w nxt HN|v nxt HF|v p nxt HQ]; cbn [good]; eauto.
  apply number_inv in HN. destruct HN as (sg & v' & w' & -> & -> & HP & HN).
  destruct HN as (n & i & it & f & ft & e & et & _ & -> & HI & _).
  assert (H : exists c r, it = c :: r /\ decimal c).
  { destruct HI as [u ds nx HR HU HS HT HB|n tk c u ds nx HIn Htk HR HS HT].
    - destruct HR as [|c u ds HD HR|c u ds HD HR]; [congruence|eauto..].
    - eexists _, _. split; [reflexivity|unfold decimal; lia]. }
  destruct H as (c & r & -> & HD). unfold number_start.
  destruct HP as [->|[->| ->]]; cbn [app]; eauto 6.
Qed.
Lemma lexed_good cs ts : lexed cs ts -> Forall good ts.
Proof. induction 1; constructor; [eapply piece_good; eassumption|assumption]. Qed.

Lemma good_punct t c : good t -> In c (str "[]{}:=,;") -> first_is (Z.eqb c) (code t) = true -> t = TPunct c.
Proof.
  intros HG HI H. destruct t as [x|w|w|s]; cbn [good code first_is] in *.
  - f_equal. lia.
  - destruct HG as (d & r & -> & HL). exfalso. unfold letter in HL. cbn in HI, H. lia.
  - destruct HG as (d & r & -> & HL). exfalso. unfold number_start, decimal in HL. cbn in HI, H. lia.
  - exfalso. cbn in HI. lia.
Qed.
Lemma good_not_punct t c : good t -> In c (str "[]{}:=,;") -> first_is (Z.eqb c) (code t) = false -> t <> TPunct c.
Proof. intros _ _ H ->. cbn in H. lia. Qed.

Notation S' ts := (tof (map code ts)).

Lemma separator_split ts : Forall good ts ->
  exists sep us, ts = sep ++ us /\ one_of (str ",;") sep /\ separator (S' ts) = S' us /\ Forall good us.
Proof.
  intros HG. destruct ts as [|t ts]; [exists [], []; repeat split; [left; reflexivity|constructor]|].
  inversion HG as [|? ? Ht HG']; subst. cbn [map tof separator].
  destruct (first_is (fun c => (c =? 44) || (c =? 59)) (code t)) eqn:E.
  - exists [t], ts. split; [reflexivity|]. split; [|auto]. right.
    assert (X : first_is (Z.eqb 44) (code t) = true \/ first_is (Z.eqb 59) (code t) = true).
    { unfold first_is in *. destruct (code t); [discriminate|]. lia. }
    destruct X as [X|X]; apply good_punct in X; auto; try (cbn; tauto); subst t; eexists; split; eauto; cbn; auto.
  - exists [], (t :: ts). split; [reflexivity|]. split; [left; reflexivity|]. auto.
Qed.
Lemma assigner_split ts : Forall good ts ->
  exists eq us, ts = eq ++ us /\ one_of (str ":=") eq /\ assigner (S' ts) = S' us /\ Forall good us.
Proof.
  intros HG. destruct ts as [|t ts]; [exists [], []; repeat split; [left; reflexivity|constructor]|].
  inversion HG as [|? ? Ht HG']; subst. cbn [map tof assigner].
  destruct (first_is (fun c => (c =? 58) || (c =? 61)) (code t)) eqn:E.
  - exists [t], ts. split; [reflexivity|]. split; [|auto]. right.
    assert (X : first_is (Z.eqb 58) (code t) = true \/ first_is (Z.eqb 61) (code t) = true).
    { unfold first_is in *. destruct (code t); [discriminate|]. lia. }
    destruct X as [X|X]; apply good_punct in X; auto; try (cbn; tauto); subst t; eexists; split; eauto; cbn; auto.
  - exists [], (t :: ts). split; [reflexivity|]. split; [left; reflexivity|]. auto.
Qed.

Lemma beqb_spec a b : beqb a b = true <-> a = b.
Proof. unfold beqb. destruct (list_eq_dec Z.eq_dec a b); intuition congruence. Qed.

Lemma scalar_sound d t v : good t -> scalar_value (code t) = Ok v -> val stored d [t] v.
Proof.
  intros HG H. unfold scalar_value in H. destruct t as [x|w|w|s]; cbn [good code] in *.
  - exfalso. cbn in HG. repeat destruct HG as [HG|HG]; try (subst x; discriminate). contradiction.
  - destruct HG as (c & r & -> & HL). cbn [first_is] in H. unfold letter in HL.
    replace ((c =? 43) || (c =? 45) || is_digit c) with false in H by (unfold is_digit; lia).
    replace (34 =? c) with false in H by lia.
    destruct (beqb (c :: r) (str "null")) eqn:E1; [apply beqb_spec in E1; rewrite E1; injection H as <-; constructor|].
    destruct (beqb (c :: r) (str "true")) eqn:E2; [apply beqb_spec in E2; rewrite E2; injection H as <-; constructor|].
    destruct (beqb (c :: r) (str "false")) eqn:E3; [apply beqb_spec in E3; rewrite E3; injection H as <-; constructor|].
    discriminate.
  - destruct HG as (c & r & -> & HL). cbn [first_is] in H. unfold number_start, decimal in HL.
    replace ((c =? 43) || (c =? 45) || is_digit c) with true in H by (unfold is_digit; lia).
    constructor. exact H.
  - cbn in H. injection H as <-. constructor.
Qed.
Lemma key_sound t k : good t -> key_of (code t) = Some k -> key t k.
Proof.
  intros HG H. unfold key_of in H. destruct t as [x|w|w|s]; cbn [good code] in *.
  - exfalso. cbn in HG. repeat destruct HG as [HG|HG]; try (subst x; discriminate). contradiction.
  - destruct HG as (c & r & -> & HL). cbn [first_is] in H. rewrite (proj2 (is_letter_spec c) HL) in H.
    unfold letter in HL. replace (34 =? c) with false in H by lia. injection H as <-. left. reflexivity.
  - exfalso. destruct HG as (c & r & -> & HL). cbn [first_is] in H. unfold number_start, decimal in HL.
    replace (is_letter c) with false in H by (unfold is_letter; lia). replace (34 =? c) with false in H by lia. discriminate.
  - cbn in H. injection H as <-. right. reflexivity.
Qed.
Lemma has_key_spec k l : has_key k l = true <-> In k (map fst l).
Proof.
  unfold has_key. rewrite existsb_exists, in_map_iff. split.
  - intros (e & HI & E). apply beqb_spec in E. eauto.
  - intros (e & E & HI). exists e. split; [exact HI|]. apply beqb_spec, E.
Qed.

(* An opening bracket *)
Lemma slot_array f stk r : pack (Slot f) stk (TCons [91] r) =
  if duplicate f then Throw else pack (Member (CArr [])) (f :: stk) r.
Proof.
  destruct (duplicate f) eqn:E; [destruct r; cbn [pack]; rewrite E; reflexivity|].
  destruct r as [| | | |t r]; cbn [pack]; rewrite E; try reflexivity.
  change (first_is (Z.eqb 91) [91]) with true. cbn iota. cbn [closes].
  destruct (first_is (Z.eqb 93) t); reflexivity.
Qed.
Lemma slot_object f stk r : pack (Slot f) stk (TCons [123] r) =
  if duplicate f then Throw else match r with TEnd => Throw | _ => pack (Member (CObj [])) (f :: stk) r end.
Proof.
  destruct (duplicate f) eqn:E; [destruct r; cbn [pack]; rewrite E; reflexivity|].
  destruct r as [| | | |t r]; cbn [pack]; rewrite E; try reflexivity.
  change (first_is (Z.eqb 91) [123]) with false. change (first_is (Z.eqb 123) [123]) with true. cbn iota. cbn [closes].
  destruct (first_is (Z.eqb 125) t); reflexivity.
Qed.
Lemma slot_scalar f stk t r : first_is (Z.eqb 91) t = false -> first_is (Z.eqb 123) t = false ->
  pack (Slot f) stk (TCons t r) =
  if duplicate f then Throw else do v <- scalar_value t ; pack (Member (fill f v)) stk (separator r).
Proof. intros H1 H2. cbn [pack]. rewrite H1, H2. reflexivity. Qed.
Lemma member_array l stk t r : pack (Member (CArr l)) stk (TCons t r) =
  if first_is (Z.eqb 93) t
  then match stk with [] => Throw | f :: stk' => pack (Member (fill f (VArr (rev l)))) stk' (separator r) end
  else if 32 <? Z.of_nat (length stk) then Throw else pack (Slot (FArr l)) stk (TCons t r).
Proof. reflexivity. Qed.
Lemma member_object l stk t r : pack (Member (CObj l)) stk (TCons t r) =
  if first_is (Z.eqb 125) t
  then match stk with [] => Throw | f :: stk' => pack (Member (fill f (VObj (rev l)))) stk' (separator r) end
  else if 32 <? Z.of_nat (length stk) then Throw
  else match key_of t with
       | None => Throw
       | Some k => pack (Slot (FObj l k)) stk (assigner r)
       end.
Proof. reflexivity. Qed.

(* Nothing but a complete list of tokens is accepted. *)
Fixpoint tlen (s : tstream) : nat := match s with TCons _ r => S (tlen r) | _ => O end.
Lemma separator_len s : (tlen (separator s) <= tlen s)%nat.
Proof. destruct s; cbn [separator]; try lia. destruct (first_is _ _); cbn [tlen]; lia. Qed.
Lemma assigner_len s : (tlen (assigner s) <= tlen s)%nat.
Proof. destruct s; cbn [assigner]; try lia. destruct (first_is _ _); cbn [tlen]; lia. Qed.
Definition whole (s : tstream) : Prop := exists l, s = tof l.
Lemma whole_cons t r : whole r -> whole (TCons t r).
Proof. intros [l ->]. exists (t :: l). reflexivity. Qed.
Lemma whole_separator s : whole (separator s) -> whole s.
Proof. destruct s; cbn [separator]; auto. destruct (first_is _ _); auto using whole_cons. Qed.
Lemma whole_assigner s : whole (assigner s) -> whole s.
Proof. destruct s; cbn [assigner]; auto. destruct (first_is _ _); auto using whole_cons. Qed.
Lemma pack_whole : forall n s, (tlen s <= n)%nat -> forall p stk o, pack p stk s = Ok o -> whole s.
Proof.
  induction n as [|n IH]; intros s HN p stk o H.
  - destruct s; try discriminate; [exists []; reflexivity|cbn in HN; lia].
  - destruct s as [| | | |t r]; try discriminate; [exists []; reflexivity|]. cbn [tlen] in HN.
    pose proof (separator_len r) as Lr. pose proof (assigner_len r) as La.
    apply whole_cons.
    assert (HS : forall f stk, pack (Slot f) stk (TCons t r) = Ok o -> whole r).
    { clear H p stk. intros f stk H.
      destruct (first_is (Z.eqb 91) t) eqn:E1.
      { cbn [pack] in H. rewrite E1 in H. destruct (duplicate f); [discriminate|].
        destruct r as [| | | |t' r']; try discriminate. pose proof (separator_len r'). cbn [tlen] in *.
        destruct (first_is (Z.eqb 93) t').
        - apply IH in H; [apply whole_cons, whole_separator, H|lia].
        - apply (IH (TCons t' r')) in H; [exact H|cbn [tlen]; lia]. }
      destruct (first_is (Z.eqb 123) t) eqn:E2.
      { cbn [pack] in H. rewrite E1, E2 in H. destruct (duplicate f); [discriminate|].
        destruct r as [| | | |t' r']; try discriminate. pose proof (separator_len r'). cbn [tlen] in *.
        destruct (first_is (Z.eqb 125) t').
        - apply IH in H; [apply whole_cons, whole_separator, H|lia].
        - apply (IH (TCons t' r')) in H; [exact H|cbn [tlen]; lia]. }
      rewrite slot_scalar in H by assumption. destruct (duplicate f); [discriminate|].
      apply obind_ok in H. destruct H as (v & _ & H). apply IH in H; [apply whole_separator, H|lia]. }
    destruct p as [[l|l]|f]; [| |exact (HS _ _ H)].
    + rewrite member_array in H. destruct (first_is (Z.eqb 93) t).
      * destruct stk; [discriminate|]. apply IH in H; [apply whole_separator, H|lia].
      * destruct (32 <? _); [discriminate|]. exact (HS _ _ H).
    + rewrite member_object in H. destruct (first_is (Z.eqb 125) t).
      * destruct stk; [discriminate|]. apply IH in H; [apply whole_separator, H|lia].
      * destruct (32 <? _); [discriminate|]. destruct (key_of t); [|discriminate].
        apply IH in H; [apply whole_assigner, H|lia].
Qed.

Definition sound_slot (ts : list tok) : Prop := forall f stk o, pack (Slot f) stk (S' ts) = Ok o ->
  duplicate f = false /\
  exists ts1 v r, ts = ts1 ++ r /\ ts1 <> [] /\ val stored (length stk) ts1 v /\
    pack (Member (fill f v)) stk (separator (S' r)) = Ok o.
Definition sound_array (ts : list tok) : Prop := forall l stk o, pack (Member (CArr l)) stk (S' ts) = Ok o ->
  exists ts1 l1 f stk' r, stk = f :: stk' /\ ts = ts1 ++ TPunct 93 :: r /\
    elems stored (length stk) ts1 l1 /\
    pack (Member (fill f (VArr (rev l ++ l1)))) stk' (separator (S' r)) = Ok o.
Definition sound_object (ts : list tok) : Prop := forall l stk o, pack (Member (CObj l)) stk (S' ts) = Ok o ->
  NoDup (map fst l) ->
  exists ts1 l1, members stored (length stk) ts1 l1 /\ NoDup (map fst (rev l ++ l1)) /\
    (stk = [] /\ ts = ts1 /\ o = rev l ++ l1 \/
     exists f stk' r, stk = f :: stk' /\ ts = ts1 ++ TPunct 125 :: r /\
       pack (Member (fill f (VObj (rev l ++ l1)))) stk' (separator (S' r)) = Ok o).

Lemma NoDup_rev_fst (l : list (bytes * cval)) : NoDup (map fst l) -> NoDup (map fst (rev l)).
Proof. rewrite map_rev. apply NoDup_rev. Qed.

Lemma pack_sound : forall n ts, (length ts <= n)%nat -> Forall good ts ->
  sound_slot ts /\ sound_array ts /\ sound_object ts.
Proof.
  induction n as [|n IH]; intros ts HN HG.
  { destruct ts; [|cbn in HN; lia]. split; [|split]; intros ? ? ? H; cbn in H.
    - discriminate.
    - destruct stk; discriminate.
    - intros HD. destruct stk; [|discriminate]. injection H as <-. exists [], []. split; [constructor|].
      rewrite app_nil_r. split; [apply NoDup_rev_fst, HD|]. left. auto. }
  assert (HA : sound_slot ts).
  { destruct ts as [|t ts]; [intros f stk o H; discriminate|]. cbn [length] in HN.
    inversion HG as [|? ? Ht HG']; subst.
    destruct (IH ts ltac:(lia) HG') as (_ & IHa & IHo).
    intros f stk o H. cbn [map tof] in H.
    destruct (first_is (Z.eqb 91) (code t)) eqn:E1.
    { apply (good_punct t 91 Ht ltac:(cbn; tauto)) in E1. subst t. cbn [code] in H. rewrite slot_array in H.
      destruct (duplicate f); [discriminate|]. split; [reflexivity|].
      destruct (IHa _ _ _ H) as (ts1 & l1 & f' & stk' & r & [= <- <-] & -> & HE & HP).
      exists ([TPunct 91] ++ ts1 ++ [TPunct 93]), (VArr l1), r. split; [cbn; rewrite <- app_assoc; reflexivity|].
      split; [discriminate|]. split; [constructor; exact HE|exact HP]. }
    destruct (first_is (Z.eqb 123) (code t)) eqn:E2.
    { apply (good_punct t 123 Ht ltac:(cbn; tauto)) in E2. subst t. cbn [code] in H. rewrite slot_object in H.
      destruct (duplicate f); [discriminate|]. split; [reflexivity|].
      assert (H' : pack (Member (CObj [])) (f :: stk) (S' ts) = Ok o) by (destruct ts; [discriminate|exact H]).
      destruct (IHo _ _ _ H' ltac:(constructor)) as (ts1 & l1 & HM & HD & [(? & _)|(f' & stk' & r & [= <- <-] & -> & HP)]);
        [discriminate|].
      exists ([TPunct 123] ++ ts1 ++ [TPunct 125]), (VObj l1), r. split; [cbn; rewrite <- app_assoc; reflexivity|].
      split; [discriminate|]. split; [constructor; [exact HM|exact HD]|exact HP]. }
    rewrite slot_scalar in H by assumption. destruct (duplicate f); [discriminate|]. split; [reflexivity|].
    apply obind_ok in H. destruct H as (v & Hv & H).
    exists [t], v, ts. split; [reflexivity|]. split; [discriminate|]. split; [apply scalar_sound; assumption|exact H]. }
  split; [exact HA|]. split.
  - intros l stk o H. destruct ts as [|t ts]; [destruct stk; discriminate|]. cbn [map tof] in H.
    rewrite member_array in H. inversion HG as [|? ? Ht HG']; subst.
    destruct (first_is (Z.eqb 93) (code t)) eqn:E.
    { apply (good_punct t 93 Ht ltac:(cbn; tauto)) in E. subst t. destruct stk as [|f stk']; [discriminate|].
      exists [], [], f, stk', ts. rewrite app_nil_r. repeat split; [constructor|exact H]. }
    destruct (32 <? Z.of_nat (length stk)) eqn:E32; [discriminate|].
    destruct (HA _ _ _ H) as (_ & ts1 & v & r & Ets & HN1 & HV & HP). rewrite Ets in HG.
    apply Forall_app in HG. destruct HG as [_ HGr].
    destruct (separator_split r HGr) as (sep & us & -> & HS & ES & HGu). rewrite ES in HP.
    assert (HL : (length us <= n)%nat).
    { assert (X : length (t :: ts) = length (ts1 ++ sep ++ us)) by (rewrite Ets; reflexivity).
      rewrite !app_length in X. cbn [length] in X, HN. destruct ts1; [congruence|cbn [length] in X; lia]. }
    destruct (IH us HL HGu) as (_ & IHa & _). cbn [fill] in HP.
    destruct (IHa _ _ _ HP) as (ts2 & l2 & f & stk' & r' & -> & -> & HE & HP').
    exists (ts1 ++ sep ++ ts2), (v :: l2), f, stk', r'. split; [reflexivity|].
    split; [rewrite Ets, <- !app_assoc; reflexivity|]. split; [constructor; auto; lia|].
    cbn [rev] in HP'. rewrite <- app_assoc in HP'. exact HP'.
  - intros l stk o H HD. destruct ts as [|t ts].
    { cbn in H. destruct stk; [|discriminate]. injection H as <-. exists [], []. split; [constructor|].
      rewrite app_nil_r. split; [apply NoDup_rev_fst, HD|]. left. auto. }
    cbn [map tof] in H. rewrite member_object in H. inversion HG as [|? ? Ht HG']; subst.
    destruct (first_is (Z.eqb 125) (code t)) eqn:E.
    { apply (good_punct t 125 Ht ltac:(cbn; tauto)) in E. subst t. destruct stk as [|f stk']; [discriminate|].
      exists [], []. split; [constructor|]. rewrite app_nil_r. split; [apply NoDup_rev_fst, HD|]. right.
      exists f, stk', ts. auto. }
    destruct (32 <? Z.of_nat (length stk)) eqn:E32; [discriminate|].
    destruct (key_of (code t)) as [k|] eqn:EK; [|discriminate]. apply key_sound in EK; [|exact Ht].
    destruct (assigner_split ts HG') as (eq & us & Ets & HS & ES & HGu). rewrite ES in H.
    cbn [length] in HN.
    assert (HLu : (length us <= n)%nat) by (rewrite Ets, app_length in HN; lia).
    destruct (IH us HLu HGu) as (IHs & _ & _).
    destruct (IHs _ _ _ H) as (Dup & ts1 & v & r & Eus & HN1 & HV & HP). cbn [duplicate] in Dup.
    rewrite Eus in HGu. apply Forall_app in HGu. destruct HGu as [_ HGr].
    destruct (separator_split r HGr) as (sep & us2 & -> & HS2 & ES2 & HGu2). rewrite ES2 in HP.
    assert (HL2 : (length us2 <= n)%nat) by (rewrite Eus, !app_length in HLu; lia).
    destruct (IH us2 HL2 HGu2) as (_ & _ & IHo). cbn [fill] in HP.
    assert (HD' : NoDup (map fst ((k, v) :: l))).
    { cbn [map fst]. constructor; [|exact HD]. intros X. apply has_key_spec in X. congruence. }
    destruct (IHo _ _ _ HP HD') as (ts2 & l2 & HM & HDl & Hend).
    assert (RE : rev ((k, v) :: l) ++ l2 = rev l ++ (k, v) :: l2) by (cbn [rev]; rewrite <- app_assoc; reflexivity).
    rewrite RE in *.
    exists (t :: eq ++ ts1 ++ sep ++ ts2), ((k, v) :: l2). split; [constructor; auto; lia|]. split; [exact HDl|].
    destruct Hend as [(-> & -> & ->)|(f & stk' & r' & -> & -> & HP')].
    + left. split; [reflexivity|]. split; [rewrite Ets, Eus; reflexivity|reflexivity].
    + right. exists f, stk', r'. split; [reflexivity|]. split; [|exact HP'].
      rewrite Ets, Eus. cbn [app]. rewrite <- !app_assoc. reflexivity.
Qed.

(* The other direction *)
Scheme val_mind := Minimality for val Sort Prop
  with elems_mind := Minimality for elems Sort Prop
  with members_mind := Minimality for members Sort Prop.
Combined Scheme grammar_ind from val_mind, elems_mind, members_mind.

Definition begins (l : list Z) (ts : list tok) : Prop :=
  match ts with TPunct c :: _ => In c l | _ => False end.
Lemma begins_app l ts us : ts <> [] -> begins l (ts ++ us) <-> begins l ts.
Proof. destruct ts as [|[] ts]; cbn; tauto. Qed.
Lemma val_begins d ts v : val stored d ts v -> ts <> [] /\ ~ begins (str ",;:=]}") ts.
Proof. intros H. destruct H; cbn; split; try discriminate; try tauto; lia. Qed.
Lemma separator_skip sep us : one_of (str ",;") sep -> Forall good us -> ~ begins (str ",;") us ->
  separator (S' (sep ++ us)) = S' us.
Proof.
  intros HS HG HB. destruct HS as [->|(c & HC & ->)].
  - cbn [app]. destruct us as [|t us]; [reflexivity|]. inversion HG as [|? ? Ht _]; subst. cbn [map tof separator].
    destruct (first_is (fun c => (c =? 44) || (c =? 59)) (code t)) eqn:E; [|reflexivity]. exfalso.
    assert (X : first_is (Z.eqb 44) (code t) = true \/ first_is (Z.eqb 59) (code t) = true).
    { unfold first_is in *. destruct (code t); [discriminate|]. lia. }
    destruct X as [X|X]; apply good_punct in X; auto; try (cbn; tauto); subst t; apply HB; cbn; auto.
  - cbn [app map tof separator code first_is]. cbn in HC.
    destruct HC as [<-|[<-|[]]]; reflexivity.
Qed.
Lemma assigner_skip sep us : one_of (str ":=") sep -> Forall good us -> ~ begins (str ":=") us ->
  assigner (S' (sep ++ us)) = S' us.
Proof.
  intros HS HG HB. destruct HS as [->|(c & HC & ->)].
  - cbn [app]. destruct us as [|t us]; [reflexivity|]. inversion HG as [|? ? Ht _]; subst. cbn [map tof assigner].
    destruct (first_is (fun c => (c =? 58) || (c =? 61)) (code t)) eqn:E; [|reflexivity]. exfalso.
    assert (X : first_is (Z.eqb 58) (code t) = true \/ first_is (Z.eqb 61) (code t) = true).
    { unfold first_is in *. destruct (code t); [discriminate|]. lia. }
    destruct X as [X|X]; apply good_punct in X; auto; try (cbn; tauto); subst t; apply HB; cbn; auto.
  - cbn [app map tof assigner code first_is]. cbn in HC.
    destruct HC as [<-|[<-|[]]]; reflexivity.
Qed.
Lemma begins_sub l l' ts : (forall c, In c l -> In c l') -> begins l ts -> begins l' ts.
Proof. destruct ts as [|[] ts]; cbn; auto. Qed.
Lemma key_value t k : good t -> key t k -> key_of (code t) = Some k /\ first_is (Z.eqb 125) (code t) = false.
Proof.
  intros HG [-> | ->]; cbn [good code] in *; [|split; reflexivity].
  destruct HG as (c & r & -> & HL). unfold key_of. cbn [first_is].
  rewrite (proj2 (is_letter_spec c) HL). unfold letter in HL. replace (34 =? c) with false by lia.
  split; [reflexivity|lia].
Qed.
Lemma val_not d ts v c : val stored d ts v -> Forall good ts -> In c (str "]}") ->
  exists t r, ts = t :: r /\ first_is (Z.eqb c) (code t) = false.
Proof.
  intros HV HG HC. destruct (val_begins _ _ _ HV) as [HN HB]. destruct ts as [|t r]; [congruence|].
  exists t, r. split; [reflexivity|]. destruct (first_is (Z.eqb c) (code t)) eqn:E; [|reflexivity].
  inversion HG; subst. apply good_punct in E; auto; [|cbn in *; tauto]. subst t.
  exfalso. apply HB. cbn in *. tauto.
Qed.
Lemma elems_begins d ts l r : elems stored d ts l -> ~ begins (str ",;") (ts ++ TPunct 93 :: r).
Proof.
  intros H. destruct H as [|ts v sep us l Hd HV _ _]; [cbn; lia|].
  destruct (val_begins _ _ _ HV) as [HN HB]. rewrite <- !app_assoc, begins_app by exact HN.
  intros X. apply HB. revert X. apply begins_sub. cbn. tauto.
Qed.
Lemma members_begins d ts l r : members stored d ts l -> r = [] \/ (exists r', r = TPunct 125 :: r') ->
  ~ begins (str ",;") (ts ++ r).
Proof.
  intros H Hr. destruct H as [|t k eq ts v sep us l Hd HK _ _ _ _].
  - cbn [app]. destruct Hr as [->|[r' ->]]; cbn; [tauto|lia].
  - destruct HK as [-> | ->]; cbn; tauto.
Qed.

Ltac goods := repeat match goal with
  | H : Forall good (_ ++ _) |- _ => apply Forall_app in H; destruct H
  | H : Forall good (_ :: _) |- _ => inversion H; clear H; subst
  end.

Lemma pack_complete : forall d,
  (forall ts v, val stored d ts v -> forall f stk r, length stk = d -> duplicate f = false -> Forall good (ts ++ r) ->
     pack (Slot f) stk (S' (ts ++ r)) = pack (Member (fill f v)) stk (separator (S' r))) /\
  (forall ts l1, elems stored d ts l1 -> forall l f stk r, S (length stk) = d -> Forall good (ts ++ TPunct 93 :: r) ->
     pack (Member (CArr l)) (f :: stk) (S' (ts ++ TPunct 93 :: r)) =
     pack (Member (fill f (VArr (rev l ++ l1)))) stk (separator (S' r))) /\
  (forall ts l1, members stored d ts l1 -> forall l, NoDup (map fst (rev l ++ l1)) ->
     (d = O -> Forall good ts -> pack (Member (CObj l)) [] (S' ts) = Ok (rev l ++ l1)) /\
     (forall f stk r, S (length stk) = d -> Forall good (ts ++ TPunct 125 :: r) ->
       pack (Member (CObj l)) (f :: stk) (S' (ts ++ TPunct 125 :: r)) =
       pack (Member (fill f (VObj (rev l ++ l1)))) stk (separator (S' r)))).
Proof.
  apply (grammar_ind stored).
  - intros d f stk r Hd HD HG. cbn [app map tof code]. rewrite slot_scalar by reflexivity. rewrite HD. reflexivity.
  - intros d f stk r Hd HD HG. cbn [app map tof code]. rewrite slot_scalar by reflexivity. rewrite HD. reflexivity.
  - intros d f stk r Hd HD HG. cbn [app map tof code]. rewrite slot_scalar by reflexivity. rewrite HD. reflexivity.
  - intros d w v Hv f stk r Hd HD HG. cbn [app map tof code]. inversion HG as [|? ? Ht _]; subst.
    destruct Ht as (c & w' & -> & HS). unfold number_start, decimal in HS.
    rewrite slot_scalar by (cbn [first_is]; lia). rewrite HD. unfold scalar_value. cbn [first_is].
    replace ((c =? 43) || (c =? 45) || is_digit c) with true by (unfold is_digit; lia).
    unfold stored in Hv. rewrite Hv. reflexivity.
  - intros d s f stk r Hd HD HG. cbn [app map tof code]. rewrite slot_scalar by reflexivity. rewrite HD. reflexivity.
  - intros d ts l HE IH f stk r Hd HD HG. cbn [app map tof code] in *. rewrite slot_array, HD.
    rewrite <- app_assoc in *. cbn [app] in *. inversion HG; subst.
    rewrite (IH [] f stk r) by (auto; lia). reflexivity.
  - intros d ts l HM IH HDl f stk r Hd HD HG. cbn [app map tof code] in *. rewrite slot_object, HD.
    rewrite <- app_assoc in *. cbn [app] in *. inversion HG; subst.
    replace (match S' (ts ++ TPunct 125 :: r) with
             | TEnd => Throw
             | _ => pack (Member (CObj [])) (f :: stk) (S' (ts ++ TPunct 125 :: r))
             end) with (pack (Member (CObj [])) (f :: stk) (S' (ts ++ TPunct 125 :: r)))
      by (destruct ts; reflexivity).
    destruct (IH [] HDl) as [_ IH2]. rewrite (IH2 f stk r) by (auto; lia). reflexivity.
  - intros d l f stk r Hd HG. cbn [app map tof code]. rewrite member_array, app_nil_r. reflexivity.
  - intros d ts v sep us l1 Hd HV IHv HS HE IHe l f stk r HL HG.
    replace ((ts ++ sep ++ us) ++ TPunct 93 :: r) with (ts ++ sep ++ us ++ TPunct 93 :: r) in *
      by (rewrite <- !app_assoc; reflexivity).
    pose proof HG as HG'. apply Forall_app in HG'. destruct HG' as [HGt HGr].
    pose proof HGr as HGu. apply Forall_app in HGu. destruct HGu as [_ HGu].
    destruct (val_not _ _ _ 93 HV HGt ltac:(cbn; tauto)) as (t0 & r0 & E0 & E93).
    assert (HM : pack (Member (CArr l)) (f :: stk) (S' (ts ++ sep ++ us ++ TPunct 93 :: r)) =
                 pack (Slot (FArr l)) (f :: stk) (S' (ts ++ sep ++ us ++ TPunct 93 :: r))).
    { rewrite E0. cbn [app map tof]. rewrite member_array, E93. cbn [length].
      replace (32 <? Z.of_nat (S (length stk))) with false by lia. reflexivity. }
    rewrite HM, (IHv (FArr l) (f :: stk)) by (auto; cbn; lia). cbn [fill].
    rewrite separator_skip; [|exact HS|exact HGu|eapply elems_begins; exact HE].
    rewrite IHe by assumption. cbn [rev]. rewrite <- app_assoc. reflexivity.
  - intros d l HD. split.
    + intros -> _. cbn. rewrite app_nil_r. reflexivity.
    + intros f stk r HL HG. cbn [app map tof code]. rewrite member_object, app_nil_r. reflexivity.
  - intros d t k eq ts v sep us l1 Hd HK HQ HV IHv HS HM IHm l HD.
    assert (HDup : has_key k l = false).
    { destruct (has_key k l) eqn:E; [|reflexivity]. apply has_key_spec in E. exfalso.
      rewrite map_app, map_rev in HD. cbn [map fst] in HD. apply NoDup_remove_2 in HD. apply HD, in_or_app. left.
      rewrite <- in_rev. exact E. }
    assert (RE : rev ((k, v) :: l) ++ l1 = rev l ++ (k, v) :: l1) by (cbn [rev]; rewrite <- app_assoc; reflexivity).
    specialize (IHm ((k, v) :: l)). rewrite RE in IHm. destruct (IHm HD) as [IH1 IH2].
    assert (Step : forall stk r, length stk = d -> r = [] \/ (exists r', r = TPunct 125 :: r') ->
              Forall good (t :: eq ++ ts ++ sep ++ us ++ r) ->
              pack (Member (CObj l)) stk (S' (t :: eq ++ ts ++ sep ++ us ++ r)) =
              pack (Member (CObj ((k, v) :: l))) stk (S' (us ++ r))).
    { intros stk r HL Hr HG. inversion HG as [|? ? Ht HG1]; subst. apply Forall_app in HG1. destruct HG1 as [_ HG1].
      pose proof HG1 as HG2. apply Forall_app in HG2. destruct HG2 as [HGt HG2].
      apply Forall_app in HG2. destruct HG2 as [_ HGu].
      destruct (key_value _ _ Ht HK) as [EK E125].
      cbn [map tof]. rewrite member_object, E125, EK.
      replace (32 <? Z.of_nat (length stk)) with false by lia.
      destruct (val_begins _ _ _ HV) as [HN HB].
      rewrite assigner_skip; [|exact HQ|exact HG1|].
      2:{ rewrite begins_app by exact HN. intros X. apply HB. revert X. apply begins_sub. cbn. tauto. }
      rewrite (IHv (FObj l k) stk) by (auto). cbn [fill].
      rewrite separator_skip; [reflexivity|exact HS|exact HGu|eapply members_begins; eassumption]. }
    assert (AE : forall r, (t :: eq ++ ts ++ sep ++ us) ++ r = t :: eq ++ ts ++ sep ++ us ++ r)
      by (intros r; cbn [app]; rewrite <- !app_assoc; reflexivity).
    split.
    + intros -> HG. rewrite <- (app_nil_r (t :: _)) in HG |- *. rewrite AE in *.
      rewrite Step by auto. rewrite app_nil_r. apply IH1; [reflexivity|].
      inversion HG as [|? ? _ HG1]; subst. rewrite app_nil_r in HG1.
      apply Forall_app in HG1. destruct HG1 as [_ HG1]. apply Forall_app in HG1. destruct HG1 as [_ HG1].
      apply Forall_app in HG1. tauto.
    + intros f stk r HL HG. rewrite AE in *. rewrite Step by (eauto; cbn; lia). apply IH2; [exact HL|].
      inversion HG as [|? ? _ HG1]; subst.
      apply Forall_app in HG1. destruct HG1 as [_ HG1]. apply Forall_app in HG1. destruct HG1 as [_ HG1].
      apply Forall_app in HG1. tauto.
Qed.
