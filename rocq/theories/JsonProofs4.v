(* The parser on what the formatter writes. *)
From Verif Require Import Base UtfModel UtfSpec JsonModel JsonSpec JsonProofs1 JsonProofs2 JsonProofs3.
From Coq Require Import Lia.

Section Reads.
Variable N : numerics.
Hypothesis HN : sane N.

Definition goes (s1 : src) (stk : list frame) (tok : bytes) (v : value) (t : bytes) : Prop :=
  if okb N (length stk) v
  then exists n s2, pending s2 t /\ forall f, machine (n + f) N s1 stk (Pack tok) = machine f N s2 stk (Done (norm N v))
  else exists n, forall f, machine (n + f) N s1 stk (Pack tok) = Err.
Definition reads (s : src) (stk : list frame) (v : value) (t : bytes) : Prop :=
  exists tok s1, do_token s = Val (tok, s1) /\ eof s1 = false /\ tok <> [] /\ tok0 tok <> 93 /\ tok0 tok <> 125 /\ goes s1 stk tok v t.
Definition good (v : value) : Prop :=
  forall c ad w s t stk, blank c -> blank ad -> blank w -> delim t -> pending s (w ++ render N c ad v ++ t) -> reads s stk v t.

Lemma blank_app : forall a b, blank a -> blank b -> blank (a ++ b).
Proof. intros a b Ha Hb. unfold blank. apply Forall_app. auto. Qed.
Lemma delim_close : forall c x t, blank c -> (x = 44 \/ x = 93 \/ x = 125) -> delim (c ++ x :: t).
Proof.
  intros c x t Hc Hx. destruct c as [|y c]; cbn [app delim].
  - destruct Hx as [-> |[-> | ->]]; reflexivity.
  - apply blank_span in Hc. cbn [forallb] in Hc. apply andb_prop in Hc. destruct Hc as [-> _]. reflexivity.
Qed.

(* tokens that are complete values *)
Lemma scalar : forall v s1 tok stk t, pending s1 t ->
  (forall f, (length stk <= 32)%nat -> machine (S f) N s1 stk (Pack tok) =
     if okb N 0 v then machine f N s1 stk (Done (norm N v)) else Err) ->
  (okb N (length stk) v = (length stk <=? 32)%nat && okb N 0 v) ->
  goes s1 stk tok v t.
Proof.
  intros v s1 tok stk t Hp Hm Ho. unfold goes. rewrite Ho. destruct (length stk <=? 32)%nat eqn:E.
  - apply Nat.leb_le in E. cbn [andb]. destruct (okb N 0 v).
    + exists 1%nat, s1. split; [assumption|]. intros f. apply (Hm f E).
    + exists 1%nat. intros f. apply (Hm f E).
  - apply Nat.leb_gt in E. exists 1%nat. intros f. cbn [Nat.add machine]. replace (32 <? length stk)%nat with true by (symmetry; apply Nat.ltb_lt; lia). reflexivity.
Qed.
Lemma depth_ok : forall stk : list frame, (length stk <= 32)%nat -> (32 <? length stk)%nat = false.
Proof. intros stk H. apply Nat.ltb_ge. exact H. Qed.

Lemma good_name : forall v a, (forall c ad, render N c ad v = a) -> a <> [] -> forallb is_name a = true ->
  (forall s1 stk f, (length stk <= 32)%nat -> machine (S f) N s1 stk (Pack a) = if okb N 0 v then machine f N s1 stk (Done (norm N v)) else Err) ->
  (forall d, okb N d v = (d <=? 32)%nat && okb N 0 v) -> good v.
Proof.
  intros v a Hr Ha Hn Hm Ho c ad w s t stk Hc Had Hw Ht Hp. rewrite Hr in Hp.
  destruct (token_name s w a t Hp Hw Ha Hn Ht) as [q [H1 [H2 H3]]]. exists a, q. split; [assumption|]. split; [assumption|]. split; [assumption|].
  assert (H0 : is_name (tok0 a) = true). { destruct a; [congruence|]. cbn [forallb] in Hn. apply andb_prop in Hn. apply Hn. }
  split; [intros E; rewrite E in H0; discriminate|]. split; [intros E; rewrite E in H0; discriminate|].
  apply scalar; [assumption| |apply Ho]. intros f Hl. apply Hm. assumption.
Qed.
Lemma number_head : forall a, json_number a -> a <> [] /\ (any_of (tok0 a) [43; 45] || is_digit (tok0 a) = true).
Proof.
  intros a [sign [int [frac [exp [-> [Hs [Hi _]]]]]]]. destruct (digits_ok int Hi) as [H1 [H2 _]]. destruct int as [|c int]; [congruence|].
  cbn [forallb] in H2. apply andb_prop in H2. destruct H2 as [H2 _]. destruct Hs as [->| ->]; cbn [app tok0 nth].
  - split; [discriminate|]. unfold tok0. cbn [nth]. rewrite H2. apply orb_true_r.
  - split; [discriminate|]. reflexivity.
Qed.
Lemma number_machine : forall a s1 stk f, json_number a -> (length stk <= 32)%nat ->
  machine (S f) N s1 stk (Pack a) = match read N a with None => Err | Some r => machine f N s1 stk (Done (VReal r)) end.
Proof.
  intros a s1 stk f Ha Hl. destruct (number_head a Ha) as [_ H]. cbn [machine]. rewrite (depth_ok stk Hl).
  assert (Hx : (tok0 a =? 91) = false /\ (tok0 a =? 123) = false) by (unfold any_of, is_digit, within in H; cbn [existsb] in H; lia).
  destruct Hx as [-> ->]. rewrite H. reflexivity.
Qed.
Lemma good_number : forall v a o, (forall c ad, render N c ad v = a) -> json_number a -> read N a = o ->
  norm N v = match o with Some r => VReal r | None => VNull end -> (forall d, okb N d v = (d <=? 32)%nat && some o) -> good v.
Proof.
  intros v a o Hr Ha Ho Hn Hok c ad w s t stk Hc Had Hw Ht Hp. rewrite Hr in Hp.
  destruct (token_number s w a t Hp Hw Ha Ht) as [q [H1 [H2 H3]]]. destruct (number_head a Ha) as [Hne Hh].
  exists a, q. split; [assumption|]. split; [assumption|]. split; [assumption|].
  split; [intros E; rewrite E in Hh; discriminate|]. split; [intros E; rewrite E in Hh; discriminate|].
  apply scalar; [assumption| |].
  - intros f Hl. rewrite number_machine by assumption. rewrite (Hok 0%nat), Ho, Hn. destruct o; reflexivity.
  - rewrite (Hok (length stk)), (Hok 0%nat). reflexivity.
Qed.

(* an array after its first element *)
Lemma arr_loop : forall c ad t stk l, Forall (fun x => good x) l -> blank c -> blank ad -> delim t ->
  forall dn v s, pending s (concat (map (fun x => [44] ++ (c ++ ad) ++ render N (c ++ ad) ad x) l) ++ c ++ [93] ++ t) ->
  if forallb (okb N (S (length stk))) l
  then exists n s2, pending s2 t /\ forall f, machine (n + f) N s (FArr dn :: stk) (Done v) = machine f N s2 stk (Done (VArr (dn ++ [v] ++ map (norm N) l)))
  else exists n, forall f, machine (n + f) N s (FArr dn :: stk) (Done v) = Err.
Proof.
  intros c ad t stk l HF Hc Had Ht. induction HF as [|x l Hx HF IH]; intros dn v s Hp.
  - cbn [map concat app forallb] in *. destruct (token_punct s c 93 t Hp Hc eq_refl) as [q [H1 [H2 H3]]].
    exists 1%nat, q. split; [assumption|]. intros f. cbn [Nat.add machine]. rewrite H1. cbn [rbind]. rewrite H2. reflexivity.
  - cbn [map concat] in Hp. rewrite <- !app_assoc in Hp.
    destruct (token_punct s [] 44 _ Hp) as [q [H1 [H2 H3]]]; [constructor|reflexivity|].
    set (T := concat (map (fun x => [44] ++ (c ++ ad) ++ render N (c ++ ad) ad x) l) ++ c ++ [93] ++ t) in *.
    destruct (Hx (c ++ ad) ad (c ++ ad) q T (FArr (dn ++ [v]) :: stk)) as [tok [s1 [G1 [G2 [_ [G3 [_ G4]]]]]]]; try (apply blank_app); try assumption.
    { unfold T. destruct l as [|y l]; [apply delim_close; auto|]. cbn [map concat app delim]. reflexivity. }
    { rewrite <- app_assoc. exact H3. }
    assert (Hstep : forall f, machine (S f) N s (FArr dn :: stk) (Done v) = machine f N s1 (FArr (dn ++ [v]) :: stk) (Pack tok)).
    { intros f. cbn [machine]. rewrite H1. cbn [rbind]. rewrite H2. change (tok0 [44] =? 93) with false. change (tok0 [44] =? 44) with true. cbn [negb].
      rewrite G1. cbn [rbind]. rewrite G2. replace (tok0 tok =? 93) with false by lia. reflexivity. }
    unfold goes in G4. cbn [length] in G4. cbn [forallb]. destruct (okb N (S (length stk)) x); cbn [andb].
    + destruct G4 as [n1 [s2 [P2 M2]]]. specialize (IH (dn ++ [v]) (norm N x) s2 P2).
      destruct (forallb (okb N (S (length stk))) l).
      * destruct IH as [n2 [s3 [P3 M3]]]. exists (S (n1 + n2)), s3. split; [assumption|]. intros f.
        change (S (n1 + n2) + f)%nat with (S (n1 + n2 + f)). rewrite Hstep. rewrite <- Nat.add_assoc, M2, M3. cbn [map app]. rewrite <- !app_assoc. reflexivity.
      * destruct IH as [n2 M3]. exists (S (n1 + n2)). intros f.
        change (S (n1 + n2) + f)%nat with (S (n1 + n2 + f)). rewrite Hstep. rewrite <- Nat.add_assoc, M2, M3. reflexivity.
    + destruct G4 as [n1 M2]. exists (S n1). intros f. change (S n1 + f)%nat with (S (n1 + f)). rewrite Hstep. apply M2.
Qed.

Lemma good_arr : forall l, Forall (fun x => good x) l -> good (VArr l).
Proof.
  intros l HF c ad w s t stk Hc Had Hw Ht Hp. destruct l as [|x l].
  - cbn [render app] in Hp. destruct (token_punct s w 91 (93 :: t) Hp Hw eq_refl) as [q [H1 [H2 H3]]].
    destruct (token_punct q [] 93 t H3) as [q' [H1' [H2' H3']]]; [constructor|reflexivity|].
    exists [91], q. split; [assumption|]. split; [assumption|]. split; [discriminate|]. split; [discriminate|]. split; [discriminate|].
    unfold goes. cbn [okb forallb]. rewrite andb_true_r. destruct (length stk <=? 32)%nat eqn:E.
    + apply Nat.leb_le in E. exists 1%nat, q'. split; [assumption|]. intros f. cbn [Nat.add machine]. rewrite (depth_ok stk E).
      change (tok0 [91] =? 91) with true. cbn iota. rewrite H1'. cbn [rbind]. rewrite H2'. reflexivity.
    + apply Nat.leb_gt in E. exists 1%nat. intros f. cbn [Nat.add machine]. replace (32 <? length stk)%nat with true by (symmetry; apply Nat.ltb_lt; lia). reflexivity.
  - inversion HF as [|? ? Hx HF']; subst. cbn [render] in Hp. rewrite <- !app_assoc in Hp.
    destruct (token_punct s w 91 _ Hp Hw eq_refl) as [q [H1 [H2 H3]]].
    exists [91], q. split; [assumption|]. split; [assumption|]. split; [discriminate|]. split; [discriminate|]. split; [discriminate|].
    unfold goes. cbn [okb]. destruct (length stk <=? 32)%nat eqn:E; cbn [andb].
    + apply Nat.leb_le in E.
      set (T := concat (map (fun x => [44] ++ (c ++ ad) ++ render N (c ++ ad) ad x) l) ++ c ++ [93] ++ t) in *.
      destruct (Hx (c ++ ad) ad (c ++ ad) q T (FArr [] :: stk)) as [tok [s1 [G1 [G2 [_ [G3 [_ G4]]]]]]]; try (apply blank_app); try assumption.
      { unfold T. destruct l as [|y l]; [apply delim_close; auto|]. cbn [map concat app delim]. reflexivity. }
      { rewrite <- app_assoc. exact H3. }
      assert (Hstep : forall f, machine (S f) N q stk (Pack [91]) = machine f N s1 (FArr [] :: stk) (Pack tok)).
      { intros f. cbn [machine]. rewrite (depth_ok stk E). change (tok0 [91] =? 91) with true. cbn iota. rewrite G1. cbn [rbind]. rewrite G2.
        replace (tok0 tok =? 93) with false by lia. reflexivity. }
      unfold goes in G4. cbn [length] in G4. cbn [forallb]. destruct (okb N (S (length stk)) x); cbn [andb].
      * destruct G4 as [n1 [s2 [P2 M2]]]. pose proof (arr_loop c ad t stk l HF' Hc Had Ht [] (norm N x) s2 P2) as L.
        destruct (forallb (okb N (S (length stk))) l).
        -- destruct L as [n2 [s3 [P3 M3]]]. exists (S (n1 + n2)), s3. split; [assumption|]. intros f.
           change (S (n1 + n2) + f)%nat with (S (n1 + n2 + f)). rewrite Hstep. rewrite <- Nat.add_assoc, M2, M3. reflexivity.
        -- destruct L as [n2 M3]. exists (S (n1 + n2)). intros f.
           change (S (n1 + n2) + f)%nat with (S (n1 + n2 + f)). rewrite Hstep. rewrite <- Nat.add_assoc, M2, M3. reflexivity.
      * destruct G4 as [n1 M2]. exists (S n1). intros f. change (S n1 + f)%nat with (S (n1 + f)). rewrite Hstep. apply M2.
    + apply Nat.leb_gt in E. exists 1%nat. intros f. cbn [Nat.add machine]. replace (32 <? length stk)%nat with true by (symmetry; apply Nat.ltb_lt; lia). reflexivity.
Qed.

(* members *)
Lemma has_mem : forall k l, has_key k l = mem k (map fst l).
Proof. intros k l. unfold has_key, mem. induction l as [|x l IH]; [reflexivity|]. cbn [existsb map]. rewrite IH. reflexivity. Qed.
Lemma member_ok : forall k x c ad w s t, all_bytes k -> good x -> blank c -> blank ad -> blank w -> delim t ->
  pending s (w ++ key_text c k ++ render N c ad x ++ t) ->
  exists s1, do_token s = Val (quote :: repair k, s1) /\ eof s1 = false
    /\ forall l stk, if mem (repair k) (map fst l) then open_member l (quote :: repair k) s1 = Err
       else exists tok s2, open_member l (quote :: repair k) s1 = Val (repair k, tok, s2)
              /\ goes s2 (FObj l (repair k) :: stk) tok x t.
Proof.
  intros k x c ad w s t Hk Hx Hc Had Hw Ht Hp. unfold key_text in Hp. rewrite <- !app_assoc in Hp.
  destruct (esc_ok k Hk) as [_ Hl].
  destruct (token_string s w (esc k) (repair k) (58 :: (match c with [] => [] | _ => [32] end) ++ render N c ad x ++ t)) as [s1 [H1 [H2 H3]]]; try assumption.
  exists s1. split; [assumption|]. split; [assumption|]. intros l stk. rewrite <- has_mem. unfold open_member. change (tok0 (quote :: repair k) =? quote) with true. cbn [negb tl].
  destruct (has_key (repair k) l); [reflexivity|].
  destruct (token_punct s1 [] 58 _ H3) as [s2 [G1 [G2 G3]]]; [constructor|reflexivity|].
  destruct (Hx c ad (match c with [] => [] | _ => [32] end) s2 t (FObj l (repair k) :: stk)) as [tok [s3 [J1 [J2 [_ [_ [_ J3]]]]]]]; try assumption.
  { destruct c; repeat constructor. }
  exists tok, s3. split; [|assumption]. rewrite G1. cbn [rbind]. change (tok0 [58] =? 58) with true. cbn [negb]. rewrite J1. cbn [rbind]. rewrite J2. reflexivity.
Qed.

Definition members (c ad : bytes) (l : list (bytes * value)) : bytes :=
  concat (map (fun kx => [44] ++ (c ++ ad) ++ key_text (c ++ ad) (fst kx) ++ render N (c ++ ad) ad (snd kx)) l).
Definition normkv (kx : bytes * value) : bytes * value := (repair (fst kx), norm N (snd kx)).
Lemma members_delim : forall c ad l t, blank c -> delim (members c ad l ++ c ++ [125] ++ t).
Proof. intros c ad [|y l] t Hc; [apply delim_close; auto|]. reflexivity. Qed.
Lemma obj_loop : forall c ad t stk l, Forall (fun kx => all_bytes (fst kx) /\ good (snd kx)) l -> blank c -> blank ad -> delim t ->
  forall dn k v s, pending s (members c ad l ++ c ++ [125] ++ t) ->
  if okmem N (S (length stk)) (map fst dn ++ [k]) l
  then exists n s2, pending s2 t /\ forall f, machine (n + f) N s (FObj dn k :: stk) (Done v) = machine f N s2 stk (Done (VObj (dn ++ [(k, v)] ++ map normkv l)))
  else exists n, forall f, machine (n + f) N s (FObj dn k :: stk) (Done v) = Err.
Proof.
  intros c ad t stk l HF Hc Had Ht. induction HF as [|[kx x] l [Hk Hx] HF IH]; intros dn k v s Hp.
  - cbn [members map concat app okmem] in *. destruct (token_punct s c 125 t Hp Hc eq_refl) as [q [H1 [H2 H3]]].
    exists 1%nat, q. split; [assumption|]. intros f. cbn [Nat.add machine]. rewrite H1. cbn [rbind]. rewrite H2. reflexivity.
  - cbn [fst snd] in Hk, Hx. unfold members in Hp. cbn [map concat fst snd] in Hp. fold (members c ad l) in Hp. rewrite <- !app_assoc in Hp.
    destruct (token_punct s [] 44 _ Hp) as [q [H1 [H2 H3]]]; [constructor|reflexivity|].
    destruct (member_ok kx x (c ++ ad) ad (c ++ ad) q (members c ad l ++ c ++ [125] ++ t)) as [s1 [G1 [G2 G3]]]; try (apply blank_app); try assumption.
    { apply members_delim. assumption. }
    { rewrite <- app_assoc. exact H3. }
    specialize (G3 (dn ++ [(k, v)]) stk). rewrite map_app in G3. cbn [map fst] in G3. cbn [okmem fst snd]. fold (okmem N (S (length stk))).
    destruct (mem (repair kx) (map fst dn ++ [k])) eqn:Em; cbn [negb andb].
    + exists 1%nat. intros f. cbn [Nat.add machine]. rewrite H1. cbn [rbind]. rewrite H2. change (tok0 [44] =? 125) with false. change (tok0 [44] =? 44) with true. cbn [negb].
      rewrite G1. cbn [rbind]. rewrite G2. change (tok0 (quote :: repair kx) =? 125) with false. cbn [negb]. rewrite G3. reflexivity.
    + destruct G3 as [tok [s2 [J1 J2]]].
      assert (Hstep : forall f, machine (S f) N s (FObj dn k :: stk) (Done v) = machine f N s2 (FObj (dn ++ [(k, v)]) (repair kx) :: stk) (Pack tok)).
      { intros f. cbn [machine]. rewrite H1. cbn [rbind]. rewrite H2. change (tok0 [44] =? 125) with false. change (tok0 [44] =? 44) with true. cbn [negb].
        rewrite G1. cbn [rbind]. rewrite G2. change (tok0 (quote :: repair kx) =? 125) with false. cbn [negb]. rewrite J1. reflexivity. }
      unfold goes in J2. cbn [length] in J2. destruct (okb N (S (length stk)) x); cbn [andb].
      * destruct J2 as [n1 [s3 [P3 M3]]]. specialize (IH (dn ++ [(k, v)]) (repair kx) (norm N x) s3 P3). rewrite map_app in IH. cbn [map fst] in IH.
        destruct (okmem N (S (length stk)) ((map fst dn ++ [k]) ++ [repair kx]) l).
        -- destruct IH as [n2 [s4 [P4 M4]]]. exists (S (n1 + n2)), s4. split; [assumption|]. intros f.
           change (S (n1 + n2) + f)%nat with (S (n1 + n2 + f)). rewrite Hstep. rewrite <- Nat.add_assoc, M3, M4. cbn [map app]. rewrite <- !app_assoc. reflexivity.
        -- destruct IH as [n2 M4]. exists (S (n1 + n2)). intros f.
           change (S (n1 + n2) + f)%nat with (S (n1 + n2 + f)). rewrite Hstep. rewrite <- Nat.add_assoc, M3, M4. reflexivity.
      * destruct J2 as [n1 M3]. exists (S n1). intros f. change (S n1 + f)%nat with (S (n1 + f)). rewrite Hstep. apply M3.
Qed.
Lemma good_obj : forall l, Forall (fun kx => all_bytes (fst kx) /\ good (snd kx)) l -> good (VObj l).
Proof.
  intros l HF c ad w s t stk Hc Had Hw Ht Hp. destruct l as [|[k x] l].
  - cbn [render app] in Hp. destruct (token_punct s w 123 (125 :: t) Hp Hw eq_refl) as [q [H1 [H2 H3]]].
    destruct (token_punct q [] 125 t H3) as [q' [H1' [H2' H3']]]; [constructor|reflexivity|].
    exists [123], q. split; [assumption|]. split; [assumption|]. split; [discriminate|]. split; [discriminate|]. split; [discriminate|].
    unfold goes. cbn [okb]. rewrite andb_true_r. destruct (length stk <=? 32)%nat eqn:E.
    + apply Nat.leb_le in E. exists 1%nat, q'. split; [assumption|]. intros f. cbn [Nat.add machine]. rewrite (depth_ok stk E).
      change (tok0 [123] =? 91) with false. change (tok0 [123] =? 123) with true. cbn iota. rewrite H1'. cbn [rbind]. rewrite H2'. reflexivity.
    + apply Nat.leb_gt in E. exists 1%nat. intros f. cbn [Nat.add machine]. replace (32 <? length stk)%nat with true by (symmetry; apply Nat.ltb_lt; lia). reflexivity.
  - inversion HF as [|? ? [Hk Hx] HF']; subst. cbn [fst snd] in Hk, Hx. cbn [render fst snd] in Hp. rewrite <- !app_assoc in Hp.
    destruct (token_punct s w 123 _ Hp Hw eq_refl) as [q [H1 [H2 H3]]].
    exists [123], q. split; [assumption|]. split; [assumption|]. split; [discriminate|]. split; [discriminate|]. split; [discriminate|].
    unfold goes. cbn [okb fst snd]. fold (okmem N (S (length stk))). destruct (length stk <=? 32)%nat eqn:E; cbn [andb].
    + apply Nat.leb_le in E.
      destruct (member_ok k x (c ++ ad) ad (c ++ ad) q (members c ad l ++ c ++ [125] ++ t)) as [s1 [G1 [G2 G3]]]; try (apply blank_app); try assumption.
      { apply members_delim. assumption. }
      { rewrite <- app_assoc. exact H3. }
      specialize (G3 [] stk). cbn [map mem existsb] in G3. destruct G3 as [tok [s2 [J1 J2]]].
      assert (Hstep : forall f, machine (S f) N q stk (Pack [123]) = machine f N s2 (FObj [] (repair k) :: stk) (Pack tok)).
      { intros f. cbn [machine]. rewrite (depth_ok stk E). change (tok0 [123] =? 91) with false. change (tok0 [123] =? 123) with true. cbn iota. rewrite G1. cbn [rbind]. rewrite G2.
        change (tok0 (quote :: repair k) =? 125) with false. cbn [negb]. rewrite J1. reflexivity. }
      unfold goes in J2. cbn [length] in J2. cbn [mem existsb negb andb app]. destruct (okb N (S (length stk)) x); cbn [andb].
      * destruct J2 as [n1 [s3 [P3 M3]]]. pose proof (obj_loop c ad t stk l HF' Hc Had Ht [] (repair k) (norm N x) s3 P3) as L. cbn [map app] in L.
        destruct (okmem N (S (length stk)) [repair k] l).
        -- destruct L as [n2 [s4 [P4 M4]]]. exists (S (n1 + n2)), s4. split; [assumption|]. intros f.
           change (S (n1 + n2) + f)%nat with (S (n1 + n2 + f)). rewrite Hstep. rewrite <- Nat.add_assoc, M3, M4. reflexivity.
        -- destruct L as [n2 M4]. exists (S (n1 + n2)). intros f.
           change (S (n1 + n2) + f)%nat with (S (n1 + n2 + f)). rewrite Hstep. rewrite <- Nat.add_assoc, M3, M4. reflexivity.
      * destruct J2 as [n1 M3]. exists (S n1). intros f. change (S n1 + f)%nat with (S (n1 + f)). rewrite Hstep. apply M3.
    + apply Nat.leb_gt in E. exists 1%nat. intros f. cbn [Nat.add machine]. replace (32 <? length stk)%nat with true by (symmetry; apply Nat.ltb_lt; lia). reflexivity.
Qed.

Lemma all_good : forall v, bytes_only v -> good v.
Proof.
  apply (value_rec' (fun v => bytes_only v -> good v)).
  - intros _. apply (good_name VNull [110; 117; 108; 108]); try reflexivity; [discriminate|].
    intros s1 stk f Hl. cbn [machine]. rewrite (depth_ok stk Hl). reflexivity.
  - intros [] _.
    + apply (good_name (VBool true) [116; 114; 117; 101]); try reflexivity; [discriminate|].
      intros s1 stk f Hl. cbn [machine]. rewrite (depth_ok stk Hl). reflexivity.
    + apply (good_name (VBool false) [102; 97; 108; 115; 101]); try reflexivity; [discriminate|].
      intros s1 stk f Hl. cbn [machine]. rewrite (depth_ok stk Hl). reflexivity.
  - intros z _. apply (good_number (VInt z) (show N (of_int N z)) (back N (of_int N z))); try reflexivity.
    apply (proj1 HN). apply (proj2 HN).
  - intros r _. destruct (finite N r) eqn:E.
    + apply (good_number (VReal r) (show N r) (back N r)); try reflexivity.
      * intros c ad. cbn [render]. rewrite E. reflexivity.
      * apply (proj1 HN). assumption.
      * cbn [norm]. rewrite E. reflexivity.
      * intros d. cbn [okb]. rewrite E. reflexivity.
    + apply (good_name (VReal r) [110; 117; 108; 108]); try reflexivity; [|discriminate|].
      * intros c ad. cbn [render]. rewrite E. reflexivity.
      * intros s1 stk f Hl. cbn [machine okb norm]. rewrite (depth_ok stk Hl), E. reflexivity.
  - intros x Hx c ad w s t stk Hc Had Hw Ht Hp. cbn [bytes_only] in Hx. cbn [render] in Hp. rewrite <- !app_assoc in Hp. destruct (esc_ok x Hx) as [_ Hl].
    destruct (token_string s w (esc x) (repair x) t Hp Hw Hl) as [q [H1 [H2 H3]]].
    exists (quote :: repair x), q. split; [assumption|]. split; [assumption|]. split; [discriminate|]. split; [discriminate|]. split; [discriminate|].
    apply scalar; [assumption| |].
    + intros f Hs. cbn [machine]. rewrite (depth_ok stk Hs). reflexivity.
    + cbn [okb]. rewrite !andb_true_r. reflexivity.
  - intros _. apply (good_name VOther [110; 117; 108; 108]); try reflexivity; [discriminate|].
    intros s1 stk f Hl. cbn [machine]. rewrite (depth_ok stk Hl). reflexivity.
  - intros l IH Hb. apply good_arr. cbn [bytes_only] in Hb. rewrite fold_and in Hb. rewrite Forall_forall in *. auto.
  - intros l IH Hb. apply good_obj. cbn [bytes_only] in Hb. rewrite (fold_and _ (fun kx => all_bytes (fst kx) /\ bytes_only (snd kx))) in Hb.
    rewrite Forall_forall in *. intros kx Hk. split; [apply (Hb kx Hk)|]. apply (IH kx Hk). apply (Hb kx Hk).
Qed.

(* enough steps *)
Lemma document : forall i v w, bytes_only v -> blank (cur i) -> blank (add i) -> blank w ->
  exists tok s, do_token (mk_src (-1) false 0 (render N (cur i) (add i) v ++ w)) = Val (tok, s) /\ tok <> []
    /\ exists n, forall f, machine (n + f) N s [] (Pack tok) = if okb N 0 v then Val (norm N v) else Err.
Proof.
  intros i v w Hv Hc Ha Hw. destruct (all_good v Hv (cur i) (add i) [] (mk_src (-1) false 0 (render N (cur i) (add i) v ++ w)) w []) as [tok [s1 [H1 [H2 [H3 [_ [_ G]]]]]]]; try assumption.
  - constructor.
  - destruct w as [|c w]; [exact I|]. cbn [delim]. apply blank_span in Hw. cbn [forallb] in Hw. apply andb_prop in Hw. destruct Hw as [-> _]. reflexivity.
  - split; [reflexivity|]. left. split; [cbn; lia|reflexivity].
  - exists tok, s1. split; [assumption|]. split; [assumption|]. unfold goes in G. cbn [length] in G. destruct (okb N 0 v).
    + destruct G as [n [s2 [P M]]]. exists (n + 1)%nat. intros f. rewrite <- Nat.add_assoc, M. cbn [Nat.add machine].
      destruct (token_end s2 w P Hw) as [q [Q _]]. rewrite Q. reflexivity.
    + exact G.
Qed.
End Reads.
