From Verif Require Import Base FileModel FileSpec.

Lemma ztake_ok l : forall n, ztake n l = firstn (Z.to_nat n) l.
Proof.
  induction l as [|x l IH]; intros n; cbn [ztake]; [now rewrite firstn_nil|]. destruct (Z.leb_spec n 0).
  - now replace (Z.to_nat n) with 0%nat by lia.
  - replace (Z.to_nat n) with (S (Z.to_nat (n - 1))) by lia. cbn [firstn]. now rewrite IH.
Qed.
Lemma zdrop_ok l : forall n, zdrop n l = skipn (Z.to_nat n) l.
Proof.
  induction l as [|x l IH]; intros n; cbn [zdrop]; [now rewrite skipn_nil|]. destruct (Z.leb_spec n 0).
  - now replace (Z.to_nat n) with 0%nat by lia.
  - replace (Z.to_nat n) with (S (Z.to_nat (n - 1))) by lia. cbn [skipn]. now rewrite IH.
Qed.
Lemma firstn_self {A} n (l : list A) : firstn (length (firstn n l)) l = firstn n l.
Proof. rewrite firstn_length. destruct (Nat.min_spec n (length l)) as [[_ ->]|[H ->]]; [reflexivity|]. now rewrite firstn_all, firstn_all2. Qed.
Lemma skipn_skipn' {A} a b (l : list A) : skipn a (skipn b l) = skipn (b + a) l.
Proof. revert l. induction b as [|b IH]; intros l; [reflexivity|]. destruct l; [now rewrite !skipn_nil|]. exact (IH l). Qed.
Lemma firstn_split {A} n m (l : list A) : (n <= m)%nat -> firstn m l = firstn n l ++ firstn (m - n) (skipn n l).
Proof.
  revert m l. induction n as [|n IH]; intros m l H; [cbn; now rewrite Nat.sub_0_r|].
  destruct m as [|m]; [lia|]. destruct l as [|x l]; [cbn; now rewrite firstn_nil|]. cbn. f_equal. apply IH. lia.
Qed.

Lemma bad_false offset : possible offset -> bad_offset offset = false.
Proof. unfold possible. destruct offset; cbn; [intros H; now apply Z.ltb_ge|reflexivity]. Qed.
Lemma bad_true offset : ~ possible offset -> bad_offset offset = true.
Proof. unfold possible. destruct offset; cbn; [intros H; apply Z.ltb_lt; lia|lia]. Qed.

Section IO.
Variable io : nat -> option Z.

(* one call of read *)
Lemma sys_read_ok k c pos nb chunk : 1 <= nb -> sys_read io k c pos nb = Some chunk ->
  let R := skipn (Z.to_nat pos) c in
  chunk = firstn (length chunk) R /\ Z.of_nat (length chunk) <= nb /\ (chunk = [] -> R = []).
Proof.
  unfold sys_read. destruct (io k) as [d|]; [|discriminate]. cbn [option_map]. intros N E. injection E as <-.
  rewrite !ztake_ok, zdrop_ok. set (R := skipn (Z.to_nat pos) c). rewrite firstn_firstn. cbv zeta. split; [symmetry; apply firstn_self|].
  split; [rewrite firstn_length; lia|]. intros H. apply (f_equal (@length Z)) in H. rewrite firstn_length in H. cbn [length] in H.
  destruct R; [reflexivity|]. cbn [length] in H. lia.
Qed.
Lemma sys_read_none k c pos nb : sys_read io k c pos nb = None -> io k = None.
Proof. unfold sys_read. destruct (io k); [discriminate|reflexivity]. Qed.
Lemma next_batch_ok nbatch rlimit : 1 <= nbatch -> 1 <= rlimit -> 1 <= next_batch nbatch rlimit <= rlimit.
Proof. unfold next_batch, INT_MAX. lia. Qed.

(* what is left to be read *)
Definition left_ (c : bytes) (pos rlimit : Z) : bytes := firstn (Z.to_nat rlimit) (skipn (Z.to_nat pos) c).
Lemma left_step c pos rlimit chunk : 0 <= pos -> chunk = firstn (length chunk) (skipn (Z.to_nat pos) c) -> size chunk <= rlimit ->
  left_ c pos rlimit = chunk ++ left_ c (pos + size chunk) (rlimit - size chunk) /\
  length (skipn (Z.to_nat pos) c) = (length chunk + length (skipn (Z.to_nat (pos + size chunk)) c))%nat.
Proof.
  intros P E L. unfold left_, size in *. set (n := length chunk) in *.
  replace (Z.to_nat (pos + Z.of_nat n)) with (Z.to_nat pos + n)%nat by lia. rewrite <- skipn_skipn'.
  set (R := skipn (Z.to_nat pos) c) in *. split.
  - rewrite (firstn_split n (Z.to_nat rlimit) R) by lia. rewrite <- E. f_equal. f_equal. lia.
  - rewrite skipn_length. assert (n <= length R)%nat; [|lia]. unfold n. rewrite E, firstn_length. lia.
Qed.
Lemma left_none c pos rlimit : rlimit <= 0 -> left_ c pos rlimit = [].
Proof. intros H. unfold left_. now replace (Z.to_nat rlimit) with 0%nat by lia. Qed.
Lemma left_end c pos rlimit : skipn (Z.to_nat pos) c = [] -> left_ c pos rlimit = [].
Proof. intros H. unfold left_. now rewrite H, firstn_nil. Qed.

Lemma stream_ok (c : bytes) (use : bool) : forall fuel k fpos roffset rlimit nbatch calls pos, pos = (if use then roffset else fpos) -> 0 <= pos -> 1 <= nbatch ->
  (length (skipn (Z.to_nat pos) c) < fuel)%nat ->
  exists (more : list (Z * bytes)) (data : bytes), blocks roffset more data /\
    ((stream_loop io fuel k c use fpos roffset rlimit nbatch calls = (calls ++ more, Ok (roffset + size data)) /\ data = left_ c pos rlimit) \/
     (stream_loop io fuel k c use fpos roffset rlimit nbatch calls = (calls ++ more, Throw) /\ ~ works io /\ exists rest, left_ c pos rlimit = data ++ rest)).
Proof.
  induction fuel as [|fuel IH]; intros k fpos roffset rlimit nbatch calls pos EP P NB F; [lia|]. cbn [stream_loop].
  destruct (Z.leb_spec rlimit 0) as [L|L].
  - exists [], []. split; [reflexivity|]. left. rewrite left_none by lia. rewrite app_nil_r. split; [|reflexivity]. unfold size. cbn. now rewrite Z.add_0_r.
  - pose proof (next_batch_ok nbatch rlimit NB ltac:(lia)) as N. rewrite <- EP. destruct (sys_read io k c pos (next_batch nbatch rlimit)) as [chunk|] eqn:E.
    + apply sys_read_ok in E as (E1 & E2 & E3); [|lia]. fold (size chunk) in E2. destruct (Z.eqb_spec (size chunk) 0) as [Z0|Z0].
      * assert (C : chunk = []) by (unfold size in Z0; destruct chunk; [reflexivity|cbn in Z0; lia]).
        exists [], []. split; [reflexivity|]. left. rewrite (left_end _ _ _ (E3 C)), app_nil_r. split; [|reflexivity]. unfold size. cbn. now rewrite Z.add_0_r.
      * destruct (left_step c pos rlimit chunk P E1 ltac:(lia)) as [S1 S2].
        assert (LC : (0 < length chunk)%nat) by (unfold size in Z0; lia).
        destruct (IH (S k) (if use then fpos else fpos + size chunk) (roffset + size chunk) (rlimit - size chunk) (next_batch nbatch rlimit)
          (calls ++ [(roffset, chunk)]) (pos + size chunk)) as (more & data & B & R).
        { destruct use; lia. } { unfold size; lia. } { lia. } { lia. }
        exists ((roffset, chunk) :: more), (chunk ++ data). split.
        { cbn [blocks]. split; [reflexivity|]. split; [destruct chunk; [cbn in LC; lia|discriminate]|]. exists data. split; [reflexivity|exact B]. }
        assert (SZ : size (chunk ++ data) = size chunk + size data) by (unfold size; rewrite app_length; lia).
        rewrite <- app_assoc in R. cbn [app] in R. destruct R as [[R1 R2]|(R1 & R2 & rest & R3)].
        -- left. rewrite R1, SZ, S1, <- R2. split; [|reflexivity]. f_equal. f_equal. lia.
        -- right. rewrite R1, S1, R3. split; [reflexivity|]. split; [exact R2|]. exists rest. now rewrite app_assoc.
    + exists [], []. split; [reflexivity|]. right. rewrite app_nil_r. split; [reflexivity|]. split; [|now exists (left_ c pos rlimit)].
      intros W. exact (W k (sys_read_none _ _ _ _ E)).
Qed.
(* reading is streaming into a string *)
Lemma read_stream (c : bytes) (use : bool) : forall fuel k fpos roffset rlimit nbatch data calls,
  data = concat (map snd calls) ->
  read_loop io fuel k c use fpos roffset rlimit nbatch data =
  match stream_loop io fuel k c use fpos roffset rlimit nbatch calls with
  | (calls, Ok _) => Ok (concat (map snd calls))
  | (_, Throw) => Throw
  | (_, UB) => UB
  end.
Proof.
  induction fuel as [|fuel IH]; intros k fpos roffset rlimit nbatch data calls ->; cbn [read_loop stream_loop]; destruct (rlimit <=? 0); try reflexivity.
  destruct (sys_read io k c _ _) as [chunk|]; [|reflexivity]. destruct (size chunk =? 0); [reflexivity|].
  apply IH. rewrite map_app, concat_app. cbn. now rewrite app_nil_r.
Qed.
Lemma blocks_concat calls : forall from data, blocks from calls data -> concat (map snd calls) = data.
Proof.
  induction calls as [|[o b] calls IH]; intros from data; cbn [blocks map concat snd]; [now intros ->|].
  intros (_ & _ & rest & -> & B). f_equal. exact (IH _ _ B).
Qed.

Lemma left_part c offset limit : size c <= INT64_MAX -> bad_offset offset = false ->
  left_ c (value_or offset 0) (value_or limit INT64_MAX) = part c offset limit.
Proof.
  intros S B. unfold left_, part. assert (E : skipn (Z.to_nat (value_or offset 0)) c = match offset with Some o => skipn (Z.to_nat o) c | None => c end)
    by (destruct offset; reflexivity).
  rewrite E. destruct limit as [n|]; [reflexivity|]. cbn [value_or]. apply firstn_all2.
  assert (length (match offset with Some o => skipn (Z.to_nat o) c | None => c end) <= length c)%nat
    by (destruct offset; [rewrite skipn_length; lia|lia]).
  unfold size in S. lia.
Qed.
Lemma fs_stream_ok f p c offset limit : f p = Some c -> size c <= INT64_MAX -> bad_offset offset = false ->
  exists calls data r, fs_stream io f p offset limit = (calls, r) /\ blocks (value_or offset 0) calls data /\
  ((r = Ok (size data) /\ data = part c offset limit) \/ (r = Throw /\ ~ works io /\ exists rest, part c offset limit = data ++ rest)).
Proof.
  intros F S B. unfold fs_stream. rewrite B, F.
  assert (P0 : 0 <= value_or offset 0) by (destruct offset as [o|]; cbn in *; [apply Z.ltb_ge in B; exact B|lia]).
  assert (FU : (length (skipn (Z.to_nat (value_or offset 0)) c) < Datatypes.S (length c))%nat) by (rewrite skipn_length; lia).
  assert (EP : value_or offset 0 = if given offset then value_or offset 0 else 0) by (destruct offset; reflexivity).
  destruct (stream_ok c (given offset) (Datatypes.S (length c)) 0 0 (value_or offset 0) (value_or limit INT64_MAX) 1048576 [] (value_or offset 0)
    EP P0 ltac:(lia) FU) as (more & data & BL & [[R1 R2]|(R1 & R2 & R3)]); rewrite (left_part c offset limit S B) in *; rewrite R1.
  - exists more, data, (Ok (size data)). cbn [app]. split; [f_equal; f_equal; lia|]. split; [exact BL|]. left. auto.
  - exists more, data, Throw. split; [reflexivity|]. split; [exact BL|]. right. auto.
Qed.
Lemma fs_read_ok f p c offset limit : f p = Some c -> size c <= INT64_MAX -> bad_offset offset = false ->
  fs_read io f p offset limit = Ok (part c offset limit) \/ (fs_read io f p offset limit = Throw /\ ~ works io).
Proof.
  intros F S B. destruct (fs_stream_ok f p c offset limit F S B) as (calls & data & r & E & BL & D).
  assert (R : fs_read io f p offset limit = match r with Ok _ => Ok (concat (map snd calls)) | Throw => Throw | UB => UB end).
  { unfold fs_stream in E. unfold fs_read. rewrite B, F in *.
    match type of E with context [stream_loop ?a1 ?a2 ?a3 ?a4 ?a5 ?a6 ?a7 ?a8 ?a9 ?b] => set (X := stream_loop a1 a2 a3 a4 a5 a6 a7 a8 a9 b) in E end.
    transitivity (match X with (cs, Ok _) => Ok (concat (map snd cs)) | (_, Throw) => Throw | (_, UB) => UB end); [now apply read_stream|].
    clearbody X. destruct X as [cs [z| |]]; injection E as -> <-; reflexivity. }
  rewrite R. destruct D as [[-> ->]|(-> & W & _)]; [left; f_equal; exact (blocks_concat _ _ _ BL)|right; auto].
Qed.

(* ---- writing ---- *)
Lemma write_loop_ok : forall fuel k c data, (length data <= fuel)%nat ->
  exists k' w rest r, write_loop io fuel k c data = (k', c ++ w, r) /\ data = w ++ rest /\
  ((r = Ok tt /\ rest = []) \/ (r = Throw /\ ~ works io)).
Proof.
  induction fuel as [|fuel IH]; intros k c data F; (destruct data as [|x data]; [exists k, [], [], (Ok tt); rewrite app_nil_r; cbn; auto|]); [cbn in F; lia|].
  cbn [write_loop]. unfold sys_write. destruct (io k) as [d|] eqn:E; cbn [option_map].
  - rewrite ztake_ok, zdrop_ok. set (n := Z.to_nat (Z.max 1 d)). assert (N : (1 <= n)%nat) by (unfold n; lia).
    destruct (IH (S k) (c ++ firstn n (x :: data)) (skipn n (x :: data))) as (k' & w & rest & r & R1 & R2 & R3).
    { rewrite skipn_length. cbn [length] in *. lia. }
    exists k', (firstn n (x :: data) ++ w), rest, r. rewrite R1. split; [now rewrite app_assoc|]. split; [|exact R3].
    rewrite <- app_assoc, <- R2. symmetry. apply firstn_skipn.
  - exists (S k), [], (x :: data), Throw. rewrite app_nil_r. split; [reflexivity|]. split; [reflexivity|]. right. split; [reflexivity|].
    intros W. exact (W k E).
Qed.
Lemma path_eqb_refl p : path_eqb p p = true.
Proof. unfold path_eqb. destruct (list_eq_dec Z.eq_dec p p); congruence. Qed.
Lemma set_here f p c : set_file f p c p = Some c.
Proof. unfold set_file. now rewrite path_eqb_refl. Qed.
Lemma set_else f p c q : q <> p -> set_file f p c q = f q.
Proof. intros H. unfold set_file, path_eqb. destruct (list_eq_dec Z.eq_dec p q); congruence. Qed.
Lemma written_ok f p c data : exists f' w rest r, written io f p c data = (f', r) /\ same_elsewhere f f' p /\
  data = w ++ rest /\ f' p = Some (c ++ w) /\ ((r = Ok tt /\ rest = []) \/ (r = Throw /\ ~ works io)).
Proof.
  unfold written. destruct (write_loop_ok (length data) 0 c data (le_n _)) as (k & w & rest & r & E & D & R). rewrite E.
  exists (set_file f p (c ++ w)), w, rest, r. split; [reflexivity|]. split; [intros q H; now apply set_else|].
  split; [exact D|]. split; [apply set_here|exact R].
Qed.
Lemma truncated_ok n c : 0 <= n -> resized n c (truncated n c).
Proof.
  intros N. unfold truncated, size. rewrite ztake_ok. split.
  - rewrite app_length, firstn_length, repeat_length. lia.
  - intros i I. destruct (Nat.lt_ge_cases i (length (firstn (Z.to_nat n) c))) as [L|L].
    + rewrite app_nth1 by exact L. rewrite firstn_length in L.
      rewrite <- (firstn_skipn (Z.to_nat n) c) at 2. rewrite app_nth1; [reflexivity|]. rewrite firstn_length. exact L.
    + rewrite app_nth2 by exact L. rewrite nth_repeat. symmetry. rewrite firstn_length in L. apply nth_overflow.
      destruct (Nat.le_gt_cases (length c) i); [assumption|]. exfalso. revert I. rewrite app_length, firstn_length, repeat_length. lia.
Qed.
Lemma fs_write_ok f p offset data : bad_offset offset = false -> exists f' start w rest r,
  fs_write io f p offset data = (f', r) /\ same_elsewhere f f' p /\
  match offset with
  | None => start = []
  | Some o => resized o (match f p with Some c => c | None => [] end) start
  end /\
  data = w ++ rest /\ f' p = Some (start ++ w) /\ ((r = Ok tt /\ rest = []) \/ (r = Throw /\ ~ works io)).
Proof.
  intros B. unfold fs_write. destruct offset as [o|].
  - cbn in B. rewrite B. apply Z.ltb_ge in B. set (c := match f p with Some c => c | None => [] end).
    destruct (written_ok f p (truncated o c) data) as (f' & w & rest & r & H1 & H2 & H3 & H4 & H5).
    exists f', (truncated o c), w, rest, r. rewrite H1. repeat split; auto; now apply truncated_ok.
  - destruct (written_ok f p [] data) as (f' & w & rest & r & H1 & H2 & H3 & H4 & H5).
    exists f', [], w, rest, r. rewrite H1. repeat split; auto.
Qed.
Lemma fs_append_ok f p data exclusive : exclusive = false \/ f p = None -> exists f' w rest r,
  fs_append io f p data exclusive = (f', r) /\ same_elsewhere f f' p /\
  data = w ++ rest /\ f' p = Some (match f p with Some c => c | None => [] end ++ w) /\ ((r = Ok tt /\ rest = []) \/ (r = Throw /\ ~ works io)).
Proof.
  intros X. unfold fs_append. destruct (f p) as [c|].
  - destruct X as [->|X]; [|discriminate X]. apply written_ok.
  - apply written_ok.
Qed.

(* ---- copying ---- *)
Lemma copy_loop_ok f0 pnew pold c nbuf : pnew <> pold -> f0 pold = Some c -> 1 <= nbuf ->
  forall fuel k f fpos, same_elsewhere f0 f pnew -> 0 <= fpos -> (length (skipn (Z.to_nat fpos) c) < fuel)%nat ->
  forall done, c = done ++ skipn (Z.to_nat fpos) c -> f pnew = Some done ->
  exists f' done' rest r, copy_loop io fuel k nbuf f pnew pold fpos = (f', r) /\ same_elsewhere f0 f' pnew /\
    c = done' ++ rest /\ f' pnew = Some done' /\ ((r = Ok tt /\ rest = []) \/ (r = Throw /\ ~ works io)).
Proof.
  intros NE F0 NB. induction fuel as [|fuel IH]; intros k f fpos SE P FU done D FN; [lia|]. cbn [copy_loop].
  rewrite (SE pold ltac:(congruence)), F0, FN. destruct (sys_read io k c fpos nbuf) as [chunk|] eqn:E.
  - apply sys_read_ok in E as (E1 & E2 & E3); [|exact NB]. destruct (Z.eqb_spec (size chunk) 0) as [Z0|Z0].
    + assert (C : chunk = []) by (unfold size in Z0; destruct chunk; [reflexivity|cbn in Z0; lia]).
      exists f, done, [], (Ok tt). rewrite (E3 C) in D. split; [reflexivity|]. split; [exact SE|]. split; [exact D|]. split; [exact FN|]. left. auto.
    + assert (LC : (0 < length chunk)%nat) by (unfold size in Z0; lia).
      assert (SK : skipn (Z.to_nat fpos) c = chunk ++ skipn (Z.to_nat (fpos + size chunk)) c).
      { unfold size. replace (Z.to_nat (fpos + Z.of_nat (length chunk))) with (Z.to_nat fpos + length chunk)%nat by lia.
        rewrite <- skipn_skipn'. rewrite E1 at 1. symmetry. apply firstn_skipn. }
      destruct (write_loop_ok (length chunk) (S k) done chunk (le_n _)) as (k' & w & rest & r & W1 & W2 & W3). rewrite W1.
      assert (SE' : same_elsewhere f0 (set_file f pnew (done ++ w)) pnew) by (intros q Q; rewrite set_else by exact Q; exact (SE q Q)).
      destruct W3 as [[-> ->]|[-> W3]].
      * rewrite app_nil_r in W2. subst w. apply (IH k' _ (fpos + size chunk) SE') with (done := done ++ chunk).
        -- unfold size; lia.
        -- apply (f_equal (@length Z)) in SK. rewrite app_length in SK. lia.
        -- rewrite <- app_assoc, <- SK. exact D.
        -- apply set_here.
      * exists (set_file f pnew (done ++ w)), (done ++ w), (rest ++ skipn (Z.to_nat (fpos + size chunk)) c), Throw.
        split; [reflexivity|]. split; [exact SE'|]. split; [|split; [apply set_here|auto]].
        rewrite D at 1. rewrite SK, W2. now rewrite <- !app_assoc.
  - exists f, done, (skipn (Z.to_nat fpos) c), Throw. split; [reflexivity|]. repeat split; auto.
    right. split; [reflexivity|]. intros W. exact (W k (sys_read_none _ _ _ _ E)).
Qed.
Lemma fs_copy_ok f pnew pold c nbuf : pnew <> pold -> f pold = Some c -> 1 <= nbuf ->
  exists f' w rest r, fs_copy io f pnew pold nbuf = (f', r) /\ same_elsewhere f f' pnew /\
    c = w ++ rest /\ f' pnew = Some w /\ ((r = Ok tt /\ rest = []) \/ (r = Throw /\ ~ works io)).
Proof.
  intros NE F NB. unfold fs_copy. rewrite F. apply (copy_loop_ok f pnew pold c nbuf NE F NB) with (done := []).
  - intros q Q. now apply set_else.
  - lia.
  - cbn. lia.
  - reflexivity.
  - apply set_here.
Qed.
Lemma fs_read_bad f p offset limit : bad_offset offset = true \/ f p = None ->
  fs_read io f p offset limit = Throw /\ fs_stream io f p offset limit = ([], Throw).
Proof. unfold fs_read, fs_stream. intros [H|H]; rewrite H; [auto|]. destruct (bad_offset offset); auto. Qed.
Lemma fs_refused f p offset data pnew nbuf :
  (bad_offset offset = true -> fs_write io f p offset data = (f, Throw)) /\
  (f p <> None -> fs_append io f p data true = (f, Throw)) /\
  (f p = None -> fs_copy io f pnew p nbuf = (f, Throw)).
Proof.
  split; [|split].
  - unfold fs_write. destruct offset as [o|]; cbn; [now intros ->|discriminate].
  - unfold fs_append. destruct (f p); [reflexivity|congruence].
  - unfold fs_copy. now intros ->.
Qed.

(* in the terms of the specification *)
Lemma wrote_of start data w rest c r : data = w ++ rest -> c = Some (start ++ w) -> ((r = Ok tt /\ rest = []) \/ (r = Throw /\ ~ works io)) ->
  wrote io start data c r.
Proof.
  intros -> -> [[-> ->]|[-> W]]; [left; now rewrite app_nil_r|right]. split; [reflexivity|]. split; [exact W|]. now exists w, rest.
Qed.
Lemma write_wrote f p offset data : possible offset -> exists f' start r,
  fs_write io f p offset data = (f', r) /\ same_elsewhere f f' p /\
  match offset with
  | None => start = []
  | Some o => resized o (match f p with Some c => c | None => [] end) start
  end /\ wrote io start data (f' p) r.
Proof.
  intros B. destruct (fs_write_ok f p offset data (bad_false _ B)) as (f' & start & w & rest & r & H1 & H2 & H3 & H4 & H5 & H6).
  exists f', start, r. split; [exact H1|]. split; [exact H2|]. split; [exact H3|]. now apply (wrote_of _ _ w rest).
Qed.
Lemma append_wrote f p data exclusive : exclusive = false \/ f p = None -> exists f' r,
  fs_append io f p data exclusive = (f', r) /\ same_elsewhere f f' p /\
  wrote io (match f p with Some c => c | None => [] end) data (f' p) r.
Proof.
  intros X. destruct (fs_append_ok f p data exclusive X) as (f' & w & rest & r & H1 & H2 & H4 & H5 & H6).
  exists f', r. split; [exact H1|]. split; [exact H2|]. now apply (wrote_of _ _ w rest).
Qed.
Lemma stream_parts f p c offset limit : f p = Some c -> Z.of_nat (length c) < 2 ^ 63 -> possible offset ->
  exists calls data r, fs_stream io f p offset limit = (calls, r) /\ blocks (first offset) calls data /\
  ((r = Ok (Z.of_nat (length data)) /\ data = part c offset limit) \/ (r = Throw /\ ~ works io /\ exists rest, part c offset limit = data ++ rest)).
Proof.
  intros F L P. apply fs_stream_ok; [exact F| |now apply bad_false]. unfold size, INT64_MAX. lia.
Qed.
Lemma read_part f p c offset limit : f p = Some c -> Z.of_nat (length c) < 2 ^ 63 -> possible offset ->
  fs_read io f p offset limit = Ok (part c offset limit) \/ (fs_read io f p offset limit = Throw /\ ~ works io).
Proof.
  intros F L P. apply fs_read_ok; [exact F| |now apply bad_false]. unfold size, INT64_MAX. lia.
Qed.
Lemma read_bad f p offset limit : ~ possible offset \/ f p = None ->
  fs_read io f p offset limit = Throw /\ fs_stream io f p offset limit = ([], Throw).
Proof. intros [H|H]; apply fs_read_bad; [left; now apply bad_true|now right]. Qed.
Lemma refused f p offset data pnew nbuf :
  (~ possible offset -> fs_write io f p offset data = (f, Throw)) /\
  (f p <> None -> fs_append io f p data true = (f, Throw)) /\
  (f p = None -> fs_copy io f pnew p nbuf = (f, Throw)).
Proof.
  destruct (fs_refused f p offset data pnew nbuf) as (A & B & C). split; [|split; assumption]. intros H. apply A. now apply bad_true.
Qed.
Lemma copy_wrote f pnew pold c nbuf : pnew <> pold -> f pold = Some c -> 1 <= nbuf ->
  exists f' r, fs_copy io f pnew pold nbuf = (f', r) /\ same_elsewhere f f' pnew /\ wrote io [] c (f' pnew) r.
Proof.
  intros A B C. destruct (fs_copy_ok f pnew pold c nbuf A B C) as (f' & w & rest & r & H1 & H2 & H4 & H5 & H6).
  exists f', r. split; [exact H1|]. split; [exact H2|]. now apply (wrote_of _ _ w rest).
Qed.
End IO.

Lemma copy_self : exists f p c nbuf, f p = Some c /\ c <> [] /\ 4096 <= nbuf /\
  exists f', fs_copy (fun _ => Some 4096) f p p nbuf = (f', Ok tt) /\ f' p = Some [].
Proof.
  exists (fun _ => Some [1]), [], [1], 4096. split; [reflexivity|]. split; [discriminate|]. split; [lia|].
  eexists. split; [vm_compute; reflexivity|reflexivity].
Qed.
