(** The trajectory mode as a whole (C76). *)
From Coq Require Import ZArith List Bool Lia ZifyBool ZifyNat.
From Verif Require Import TextModel TextProofs LoadModel SimModel TrjModel TrjSpec TrjProofs TrjPlayProofs TrjRecProofs TrjPropProofs ReplayModel ReplaySpec ReplayProofs
  ReplayStageProofs OptModel.
Import ListNotations.
Open Scope Z_scope.

Section mode.
Context {Par Smp Scl V : Type}.
Variables (value : Par -> Z -> Z -> option V) (zero : V).
Notation env := (@environment Par Smp Scl).

Section process.
Variables (n step : Z) (ss : list snapshot) (content : list Z) (e : env) (input : text) (o : options).
Hypothesis F : fits n step (Z.of_nat (length ss)).
Hypothesis G : Forall (good_snapshot n) ss.
Hypothesis H : holds n ss content.
Hypothesis L : legal_options o.

Definition rest (s0 : source) : list output * ending :=
  match storeTrajectories n input (op_trajectories o) s0 [] with
  | (out1, Stop x) => (out1, x)
  | (out1, Go s1) =>
    match match op_observables o with
          | None => Go (s1, [])
          | Some (name, obs) => andThen (storeObservables value zero n e name obs s1) (fun a => Go (fst a, [snd a]))
          end with
    | Stop x => (out1, x)
    | Go (s2, out2) =>
      match match op_bulk o with
            | None => Go (s2, [])
            | Some (pattern, obs) => storeBulk n pattern obs (op_averagingStart o) s2
            end with
      | Stop x => (out1 ++ out2, x)
      | Go (s3, out3) => storeSnapshots n input (op_snapshots o) s3 (out1 ++ out2 ++ out3)
      end
    end
  end.
Lemma rest_ok k src : (k <= length ss)%nat -> kept (op_truncate o) step ss = firstn k ss -> on n step ss content k src (Shelf (firstn k ss) step 0 true) ->
  exists cs rows,
    trajectory n step (firstn k ss) (fl_bytes (perform cs (File [] 0))) /\
    match rows with
    | Some r => rows_of value zero e (cycles_of step (firstn k ss)) (numbered step 0 (firstn k ss)) r
    | None => exists f, In f (numbered step 0 (firstn k ss)) /\ forall t p, ~ state_at value zero e (snd f) (cycles_of step (firstn k ss)) t p
    end /\
    rest src = until (map (trajectory_stage step ss input o cs) (op_trajectories o) ++ observables_stage o rows ++ bulk_stage step ss o ++ snapshot_stage step ss input o).
Proof using F G H.
  intros K Ho O. destruct (written_file n step (firstn k ss)) as (cs & R & T); [apply (fits_left n step ss k F K)|apply (good_left n ss k G)|].
  destruct (rows_exist n step ss content k F G H K value zero e) as (rows & Hr & So). exists cs, rows. split; [exact T|]. split; [exact Hr|].
  unfold rest. pose proof (trajectories_ok (V := V) n step ss content k F G H K input o Ho cs R (op_trajectories o) src [] O) as TO.
  destruct (storeTrajectories n input (op_trajectories o) src []) as [out1 [s1|b]]; cbn [app] in TO.
  2:{ destruct TO as (new & -> & U). rewrite U. reflexivity. }
  destruct TO as [O1 (new & -> & U)]. rewrite U. clear U.
  assert (B : forall j s2 out12, on n step ss content k s2 (Shelf (firstn k ss) step j true) ->
    match match op_bulk o with None => Go (s2, []) | Some (pattern, obs) => storeBulk (V := V) n pattern obs (op_averagingStart o) s2 end with
    | Stop x => (out12, x)
    | Go (s3, out3) => storeSnapshots n input (op_snapshots o) s3 (out12 ++ out3)
    end = (out12 ++ fst (until (bulk_stage step ss o ++ snapshot_stage step ss input o)), snd (until (bulk_stage (V := V) step ss o ++ snapshot_stage step ss input o)))).
  { intros j s2 out12 O2. destruct (op_bulk o) as [[pattern obs]|] eqn:Eb.
    - pose proof (bulk_ok (V := V) n step ss content k F G H K o Ho s2 j pattern obs O2 Eb) as Bo. destruct (storeBulk n pattern obs (op_averagingStart o) s2) as [[s3 out3]|b].
      + destruct Bo as [O3 ->]. rewrite (snapshots_ok (V := V) n step ss content k F G H K input o Ho s3 k _ O3). cbn [app until fst snd]. rewrite app_assoc. reflexivity.
      + rewrite Bo. cbn [app until fst snd]. rewrite app_nil_r. reflexivity.
    - unfold bulk_stage at 1 2. rewrite Eb. cbn [app]. rewrite (snapshots_ok (V := V) n step ss content k F G H K input o Ho s2 j _ O2), app_nil_r. reflexivity. }
  unfold observables_stage. destruct (op_observables o) as [[name obs]|].
  - specialize (So name obs s1 O1). destruct (storeObservables value zero n e name obs s1) as [[s2 x]|b]; cbn [andThen fst snd].
    + destruct So as (O2 & -> & r & -> & ->). cbn [app until fst snd]. pose proof (B k s2 (new ++ [ObservablesFile name r]) O2) as E.
      rewrite <- !app_assoc in E. cbn [app] in E. rewrite <- E. destruct (op_bulk o) as [[pattern bo]|]; [destruct (storeBulk n pattern bo (op_averagingStart o) s2) as [[s3 out3]|b]|]; rewrite <- ?app_assoc; reflexivity.
    + destruct (is_nil obs); [subst b; cbn [app until fst snd]; rewrite app_nil_r; reflexivity|]. destruct So as [-> ->]. cbn [app until fst snd]. rewrite app_nil_r. reflexivity.
  - cbn [app]. rewrite app_nil_r. exact (B 0%nat s1 new O1).
Qed.
Lemma process_ok h : hd_particles h = n -> hd_step h = step -> hd_snapshots h = Z.of_nat (length ss) ->
  expected value zero step ss e input o n (process value zero n e input o (fresh_player h content)).
Proof using F G H L.
  intros A B C. assert (Hs : 0 < step) by apply F. assert (Ht : Z.of_nat (length ss) * step < 2 ^ 64) by apply F.
  change (process value zero n e input o (fresh_player h content)) with
    (match truncateSource (op_truncate o) (fresh_player h content) with Stop x => ([], x) | Go s0 => rest s0 end).
  pose proof (fresh_rel n step ss content h A B C) as R0. unfold expected, truncation, stages, truncation. destruct (op_truncate o) as [m|] eqn:Et.
  - unfold truncateSource, getTotalCycles. cbn [fresh_player py_header]. rewrite B, C, (Z.mul_comm step), wrap_small by nia. fold (cycles_of step ss).
    assert (step =? 0 = false) as -> by lia. destruct (Z.leb_spec m (cycles_of step ss)) as [Hm|Hm]; cbn [negb andb]; [|reflexivity].
    destruct (Z.eqb_spec (m mod step) 0) as [E0|E0]; cbn [negb]; [|reflexivity].
    pose proof (Z.div_mod m step ltac:(lia)) as D. unfold legal_options in L. rewrite Et in L. unfold is_word64 in L. unfold cycles_of in Hm. assert (0 <= m / step) by (apply Z.div_pos; lia).
    set (k := Z.to_nat (m / step)) in *. assert (Hk : (k <= length ss)%nat) by (unfold k; nia). assert (Em : m = Z.of_nat k * step) by (unfold k; nia).
    unfold newTruncated, getTotalCycles. cbn [fresh_player py_header resetPlayer py_open]. rewrite B, C, (Z.mul_comm step), wrap_small by nia.
    assert (m <=? Z.of_nat (length ss) * step = true) as -> by lia. assert (step =? 0 = false) as -> by lia. rewrite E0. cbn [negb Z.eqb obind fst orElse andThen].
    destruct (rest_ok k (Cut (Truncated (fresh_player h content) m)) Hk) as (cs & rows & T & Hr & E); [rewrite Et; reflexivity| |].
    { exists (Shelf ss step 0 true). split; [reflexivity|]. split; [exact Em|]. split; [exact R0|cbn; lia]. }
    exists cs, rows. unfold kept. fold k. split; [exact T|]. split; [exact Hr|]. cbn [until app fst snd]. etransitivity; [exact E|]. destruct (until _); reflexivity.
  - cbn [truncateSource]. destruct (rest_ok (length ss) (Whole (fresh_player h content)) (le_n _)) as (cs & rows & T & Hr & E); [rewrite Et, firstn_all; reflexivity| |].
    { rewrite firstn_all. split; [exact R0|reflexivity]. }
    rewrite firstn_all in *. exists cs, rows. unfold kept. split; [exact T|]. split; [exact Hr|]. cbn [until app fst snd]. rewrite E. destruct (until _); reflexivity.
Qed.
End process.

(** *** Environments *)
Lemma latest_snoc {A} (get : env -> option A) base envs x y : latest get base envs x -> latest get base (envs ++ [y]) (match get y with Some v => Some v | None => x end).
Proof using.
  clear. intros [(a & b & e & -> & N & -> & Fb)|[Fb ->]]; destruct (get y) as [v|] eqn:E.
  - left. exists (a ++ e :: b), [], y. split; [reflexivity|]. split; [congruence|]. split; [symmetry; exact E|constructor].
  - left. exists a, (b ++ [y]), e. split; [rewrite <- app_assoc; reflexivity|]. split; [exact N|]. split; [reflexivity|]. apply Forall_app. split; [exact Fb|]. constructor; [exact E|constructor].
  - left. exists envs, [], y. split; [reflexivity|]. split; [congruence|]. split; [symmetry; exact E|constructor].
  - right. split; [|reflexivity]. apply Forall_app. split; [exact Fb|]. constructor; [exact E|constructor].
Qed.
Lemma fold_in_force (base : env) (envs : list env) : in_force base envs (fold_left combineEnv envs base).
Proof using.
  clear. induction envs as [|y envs IH] using rev_ind; [split; [right; split; [constructor|reflexivity]|]; split; right; (split; [constructor|reflexivity])|].
  rewrite fold_left_app. cbn [fold_left]. destruct IH as (A & B & C). split; [|split]; cbn [combineEnv ev_temperature ev_pressure].
  - apply (latest_snoc ev_temperature). exact A.
  - apply (latest_snoc ev_pressure). exact B.
  - pose proof (latest_snoc has_scaler _ _ _ y C) as D. unfold has_scaler at 2 in D. unfold has_scaler at 2. cbn [combineEnv ev_scaler]. destruct (ev_scaler y); exact D.
Qed.

(** *** The run *)
Lemma find_index_spec {A} (f : A -> bool) : forall l i, (i < length l)%nat ->
  (find_index f l = i <-> (exists x, nth_error l i = Some x /\ f x = true) /\ forall j x, (j < i)%nat -> nth_error l j = Some x -> f x = false).
Proof using.
  clear. induction l as [|y l IH]; intros i Hi; [cbn in Hi; lia|]. cbn [find_index]. destruct (f y) eqn:E.
  - split.
    + intros <-. split; [exists y; split; [reflexivity|exact E]|]. intros j x Hj. lia.
    + intros [_ M]. destruct i as [|i]; [reflexivity|]. rewrite (M 0%nat y) in E by (lia || reflexivity). discriminate.
  - destruct i as [|i].
    + split; [discriminate|]. intros [(x & N & Fx) _]. injection N as ->. congruence.
    + cbn [length] in Hi. split.
      * intros Q. injection Q as Q. apply IH in Q; [|lia]. destruct Q as [(x & N & Fx) M]. split; [exists x; split; assumption|]. intros [|j] z Hj Nz; [injection Nz as <-; exact E|]. apply (M j); [lia|exact Nz].
      * intros [(x & N & Fx) M]. f_equal. apply IH; [lia|]. split; [exists x; split; assumption|]. intros j z Hj Nz. apply (M (S j)); [lia|exact Nz].
Qed.
Lemma find_index_none {A} (f : A -> bool) : forall l, Forall (fun x => f x = false) l -> find_index f l = length l.
Proof using. clear. induction 1 as [|x l E _ IH]; [reflexivity|]. cbn [find_index length]. rewrite E, IH. reflexivity. Qed.
Lemma chosen_found name (runs : list (@trun Par Smp Scl)) i r : chosen name runs i r -> findRunIndex name (map tr_run runs) = LoadModel.Done i.
Proof using.
  clear. intros [N C]. assert (Hi : (i < length runs)%nat) by (apply nth_error_Some; congruence). unfold findRunIndex. rewrite map_length. destruct (text_eqb name first_name); [subst; reflexivity|]. destruct (text_eqb name last_name).
  - destruct runs as [|y l]; [cbn in Hi; lia|]. cbn [map]. f_equal. lia.
  - destruct C as [E M]. assert (Q : find_index (fun r => text_eqb (run_name r) name) (map tr_run runs) = i).
    { apply find_index_spec; [rewrite map_length; exact Hi|]. split.
      - exists (tr_run r). split; [apply map_nth_error; exact N|]. apply text_eqb_eq. exact E.
      - intros j x Hj Nx. rewrite nth_error_map in Nx. destruct (nth_error runs j) as [r'|] eqn:Ej; [|discriminate]. injection Nx as <-. apply text_eqb_neq. apply (M j); assumption. }
    rewrite Q. assert (Nat.ltb i (length runs) = true) as -> by lia. reflexivity.
Qed.
Lemma asks_some o : asks o <-> some_option o = true.
Proof using.
  clear. unfold asks, some_option. destruct (op_info o), (op_observables o), (op_bulk o), (op_snapshots o), (op_trajectories o); cbn; split; intros Q; try reflexivity; try discriminate; auto; try (repeat destruct Q as [Q|Q]; congruence);
  try (right; left; discriminate); try (right; right; left; discriminate); try (right; right; right; left; discriminate); try (right; right; right; right; discriminate).
Qed.

Section whole.
Variables (files : text -> option (list Z)) (size : Z) (base : env) (runs : list (@trun Par Smp Scl)) (o : options).
Notation mode := (trajectoryMode value zero files size base runs o).
Lemma mode_run name i r input content : asks o -> named o runs name -> chosen name runs i r -> tr_ramtrj r = Some input -> files input = Some content ->
  mode = match loadPlayer content size (op_fix o) with Stop x => ([], x) | Go p => process value zero size (rawEnvironment base runs i) input o p end.
Proof using.
  intros As Na Ch Tr Fi. unfold trajectoryMode. apply asks_some in As. rewrite As. cbn [negb].
  assert ((match op_run o with Some n => text_eqb n auto_name | None => false end) = false /\ (match op_run o with Some n => Some n | None => defaultRunName runs end) = Some name) as [-> ->].
  { unfold named in Na. destruct (op_run o) as [m|].
    - destruct Na as [-> Na]. split; [apply text_eqb_neq; exact Na|reflexivity].
    - destruct Na as [-> Na]. split; [reflexivity|]. unfold defaultRunName. assert (Nat.ltb (length runs) 2 = true) as -> by lia. reflexivity. }
  rewrite (chosen_found name runs i r Ch). destruct Ch as [N _]. rewrite N, Tr, Fi. reflexivity.
Qed.
Lemma whole_ok name i r input content step ss : asks o -> legal_options o -> named o runs name -> chosen name runs i r -> tr_ramtrj r = Some input -> files input = Some content ->
  fits size step (Z.of_nat (length ss)) -> Forall (good_snapshot size) ss -> trajectory size step ss content ->
  exists e, in_force base (map tr_env (firstn (S i) runs)) e /\ expected value zero step ss e input o size mode.
Proof using.
  intros As L Na Ch Tr Fi F G T. rewrite (mode_run name i r input content As Na Ch Tr Fi). exists (rawEnvironment base runs i). split; [apply fold_in_force|].
  destruct (opened size step ss content F G T) as (h & E & A & B & C & H).
  assert (loadPlayer content size (op_fix o) = Go (fresh_player h content)) as ->; [|apply (process_ok size step ss content _ input o F G H L h A B C)].
  unfold loadPlayer. destruct (op_fix o).
  - assert (size =? 0 = false) as -> by (destruct F; lia). unfold openFixing. unfold openPlayer in E. destruct (readHeader content) as [h'|]; cbn [obind] in E; [|discriminate].
    destruct (Z.of_nat (length content) =? streamoffForSnapshot h' (hd_snapshots h')); cbn [negb] in E; [|discriminate]. injection E as ->. reflexivity.
  - rewrite E. cbn [fresh_player py_header]. rewrite A, Z.eqb_refl. reflexivity.
Qed.
(** A trajectory left by an interrupted process. *)
Lemma crashed_ok name i r input step append old new content cs m : asks o -> legal_options o -> named o runs name -> chosen name runs i r -> tr_ramtrj r = Some input ->
  fits size step (Z.of_nat (length (old ++ new))) -> Forall (good_snapshot size) (old ++ new) -> session size step append old content ->
  recording content size step append (numbered step (Z.of_nat (length old)) new) = Some cs ->
  files input = Some (left_after m cs content) ->
  ((length (left_after m cs content) < 33)%nat -> mode = ([], Failure)) /\
  ((33 <= length (left_after m cs content))%nat -> exists j rest, partly size (old ++ new) j rest (left_after m cs content) /\ (length old <= j)%nat /\
     exists e, in_force base (map tr_env (firstn (S i) runs)) e /\
     (op_fix o = true -> expected value zero step (firstn j (old ++ new)) e input o size mode) /\
     (op_fix o = false -> mode = ([], Failure) \/ rest = [] /\ expected value zero step (firstn j (old ++ new)) e input o size mode)).
Proof using.
  intros As L Na Ch Tr F G S R Fi. rewrite (mode_run name i r input _ As Na Ch Tr Fi). assert (Hz : size =? 0 = false) by (destruct F; lia). split.
  - intros Hl. destruct (crash_short _ size Hl) as [E1 E2]. unfold loadPlayer. rewrite Hz, E1, E2. destruct (op_fix o); reflexivity.
  - intros Hl. destruct (crash_open size step append old new content cs m F G S R Hl) as (j & rst & f & p & A1 & A2 & A3 & A4 & A5 & A6 & A7 & A8 & A9 & A10).
    exists j, rst. split; [exact A1|]. split; [exact A2|]. exists (rawEnvironment base runs i). split; [apply fold_in_force|].
    set (l := left_after m cs content) in *. destruct A1 as (Hj & _ & (hb & d & El & Lh & Db) & _).
    assert (Gj : Forall (good_snapshot size) (firstn j (old ++ new))) by (apply good_left; exact G).
    assert (Fj : fits size step (Z.of_nat (length (firstn j (old ++ new))))) by (apply fits_left; [exact F|exact Hj]).
    assert (Hh : holds size (firstn j (old ++ new)) l). { exists hb, rst. split; [|exact Lh]. apply (data_iff size) in Db; [|exact Gj]. rewrite <- Db. exact El. }
    destruct A4 as (P1 & P2 & P3 & _).
    assert (Hp : exists h, p = fresh_player h l).
    { clear - A3. unfold openFixing in A3. destruct (readHeader l) as [h|]; [|discriminate]. destruct (_ =? _); [injection A3 as _ <-; eexists; reflexivity|].
      destruct (tryFixing h _ _) as [f' [h'|]]; [injection A3 as _ <-; eexists; reflexivity|discriminate]. }
    destruct Hp as (h & ->). cbn [fresh_player py_header] in P1, P2, P3.
    pose proof (process_ok size step (firstn j (old ++ new)) l (rawEnvironment base runs i) input o Fj Gj Hh L h P1 P2 P3) as Q.
    split; intros Ef; unfold loadPlayer; rewrite Ef.
    + rewrite Hz, A3. exact Q.
    + rewrite A8. destruct (af_needed f); [left; reflexivity|]. right. split; [apply A9; reflexivity|]. cbn [fresh_player py_header]. rewrite P1, Z.eqb_refl. exact Q.
Qed.
Lemma refused_cases :
  (~ asks o -> mode = ([], Rejected)) /\
  (op_run o = Some auto_name -> mode = ([], Rejected)) /\
  (op_run o = None -> (2 <= length runs)%nat -> mode = ([], Rejected)) /\
  (forall name, op_run o = Some name -> name <> first_name -> name <> last_name -> Forall (fun r => run_name (tr_run r) <> name) runs -> mode = ([], Rejected)) /\
  (forall name i r, asks o -> named o runs name -> chosen name runs i r ->
     (tr_ramtrj r = None -> mode = ([], Rejected)) /\
     (forall input, tr_ramtrj r = Some input -> files input = None -> mode = ([], Rejected)) /\
     (forall input n step ss content, tr_ramtrj r = Some input -> files input = Some content -> fits n step (Z.of_nat (length ss)) -> Forall (good_snapshot n) ss ->
        trajectory n step ss content -> n <> size -> op_fix o = false -> mode = ([], Rejected))).
Proof using.
  assert (P : forall b, b = false -> mode = ([], Rejected) \/ b = false) by auto. clear P.
  split. { intros N. unfold trajectoryMode. destruct (some_option o) eqn:E; [apply asks_some in E; contradiction|]. reflexivity. }
  split. { intros E. unfold trajectoryMode. rewrite E, text_eqb_refl. destruct (some_option o); reflexivity. }
  split. { intros E Hl. unfold trajectoryMode, defaultRunName. rewrite E. assert (Nat.ltb (length runs) 2 = false) as -> by lia. destruct (some_option o); reflexivity. }
  split. { intros name E N1 N2 Fa. unfold trajectoryMode. rewrite E. destruct (some_option o); [|reflexivity]. cbn [negb]. destruct (text_eqb name auto_name); [reflexivity|].
    unfold findRunIndex. apply text_eqb_neq in N1, N2. rewrite N1, N2. rewrite find_index_none, map_length, Nat.ltb_irrefl; [reflexivity|].
    apply Forall_map. apply Forall_impl with (2 := Fa). intros r Hr. apply text_eqb_neq. exact Hr. }
  intros name i r As Na Ch. split; [|split].
  - intros Tr. unfold trajectoryMode. apply asks_some in As. rewrite As. cbn [negb].
    assert ((match op_run o with Some n => text_eqb n auto_name | None => false end) = false /\ (match op_run o with Some n => Some n | None => defaultRunName runs end) = Some name) as [-> ->].
    { unfold named in Na. destruct (op_run o) as [m|].
      - destruct Na as [-> Na]. split; [apply text_eqb_neq; exact Na|reflexivity].
      - destruct Na as [-> Na]. split; [reflexivity|]. unfold defaultRunName. assert (Nat.ltb (length runs) 2 = true) as -> by lia. reflexivity. }
    rewrite (chosen_found name runs i r Ch). destruct Ch as [N _]. rewrite N, Tr. reflexivity.
  - intros input Tr Fi. unfold trajectoryMode. apply asks_some in As. rewrite As. cbn [negb].
    assert ((match op_run o with Some n => text_eqb n auto_name | None => false end) = false /\ (match op_run o with Some n => Some n | None => defaultRunName runs end) = Some name) as [-> ->].
    { unfold named in Na. destruct (op_run o) as [m|].
      - destruct Na as [-> Na]. split; [apply text_eqb_neq; exact Na|reflexivity].
      - destruct Na as [-> Na]. split; [reflexivity|]. unfold defaultRunName. assert (Nat.ltb (length runs) 2 = true) as -> by lia. reflexivity. }
    rewrite (chosen_found name runs i r Ch). destruct Ch as [N _]. rewrite N, Tr, Fi. reflexivity.
  - intros input n step ss content Tr Fi F G T Nn Ef. rewrite (mode_run name i r input content As Na Ch Tr Fi). destruct (opened n step ss content F G T) as (h & E & A & _).
    unfold loadPlayer. rewrite Ef, E. cbn [fresh_player py_header]. rewrite A. destruct (Z.eqb_spec n size); [contradiction|reflexivity].
Qed.
End whole.
End mode.
