(** The trajectory mode: its stages (C76). *)
From Coq Require Import ZArith List Bool Lia ZifyBool ZifyNat.
From Verif Require Import TextModel LoadModel SimModel TrjModel TrjSpec TrjProofs TrjPlayProofs TrjRecProofs TrjPropProofs ReplayModel ReplaySpec ReplayProofs OptModel.
Import ListNotations.
Open Scope Z_scope.

Lemma filter_numbered step a : 0 < step -> forall j l m, (m + Z.of_nat j) * step < a -> a <= (m + Z.of_nat j + 1) * step ->
  filter (fun f => a <=? snd f) (numbered step m l) = numbered step (m + Z.of_nat j) (skipn j l).
Proof.
  intros Hs. assert (All : forall l m, a <= (m + 1) * step -> filter (fun f => a <=? snd f) (numbered step m l) = numbered step m l).
  { induction l as [|x l IH]; intros m Ha; [reflexivity|]. cbn [numbered filter snd]. assert (a <=? (m + 1) * step = true) as -> by lia. f_equal. apply IH. nia. }
  induction j as [|j IH]; intros l m A B.
  - rewrite All by (replace (m + 1) with (m + Z.of_nat 0 + 1) by lia; exact B). cbn [skipn]. f_equal. lia.
  - destruct l as [|x l]; [reflexivity|]. cbn [numbered filter snd skipn]. assert (a <=? (m + 1) * step = false) as -> by nia.
    rewrite IH by (replace (m + 1 + Z.of_nat j) with (m + Z.of_nat (S j)) by lia; assumption). f_equal. lia.
Qed.
Lemma numbered_app step : forall a m b, numbered step m (a ++ b) = numbered step m a ++ numbered step (m + Z.of_nat (length a)) b.
Proof. induction a as [|x a IH]; intros m b; cbn [app numbered length]; [f_equal; lia|]. rewrite IH. f_equal. f_equal. f_equal. lia. Qed.
Lemma fst_numbered step : forall l m, map fst (numbered step m l) = l.
Proof. induction l as [|x l IH]; intros m; [reflexivity|]. cbn [numbered map fst]. rewrite IH. reflexivity. Qed.

Section stages.
Variables (n step : Z) (ss : list snapshot) (content : list Z) (k : nat).
Hypothesis F : fits n step (Z.of_nat (length ss)).
Hypothesis G : Forall (good_snapshot n) ss.
Hypothesis H : holds n ss content.
Hypothesis K : (k <= length ss)%nat.
Notation left_ := (firstn k ss).
Notation frames := (numbered step 0 left_).
Notation at_ i := (Shelf left_ step i true).
Notation on' := (on n step ss content k).
Notation total := (cycles_of step left_).

Lemma left_length' : length left_ = k.
Proof using K. rewrite firstn_length. apply Nat.min_l. exact K. Qed.
Lemma enough_left src s : on' src s -> (length left_ <= enough src)%nat.
Proof using F K. intros O. destruct (on_view n step ss content k F K src s O) as (_ & _ & _ & _ & _ & E & _). unfold enough. rewrite E, Nat2Z.id, left_length'. lia. Qed.
Lemma replay_all {X} (use : snapshot -> Z -> Z -> X -> option X) src x : on' src (at_ 0) ->
  match run_uses step ss k use frames x with
  | Some x' => exists src', replay (enough src) n use src x = Go (src', x') /\ on' src' (at_ k)
  | None => replay (enough src) n use src x = Stop Violated
  end.
Proof using F G H K. intros O. apply (replay_runs n step ss content k F G H K use left_ 0 (enough src) src x eq_refl O); [apply (enough_left src _ O)|lia]. Qed.
Lemma fits_left : fits n step (Z.of_nat (length left_)).
Proof using F K. rewrite left_length'. apply (fits_le _ _ _ _ F). lia. Qed.
Lemma good_left : Forall (good_snapshot n) left_.
Proof using G. apply Forall_forall. intros x I. rewrite Forall_forall in G. apply G. rewrite <- (firstn_skipn k ss). apply in_or_app. left. exact I. Qed.

(** *** Recording *)
Lemma record_uses : forall fs r acc,
  run_uses step ss k (fun snap cycles _ x => a <- recordSnapshot snap cycles (fst x) ;; Some (fst a, snd x ++ snd a)) fs (r, acc) =
  (b <- recordAll fs r ;; Some (fst b, acc ++ snd b)).
Proof using.
  clear. induction fs as [|f fs IH]; intros r acc; cbn [run_uses recordAll obind fst snd]; [rewrite app_nil_r; reflexivity|].
  destruct (recordSnapshot (fst f) (snd f) r) as [[r' cs]|]; cbn [obind fst snd]; [|reflexivity]. rewrite IH.
  destruct (recordAll fs r') as [[r2 cs2]|]; cbn [obind fst snd]; [|reflexivity]. rewrite app_assoc. reflexivity.
Qed.
Lemma frame_uses : forall fs acc, run_uses step ss k (fun snap cycles _ x => Some (x ++ [(snap, cycles)])) fs acc = Some (acc ++ fs).
Proof using.
  clear. induction fs as [|f fs IH]; intros acc; cbn [run_uses obind]; [rewrite app_nil_r; reflexivity|]. rewrite IH, <- app_assoc. destruct f. reflexivity.
Qed.
Lemma snap_uses : forall fs acc, run_uses step ss k (fun snap _ _ x => Some (x ++ [snap])) fs acc = Some (acc ++ map fst fs).
Proof using. clear. induction fs as [|f fs IH]; intros acc; cbn [run_uses obind map]; [rewrite app_nil_r; reflexivity|]. rewrite IH, <- app_assoc. reflexivity. Qed.

Lemma reset_on src : on' src (at_ k) -> exists src', call n Reset src = Some (src', Done) /\ on' src' (at_ 0).
Proof using F G H K. intros O. exact (call_on n step ss content k F G H K src (at_ k) Reset O Logic.I). Qed.

Lemma starting a : step <= a < total -> exists i, (i < k)%nat /\ startingCycle a step = Z.of_nat (S i) * step /\
  Z.of_nat i * step < a /\ a <= (Z.of_nat i + 1) * step.
Proof using F K.
  intros [A B]. unfold cycles_of in B. rewrite left_length' in B. destruct F as (_ & Hs & _ & _ & _ & Ht). unfold startingCycle.
  pose proof (Z.div_mod a step ltac:(lia)) as D. pose proof (Z.mod_pos_bound a step Hs) as M. set (q := a / step) in *. set (r := a mod step) in *.
  assert (Hq : 0 < q) by nia. assert (Hm : Z.of_nat k * step <= Z.of_nat (length ss) * step) by nia. destruct (Z.eqb_spec r 0) as [E|E].
  - exists (Z.to_nat (q - 1)). split; [apply Nat2Z.inj_lt; nia|]. split; [nia|]. split; nia.
  - exists (Z.to_nat q). assert (q < Z.of_nat k) by nia. split; [lia|]. rewrite (wrap_small (q + 1)), wrap_small by nia. split; [nia|]. split; nia.
Qed.
Lemma last_frame l : l <> [] -> exists s, nth_error l (length l - 1) = Some s /\ exists r, rev (numbered step 0 l) = (s, Z.of_nat (length l) * step) :: r.
Proof using.
  clear. intros Hl. destruct (exists_last Hl) as (a & s & ->). exists s. rewrite app_length. cbn [length]. rewrite Nat.add_sub. split.
  - rewrite nth_error_app2, Nat.sub_diag by lia. reflexivity.
  - exists (rev (numbered step 0 a)). rewrite numbered_app, rev_app_distr. cbn [numbered rev app]. f_equal. f_equal. lia.
Qed.
Context {Par Smp Scl V : Type}.
Variables (value : Par -> Z -> Z -> option V) (zero : V).
Notation env := (@environment Par Smp Scl).
Variables (e : env) (input : text) (o : options).
Hypothesis Ho : kept (op_truncate o) step ss = left_.
Lemma trajectory_ok src out cs : on' src (at_ 0) -> recording [] n step false frames = Some cs ->
  match storeTrajectory (V := V) n input out src with
  | Go (src', x) => on' src' (at_ 0) /\ trajectory_stage step ss input o cs out = inr [x]
  | Stop x => trajectory_stage (V := V) step ss input o cs out = inl x
  end.
Proof using F G H K Ho.
  intros O R. unfold storeTrajectory, trajectory_stage. rewrite Ho. destruct (text_eqb (snd out) input); [reflexivity|].
  destruct (on_view n step ss content k F K src _ O) as (_ & _ & _ & E1 & E2 & _). destruct (fst out).
  - unfold recording in R. rewrite E1, E2. destruct (newRecorder [] n step false) as [[r c0]|]; cbn [obind] in R; [|discriminate]. cbn [orElse andThen fst snd] in *.
    pose proof (replay_all (fun snap cycles _ x => a <- recordSnapshot snap cycles (fst x) ;; Some (fst a, snd x ++ snd a)) src (r, c0) O) as U. rewrite record_uses in U.
    destruct (recordAll frames r) as [[r' c1]|]; cbn [obind fst snd] in *; [|discriminate]. injection R as <-. destruct U as (src' & -> & O'). cbn [andThen fst snd].
    destruct (reset_on src' O') as (src2 & -> & O2). split; [exact O2|]. rewrite <- app_assoc. reflexivity.
  - pose proof (replay_all (fun snap cycles _ x => Some (x ++ [(snap, cycles)])) src [] O) as U. rewrite frame_uses in U. destruct U as (src' & -> & O'). cbn [andThen fst snd].
    destruct (reset_on src' O') as (src2 & -> & O2). split; [exact O2|reflexivity].
Qed.
Lemma trajectories_ok cs : recording [] n step false frames = Some cs -> forall outs src done, on' src (at_ 0) ->
  match storeTrajectories (V := V) n input outs src done with
  | (x, Go src') => on' src' (at_ 0) /\ exists new, x = done ++ new /\
      forall more, until (map (trajectory_stage step ss input o cs) outs ++ more) = (new ++ fst (until more), snd (until more))
  | (x, Stop b) => exists new, x = done ++ new /\ forall more, until (map (trajectory_stage step ss input o cs) outs ++ more) = (new, b)
  end.
Proof using F G H K Ho.
  intros R. induction outs as [|out outs IH]; intros src done O; cbn [storeTrajectories map].
  - split; [exact O|]. exists []. rewrite app_nil_r. split; [reflexivity|]. intros more. cbn [app]. destruct (until more); reflexivity.
  - pose proof (trajectory_ok src out cs O R) as T. destruct (storeTrajectory n input out src) as [[src' x]|b].
    + destruct T as [O' T]. specialize (IH src' (done ++ [x]) O'). destruct (storeTrajectories n input outs src' (done ++ [x])) as [y [src2|b]].
      * destruct IH as [O2 (new & -> & U)]. split; [exact O2|]. exists (x :: new). rewrite <- app_assoc. split; [reflexivity|]. intros more. cbn [app until]. rewrite T, U. reflexivity.
      * destruct IH as (new & -> & U). exists (x :: new). rewrite <- app_assoc. split; [reflexivity|]. intros more. cbn [app until]. rewrite T, U. reflexivity.
    + exists []. rewrite app_nil_r. split; [reflexivity|]. intros more. cbn [app until]. rewrite T. reflexivity.
Qed.

(** *** Observables *)
Lemma thermo_some cycle t p : thermodynamic value zero e cycle total = Some (t, p) <-> state_at value zero e cycle total t p.
Proof using.
  clear. unfold thermodynamic, state_at. split.
  - destruct (ev_temperature e) as [x|]; cbn [obind]; [|discriminate]. destruct (value x cycle _) as [v|] eqn:E1; cbn [obind]; [|discriminate].
    destruct (ev_scaler e) as [| |sc]; cbn [obind]; try (intros E; injection E as <- <-; split; [exists x; split; [reflexivity|assumption]|reflexivity]).
    destruct (ev_pressure e) as [y|]; cbn [obind]; [|discriminate]. destruct (value y cycle _) as [w|] eqn:E2; cbn [obind]; [|discriminate].
    intros E. injection E as <- <-. split; eexists; split; reflexivity || assumption.
  - intros ((x & -> & E1) & P). cbn [obind]. rewrite E1. cbn [obind]. destruct (ev_scaler e); [subst; reflexivity|subst; reflexivity|].
    destruct P as (y & -> & E2). cbn [obind]. rewrite E2. reflexivity.
Qed.
Lemma row_uses : forall fs acc,
  match run_uses step ss k (fun snap cycles tot x => tp <- thermodynamic value zero e cycles tot ;; Some (x ++ [(snap, cycles, tp)])) fs acc with
  | Some x => exists rows, x = acc ++ rows /\ rows_of value zero e total fs rows
  | None => exists f, In f fs /\ forall t p, ~ state_at value zero e (snd f) total t p
  end.
Proof using.
  induction fs as [|f fs IH]; intros acc; cbn [run_uses].
  - exists []. rewrite app_nil_r. split; [reflexivity|constructor].
  - destruct (thermodynamic value zero e (snd f) total) as [[t p]|] eqn:T; cbn [obind].
    + specialize (IH (acc ++ [(fst f, snd f, (t, p))])). destruct (run_uses _ _ _ _ fs _) as [x|].
      * destruct IH as (rows & -> & R). exists ((fst f, snd f, (t, p)) :: rows). rewrite <- app_assoc. split; [reflexivity|]. constructor; [|exact R].
        cbn [fst snd]. split; [destruct f; reflexivity|]. apply thermo_some. exact T.
      * destruct IH as (g & I & N). exists g. split; [right; exact I|exact N].
    + exists f. split; [left; reflexivity|]. intros t p S. apply thermo_some in S. congruence.
Qed.
Lemma rows_exist : exists rows : option (list (snapshot * Z * (V * V))),
  (match rows with
   | Some r => rows_of value zero e total frames r
   | None => exists f, In f frames /\ forall t p, ~ state_at value zero e (snd f) total t p
   end) /\
  forall name obs src, on' src (at_ 0) ->
    match storeObservables value zero n e name obs src with
    | Go (src', x) => on' src' (at_ k) /\ is_nil obs = false /\ exists r, rows = Some r /\ x = ObservablesFile name r
    | Stop b => if is_nil obs then b = Rejected else rows = None /\ b = Violated
    end.
Proof using F G H K.
  set (use := fun snap cycles tot (x : list (snapshot * Z * (V * V))) => tp <- thermodynamic value zero e cycles tot ;; Some (x ++ [(snap, cycles, tp)])).
  exists (run_uses step ss k use frames []). split.
  - pose proof (row_uses frames []) as R. fold use in R. destruct (run_uses step ss k use frames []) as [x|]; [destruct R as (rows & -> & R); exact R|exact R].
  - intros name obs src O. unfold storeObservables. destruct obs as [|ob obs]; [reflexivity|]. pose proof (replay_all use src [] O) as U. fold use.
    destruct (run_uses step ss k use frames []) as [x|].
    + destruct U as (src' & -> & O'). cbn [andThen fst snd]. split; [exact O'|]. split; [reflexivity|]. exists x. split; reflexivity.
    + rewrite U. cbn [andThen is_nil]. split; reflexivity.
Qed.

(** *** Averaging *)
Lemma bulk_ok src j pattern obs : on' src (at_ j) -> op_bulk o = Some (pattern, obs) ->
  match storeBulk (V := V) n pattern obs (op_averagingStart o) src with
  | Go (src', x) => on' src' (at_ k) /\ bulk_stage step ss o = [inr x]
  | Stop b => bulk_stage (V := V) step ss o = [inl b]
  end.
Proof using F G H K Ho.
  clear value zero e. intros O B. unfold bulk_stage, storeBulk. rewrite B, Ho. destruct obs as [|ob obs]; [destruct (op_averagingStart o); reflexivity|]. destruct (op_averagingStart o) as [a|]; [|reflexivity].
  destruct (on_view n step ss content k F K src _ O) as (_ & _ & E0 & E1 & _). unfold sf_count in E0. cbn [sf_all sf_step] in E0. rewrite E0, E1. change (Z.of_nat (length left_) * step) with total. cbn [is_nil orb].
  destruct (Z.leb_spec total a) as [|H1]; [reflexivity|]. destruct (Z.ltb_spec a step) as [|H2]; [reflexivity|]. cbn [orb]. assert (Hs : 0 < step) by apply F.
  assert (step =? 0 = false) as -> by lia. destruct (starting a ltac:(lia)) as (i & Hi & Es & A1 & A2). rewrite Es.
  assert (W : is_word64 (Z.of_nat (S i) * step)). { unfold is_word64. destruct F as (_ & _ & _ & _ & _ & Ht). nia. }
  pose proof (call_on n step ss content k F G H K src (at_ j) (Jump (Z.of_nat (S i) * step)) O W) as C. cbn [shelf_move sf_step] in C. rewrite Z.mod_mul in C by lia.
  assert (0 <? Z.of_nat (S i) * step = true) as P by nia. rewrite P in C. cbn [Z.eqb andb] in C. rewrite Z.div_mul in C by lia. replace (Z.to_nat (Z.of_nat (S i) - 1)) with i in C by lia. unfold show in C. cbn [sf_all sf_open sf_step] in C.
  destruct (nth_error left_ i) as [s|] eqn:N; [|apply nth_error_None in N; rewrite left_length' in N; lia]. destruct C as (src' & -> & O').
  assert (E : skipn i left_ = s :: skipn (S i) left_).
  { clear - N. revert N. generalize left_ as l. revert i. induction i as [|i IH]; intros l N; destruct l as [|y l]; try discriminate.
    - injection N as ->. reflexivity. 
    - cbn [skipn]. apply IH. exact N. }
  assert (Hlen : (length (skipn (S i) left_) <= enough src')%nat). { pose proof (enough_left src' _ O'). rewrite skipn_length. lia. }
  pose proof (replay_runs n step ss content k F G H K (fun snap _ _ x => Some (x ++ [snap])) (skipn (S i) left_) (S i) (enough src') src' [s] eq_refl O' Hlen ltac:(lia)) as U.
  rewrite snap_uses in U. destruct U as (src2 & -> & O2). cbn [andThen fst snd]. split; [exact O2|]. f_equal. f_equal. apply map_ext. intros name. f_equal.
  rewrite (filter_numbered step a Hs i left_ 0) by (rewrite Z.add_0_l; assumption). rewrite !fst_numbered. exact E.
Qed.

(** *** The last snapshot *)
Lemma write_ok frame : forall names done,
  let r := until (map (fun name => if text_eqb name input then inl Rejected else inr [SnapshotFile (V := V) name frame]) names) in
  writeSnapshots input names frame done = (done ++ fst r, snd r).
Proof using.
  clear. induction names as [|m names IH]; intros done; cbn [writeSnapshots map until fst snd]; [rewrite app_nil_r; reflexivity|].
  destruct (text_eqb m input); cbn [until fst snd]; [rewrite app_nil_r; reflexivity|]. rewrite IH, <- app_assoc. reflexivity.
Qed.
Lemma snapshots_ok src j done : on' src (at_ j) ->
  storeSnapshots (V := V) n input (op_snapshots o) src done = (done ++ fst (until (snapshot_stage step ss input o)), snd (until (snapshot_stage (V := V) step ss input o))).
Proof using F G H K Ho.
  clear value zero e. intros O. unfold snapshot_stage, storeSnapshots. rewrite Ho. destruct (op_snapshots o) as [|m names]; [cbn [until fst snd]; rewrite app_nil_r; reflexivity|].
  pose proof (call_on n step ss content k F G H K src (at_ j) Last O Logic.I) as C. cbn [shelf_move sf_all] in C. destruct left_ as [|x l] eqn:E.
  - destruct C as (src' & -> & _). cbn [numbered rev until fst snd]. rewrite app_nil_r. reflexivity.
  - rewrite <- E in *. destruct (last_frame left_) as (s & N & r & R); [rewrite E; discriminate|]. unfold show in C. cbn [sf_all sf_open sf_step] in C. rewrite N in C. destruct C as (src' & -> & O').
    rewrite R. destruct (on_view n step ss content k F K src' _ O') as (_ & V2 & _). cbn [sf_shown sf_step] in V2. rewrite V2.
    replace (S (length left_ - 1)) with (length left_) by (rewrite E; cbn [length]; lia). apply write_ok.
Qed.
End stages.
