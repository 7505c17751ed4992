(** C20-C24: simulation runs. *)
From Coq Require Import Reals ZArith List Bool Lra.
From Verif Require Import GeomModel BoxModel BoxSpec PbcModel PbcSpec PackModel PackSpec PackExamples DomModel DomSpec DomExamples RotModel RotSpec.
From Verif Require Import SimModel SimSpec SimRunSpec SimFinalProofs SimPropProofs SimEnvProofs SimExamples.
Import ListNotations.
Open Scope nat_scope.

(** ** C20 *)

(** A move of a particle, with the random number [u], at the temperature [T]: refused if it leaves its domain, otherwise decided by the rule of
    Metropolis. *)
Theorem C20_rule : forall inter ov en threads thread pl pk u T s,
  lawful inter ov en -> visited inter threads pk -> thread < threads -> good_plan (pk_size pk) thread pl ->
  pl_accept pl = metropolis u T -> nth_error (shapes_of pk) (pl_i pl) = Some s ->
  exists s', moves_to (pk_box pk) (pl_op pl s) s s' /\
    (outside_domain (pl_op pl s) (sh_pos s') -> (0 < u)%R -> exists pk', perform_plan inter thread pl pk = Some (pk', false) /\ same_packing pk pk') /\
    (~ outside_domain (pl_op pl s) (sh_pos s') -> exists pk' ok, perform_plan inter thread pl pk = Some (pk', ok) /\ decided inter u T pk (pl_i pl) s' ok pk').
Proof. intros inter ov en threads thread pl pk u T s HL. exact (rule inter ov en HL threads thread pl pk u T s). Qed.
Print Assumptions C20_rule.

(** Consequences of the rule: lower energies are always accepted, hard overlaps never (for positive [u]). *)
Theorem C20_extremes : forall u T n0 n2 e0 e2 counting, (0 < T)%R -> (0 <= u < 1)%R -> (counting = true \/ n0 = 0) ->
  (n2 <= n0 -> (e2 <= e0)%R -> accepted_by u T (energy_change n0 n2 e0 e2 counting)) /\
  (n0 < n2 -> (0 < u)%R -> ~ accepted_by u T (energy_change n0 n2 e0 e2 counting)) /\
  (n2 = n0 -> (accepted_by u T (energy_change n0 n2 e0 e2 counting) <-> (u <= exp (- (e2 - e0) / T))%R)).
Proof. exact extremes. Qed.
Print Assumptions C20_extremes.

(** The random number is from [0,1): if it is 0, a move which creates a hard overlap is accepted. *)
Theorem C20_zero_refuted : forall T, exists pk pk' n, visited (ball 1) 2 pk /\ countTotalOverlaps pk (ball 1) false = Some 0 /\
  perform_plan (ball 1) 0 (Plan 1 (fun _ => DoTranslation 0 1 (V3 (-5) 0 0) None true) (metropolis 0 T)) pk = Some (pk', true) /\
  countTotalOverlaps pk' (ball 1) false = Some n /\ 0 < n.
Proof. intros T. destruct two_box as (b & Hb). exact (zero_accepts b Hb T). Qed.
Print Assumptions C20_zero_refuted.

(** A whole cycle: all its moves are decided one after another by that rule, then the scaling, by the rule for the constant pressure. *)
Theorem C20_cycle : forall inter ov en threads ch s s1 log,
  lawful inter ov en -> 0 < threads -> good_state inter threads s -> good_chance threads ch -> num_domains (sm_div s) = 1 -> (0 < sm_T s)%R ->
  performCycle inter ch s = Some (s1, log) -> cycle_made inter ch s log (sm_pk s1) /\ good_state inter threads s1.
Proof. intros inter ov en threads ch s s1 log HL. exact (cycle_rule inter ov en HL threads ch s s1 log). Qed.
Print Assumptions C20_cycle.

(** A whole run: all states are good; without domain divisions each cycle is of that kind (orientations may be renormalised afterwards only
    if this does not change them). *)
Theorem C20_run : forall inter ov en threads t q samplers scaler div p chances interrupted pk g,
  lawful inter ov en -> good_setting inter threads samplers scaler div chances pk ->
  integrate inter t q samplers scaler div p chances interrupted pk = Some g ->
  let last := sm_total (pg_sim g) in
  exists st, started inter samplers scaler div false (pr_offset p) (pr_offset p + pr_thermalisation p + pr_averaging p) pk (st (pr_offset p)) /\
    st last = pg_sim g /\ consecutive inter chances st (pr_offset p) last (pg_cycles g) /\
    (forall c, pr_offset p <= c <= last -> good_state inter threads (st c) /\ sm_counted (st c) = false) /\
    (num_domains div = 1 -> (forall c, (0 < t c (pr_offset p + pr_thermalisation p + pr_averaging p)%nat)%R) ->
      forall c, pr_offset p <= c < last -> exists pk1 log, nth_error (pg_cycles g) (c - pr_offset p) = Some log /\
        cycle_made inter (chances (S c)) (st c) log pk1 /\
        shapes_of (sm_pk (st (S c))) = shapes_of pk1 /\ pk_box (sm_pk (st (S c))) = pk_box pk1 /\ pk_wall (sm_pk (st (S c))) = pk_wall pk1).
Proof.
  intros inter ov en threads t q samplers scaler div p chances interrupted pk g HL G.
  exact (run_rule inter ov en HL threads t q samplers scaler div p chances interrupted pk G g).
Qed.
Print Assumptions C20_run.

(** No packing which a run shows to the user - snapshots, averages, the final one - has overlaps, for any number of threads and divisions. *)
Theorem C20_no_overlaps : forall inter ov en threads t q samplers scaler div p chances interrupted pk g,
  lawful inter ov en -> good_setting inter threads samplers scaler div chances pk ->
  integrate inter t q samplers scaler div p chances interrupted pk = Some g ->
  forall pk', seen g pk' -> countTotalOverlaps pk' inter false = Some 0.
Proof.
  intros inter ov en threads t q samplers scaler div p chances interrupted pk g HL G.
  exact (run_no_overlaps inter ov en HL threads t q samplers scaler div p chances interrupted pk G g).
Qed.
Print Assumptions C20_no_overlaps.

(** Relaxation of overlaps, if it ends uninterrupted, ends without overlaps. *)
Theorem C20_relaxed : forall inter ov en threads t q samplers scaler div p chances interrupted pk fuel mx g,
  lawful inter ov en -> good_setting inter threads samplers scaler div chances pk ->
  relaxOverlaps fuel inter t q samplers scaler div mx p chances interrupted pk = Some g ->
  countTotalOverlaps (sm_pk (pg_sim g)) inter false = Some 0 \/ (pg_interrupted g = true /\ interrupted (sm_total (pg_sim g)) = true).
Proof.
  intros inter ov en threads t q samplers scaler div p chances interrupted pk fuel mx g HL G.
  exact (relaxed inter ov en HL threads t q samplers scaler div p chances interrupted pk G fuel mx g).
Qed.
Print Assumptions C20_relaxed.

(** Two balls, the translation and rotation samplers, 7 + 5 cycles after 10 earlier ones. *)
Example C20_example : forall t q interrupted, exists pk g,
  lawful (ball 1) (ball_ov 1) (ball_en 1) /\ good_setting (ball 1) 2 some_samplers None undivided (fun _ => some_chance) pk /\
  integrate (ball 1) t q some_samplers None undivided some_parameters (fun _ => some_chance) interrupted pk = Some g.
Proof.
  intros t q interrupted. destruct two_box as (b & Hb). destruct (two_run b Hb t q interrupted) as (pk & g & A & B). exists pk, g.
  split; [exact (ball_lawful 1 Rlt_0_1)|auto].
Qed.

(** ** C21 *)

(** After any run, with any number of threads, divisions and orders of adding up counters of threads. *)
Theorem C21_counters : forall inter ov en threads t q samplers scaler div p chances interrupted pk g,
  lawful inter ov en -> good_setting inter threads samplers scaler div chances pk ->
  integrate inter t q samplers scaler div p chances interrupted pk = Some g ->
  let s := pg_sim g in
  length (sm_counters s) = length samplers /\ length (sm_samplers s) = length samplers /\
  (forall k c, nth_error (sm_counters s) k = Some c -> ct_moves c = performed k (all_moves (pg_cycles g)) /\ ct_accepted c = accepted k (all_moves (pg_cycles g))) /\
  (forall m, In m (all_moves (pg_cycles g)) -> fst m < length samplers) /\
  ct_moves (sm_scaling s) = length (scalings (pg_cycles g)) /\ ct_accepted (sm_scaling s) = trues (scalings (pg_cycles g)) /\
  length (scalings (pg_cycles g)) = match scaler with Some _ => length (pg_cycles g) | None => 0 end.
Proof.
  intros inter ov en threads t q samplers scaler div p chances interrupted pk g HL G.
  exact (counters_run inter ov en HL threads t q samplers scaler div p chances interrupted pk G g).
Qed.
Print Assumptions C21_counters.
(** How many moves are requested by a sampler; a flip sampler needs enough particles. *)
Theorem C21_requested : forall x n m, requested x n = Some m <-> enough_particles n x /\ m = wanted n x.
Proof. exact requested_wanted. Qed.
Print Assumptions C21_requested.
(** Which move is made: samplers are chosen in proportion to the requested moves, particles evenly, by the numbers drawn. *)
Theorem C21_selection : forall b samplers n accs particles thread inside T d g pl, accumulations samplers n 0 = Some accs -> 0 < wanted_by_all n samplers ->
  make_plan b samplers accs particles thread inside T d = Some (g, pl) ->
  let m := Nat.modulo (dr_type d) (wanted_by_all n samplers) in
  wanted_by_all n (firstn g samplers) <= m < wanted_by_all n (firstn (S g) samplers) /\
  nth_error particles (Nat.modulo (dr_pick d) (length particles)) = Some (pl_i pl) /\
  (exists x, nth_error samplers g = Some x /\ sampled_op b x thread (pl_i pl) inside d = Some (pl_op pl)) /\
  forall e, pl_accept pl e = true <-> accepted_by (dr_u d) T e.
Proof. exact selection. Qed.
Print Assumptions C21_selection.
Example C21_example : wanted_by_all 10 [Translation 1 2 false; Flipping 3 None] = 13.
Proof. reflexivity. Qed.

(** ** C22 *)

(** In each cycle of a run, for each sampler and the scaler: steps are changed exactly by the rule, at the end of each window of moves, and only
    during thermalisation. Steps are positive. *)
Theorem C22_tuning : forall inter ov en threads t q samplers scaler div p chances interrupted pk g,
  lawful inter ov en -> good_setting inter threads samplers scaler div chances pk ->
  integrate inter t q samplers scaler div p chances interrupted pk = Some g ->
  let last := sm_total (pg_sim g) in
  exists st, started inter samplers scaler div false (pr_offset p) (pr_offset p + pr_thermalisation p + pr_averaging p) pk (st (pr_offset p)) /\
    st last = pg_sim g /\ consecutive inter chances st (pr_offset p) last (pg_cycles g) /\
    (forall c, pr_offset p <= c < last -> exists log, nth_error (pg_cycles g) (c - pr_offset p) = Some log /\
       (forall k x ct, nth_error (sm_samplers (st c)) k = Some x -> nth_error (sm_counters (st c)) k = Some ct ->
          exists x' ct', nth_error (sm_samplers (st (S c))) k = Some x' /\ nth_error (sm_counters (st (S c))) k = Some ct' /\
            sampler_after (c <? pr_offset p + pr_thermalisation p) (pk_size pk) (pk_box (sm_pk (st c))) (cl_moves log) k x ct x' ct') /\
       scaler_after (c <? pr_offset p + pr_thermalisation p) (cl_scaled log) (sm_scaler (st c)) (sm_scaling (st c)) (sm_scaler (st (S c))) (sm_scaling (st (S c)))) /\
    (forall c, pr_offset p <= c <= last -> length (sm_samplers (st c)) = length samplers /\ length (sm_counters (st c)) = length samplers /\ Forall good_sampler (sm_samplers (st c)) /\
       match sm_scaler (st c) with Some step => (0 < step)%R | None => True end).
Proof.
  intros inter ov en threads t q samplers scaler div p chances interrupted pk g HL G.
  exact (tuning inter ov en HL threads t q samplers scaler div p chances interrupted pk G g).
Qed.
Print Assumptions C22_tuning.
(** Steps after any run: positive, and below their maxima up to one increase. *)
Theorem C22_limits : forall inter ov en threads t q samplers scaler div p chances interrupted pk g k x0 x,
  lawful inter ov en -> good_setting inter threads samplers scaler div chances pk ->
  integrate inter t q samplers scaler div p chances interrupted pk = Some g ->
  nth_error samplers k = Some x0 -> nth_error (sm_samplers (pg_sim g)) k = Some x -> good_sampler x /\ within_limit x0 x.
Proof.
  intros inter ov en threads t q samplers scaler div p chances interrupted pk g k x0 x HL G.
  exact (limits inter ov en HL threads t q samplers scaler div p chances interrupted pk G g k x0 x).
Qed.
Print Assumptions C22_limits.
(** A step itself may exceed its maximum, by that increase. *)
Theorem C22_maximum_refuted : exists x x' step max im,
  newTranslation 1 1.05 = Some x /\ increaseStepSize x = Some (x', true) /\ x' = Translation step max im /\ (0 < max)%R /\ (max < step)%R.
Proof. exact exceeds. Qed.
Print Assumptions C22_maximum_refuted.
(** But a displacement does not: along each axis it is within the maximum (given, or half of the smallest height of the box) ... *)
Theorem C22_displacement : forall b x thread i inside d f s tr a m, constructed b -> good_sampler x -> good_draw d ->
  sampled_op b x thread i inside d = Some f -> op_translation (f s) = Some tr -> displacement_limit b x m -> (0 < m)%R -> (Rabs (vget tr a) <= m)%R.
Proof. exact displacement. Qed.
Print Assumptions C22_displacement.
(** ... and within the step. *)
Theorem C22_displacement_step : forall b x thread i inside d f s tr a, good_sampler x -> good_draw d ->
  sampled_op b x thread i inside d = Some f -> op_translation (f s) = Some tr ->
  (forall step max im, x = Translation step max im -> (0 < max_step b max im -> Rabs (vget tr a) <= step)%R) /\
  (forall step r max im, x = Rototranslation step r max im -> (0 < max_step b max im -> Rabs (vget tr a) <= step)%R).
Proof. exact displacement_step. Qed.
Print Assumptions C22_displacement_step.
(** The displacement is the drawn vector (components between -1 and 1) times the step or its maximum. *)
Theorem C22_translation : forall b x thread i inside d f s tr st m, sampled_op b x thread i inside d = Some f -> op_translation (f s) = Some tr ->
  translation_step x = Some st -> displacement_limit b x m -> tr = vscale (Rmin m st) (dr_shift d).
Proof. exact sampled_translation. Qed.
Print Assumptions C22_translation.
(** Particles are turned about the axis drawn, by the given part of the step. *)
Theorem C22_rotation : forall b x thread i inside d f s r m, good_sampler x -> good_draw d -> sampled_op b x thread i inside d = Some f ->
  op_rotation (f s) = Some r -> largest_angle x = Some m ->
  rotation r /\ exists a angle, vnorm2 a = 1%R /\ (exists k, 0 < k /\ a = vscale k (dr_axis d))%R /\
    rotates_about r a angle /\ angle = (dr_angle d * m)%R /\ (Rabs angle <= m)%R.
Proof. exact sampled_rotation. Qed.
Print Assumptions C22_rotation.
(** Samplers as constructed are good. *)
Theorem C22_constructed : forall x range geom x',
  (exists st mx, newTranslation st mx = Some x) \/ (exists st, newRotation st = Some x) \/ (exists ts rs mx, newRototranslation ts rs mx = Some x) \/ (exists e, newFlip e = Some x) ->
  setupForShapeTraits range geom x = Some x' -> proper_geometry geom -> good_sampler x' /\ within_limit x' x'.
Proof. exact constructed_sampler. Qed.
Print Assumptions C22_constructed.

(** ** C23 *)

(** Exactly the requested cycles are performed, up to an interruption; what is given to the user after each cycle is exactly what is due. *)
Theorem C23_schedule : forall inter ov en threads t q samplers scaler div p chances interrupted pk g,
  lawful inter ov en -> good_setting inter threads samplers scaler div chances pk ->
  integrate inter t q samplers scaler div p chances interrupted pk = Some g ->
  let last := sm_total (pg_sim g) in
  exists st, last_cycle interrupted (pr_offset p) (pr_thermalisation p + pr_averaging p) last /\ pr_offset p < last /\ pg_interrupted g = interrupted last /\
    started inter samplers scaler div false (pr_offset p) (pr_offset p + pr_thermalisation p + pr_averaging p) pk (st (pr_offset p)) /\
    st last = pg_sim g /\ consecutive inter chances st (pr_offset p) last (pg_cycles g) /\
    (forall c, pr_offset p <= c <= last -> sm_total (st c) = c /\ parameters_at t q p c (st c)) /\
    pg_out g = flat_map (fun c => due p c (sm_pk (st c)) (sm_T (st c)) (sm_P (st c))) (seq (S (pr_offset p)) (last - pr_offset p)).
Proof.
  intros inter ov en threads t q samplers scaler div p chances interrupted pk g HL G.
  exact (schedule inter ov en HL threads t q samplers scaler div p chances interrupted pk G g).
Qed.
Print Assumptions C23_schedule.
(** Cycles of snapshots and the number of averages. *)
Theorem C23_snapshots : forall inter ov en threads t q samplers scaler div p chances interrupted pk g,
  lawful inter ov en -> good_setting inter threads samplers scaler div chances pk ->
  integrate inter t q samplers scaler div p chances interrupted pk = Some g ->
  snapshot_cycles (pg_out g) = filter (fun c => is_multiple c (pr_snapshotEvery p)) (seq (S (pr_offset p)) (sm_total (pg_sim g) - pr_offset p)) /\
  length (averages (pg_out g)) = length (filter (fun c => Nat.ltb (pr_offset p + pr_thermalisation p) c && is_multiple c (pr_averagingEvery p))
                                    (seq (S (pr_offset p)) (sm_total (pg_sim g) - pr_offset p))).
Proof.
  intros inter ov en threads t q samplers scaler div p chances interrupted pk g HL G.
  exact (snapshots inter ov en HL threads t q samplers scaler div p chances interrupted pk G g).
Qed.
Print Assumptions C23_snapshots.
(** A run of an overlap-free packing, without domain divisions and with positive periods, does not fail. *)
Theorem C23_total : forall inter ov en threads t q samplers scaler div p chances interrupted pk,
  lawful inter ov en -> good_setting inter threads samplers scaler div chances pk ->
  num_domains div = 1 -> (forall c, scalable (chances c)) -> Forall (enough_particles (pk_size pk)) samplers ->
  0 < pr_thermalisation p + pr_averaging p -> 0 < pr_inlineEvery p -> 0 < pr_fixEvery p -> (0 < pr_averaging p -> 0 < pr_averagingEvery p <= pr_averaging p) ->
  0 < pr_snapshotEvery p <= pr_thermalisation p + pr_averaging p ->
  (forall pk1, setupForInteraction inter pk = Some pk1 -> countTotalOverlaps pk1 inter false = Some 0) ->
  integrate inter t q samplers scaler div p chances interrupted pk <> None.
Proof.
  intros inter ov en threads t q samplers scaler div p chances interrupted pk HL G.
  exact (run_total inter ov en HL threads t q samplers scaler div p chances interrupted pk G).
Qed.
Print Assumptions C23_total.

(** ** C24 *)

(** The environment of each performed run: parameter by parameter the last one given, in the base and all runs so far, performed or not. *)
Theorem C24_inherited : forall {Par Smp Scl : Type} (base : @environment Par Smp Scl) runs start cont l,
  casino_environments base runs start cont = Some l ->
  start + length l = length runs /\ (forall e, nth_error l 0 = Some e -> complete e) /\
  forall k e, nth_error l k = Some e -> last_one_wins (base :: firstn (S (start + k)) runs) e.
Proof. intros Par Smp Scl. exact inherited. Qed.
Print Assumptions C24_inherited.
(** Runs can start exactly if the environment of the first of them is complete. *)
Theorem C24_found : forall {Par Smp Scl : Type} (base : @environment Par Smp Scl) runs start cont, start < length runs ->
  ((exists l, casino_environments base runs start cont = Some l) <-> forall e, last_one_wins (base :: firstn (S start) runs) e -> complete e).
Proof. intros Par Smp Scl. exact found. Qed.
Print Assumptions C24_found.
Theorem C24_stays_disabled : forall {Par Smp Scl : Type} (base : @environment Par Smp Scl) runs start cont l k e j r,
  casino_environments base runs start cont = Some l -> nth_error l k = Some e ->
  nth_error runs j = Some r -> j <= start + k -> ev_scaler r = ScalerDisabled ->
  (forall i r', j < i <= start + k -> nth_error runs i = Some r' -> ev_scaler r' = ScalerUnset) -> ev_scaler e = ScalerDisabled.
Proof. intros Par Smp Scl. exact stays_disabled. Qed.
Print Assumptions C24_stays_disabled.
(** Only the first run is checked: the second one below starts scaling, but no pressure was ever given. *)
Theorem C24_complete_refuted : exists (base : @environment nat nat nat) runs l e,
  casino_environments base runs 0 false = Some l /\ nth_error l 1 = Some e /\ ~ complete e.
Proof.
  exists (Env (Some 1) None [0] ScalerDisabled), [Env None None [] ScalerUnset; Env None None [] (ScalerSet 5)].
  eexists. eexists. split; [reflexivity|]. split; [reflexivity|]. intros (_ & _ & _ & H). apply H; [exists 5; reflexivity|reflexivity].
Qed.
Print Assumptions C24_complete_refuted.
Example C24_example : casino_environments (Env (Some 1) (Some 2) [0] (ScalerSet 3)) [Env (Some 4) None [] ScalerDisabled; Env None None [6; 7] ScalerUnset] 0 false =
  Some [Env (Some 4) (Some 2) [0] ScalerDisabled; Env (Some 4) (Some 2) [6; 7] ScalerDisabled].
Proof. reflexivity. Qed.
