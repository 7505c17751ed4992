(** What a simulation should do: rules of acceptance, counting of moves, step sizes, the schedule of a run and inheritance of environments. *)
From Coq Require Import Reals ZArith List Bool.
From Verif Require Import GeomModel BoxModel BoxSpec PbcModel PbcSpec NGModel PackModel PackSpec DomModel DomSpec RotModel RotSpec SimModel.
Import ListNotations.
Open Scope nat_scope.

(** ** Acceptance *)

(** [u <= exp (- dE / T)] with infinite energies. *)
Definition accepted_by (u T : R) (dE : energy) : Prop :=
  match dE with NegInf => True | Fin e => (u <= exp (- e / T))%R | PosInf => (u <= 0)%R end.
(** The move [o] changes the shape [s] of the i-th particle to [s'], and nothing else. *)
Definition moved_packing (pk : packing) (i : nat) (s' : shape) (pk' : packing) : Prop :=
  set_nth (shapes_of pk) i s' = Some (shapes_of pk') /\ pk_box pk' = pk_box pk /\ pk_wall pk' = pk_wall pk /\
  pk_counting pk' = pk_counting pk.
(** The i-th particle was to get the shape [s'], for which the number [u] was drawn at the temperature [T]: the packing [pk'] is the one with
    the particle moved or the old one, according to the rule of Metropolis. The rule is asked of packings which either count overlaps or have none. *)
Definition decided (inter : interaction) (u T : R) (pk : packing) (i : nat) (s' : shape) (ok : bool) (pk' : packing) : Prop :=
  exists pk2 n0 n2 e0 e2, moved_packing pk i s' pk2 /\
    countTotalOverlaps pk inter false = Some n0 /\ countTotalOverlaps pk2 inter false = Some n2 /\
    getTotalEnergy pk inter = Some e0 /\ getTotalEnergy pk2 inter = Some e2 /\
    (ok = true -> pk' = pk2) /\ (ok = false -> same_packing pk pk') /\
    (pk_counting pk = true \/ n0 = 0 -> (ok = true <-> accepted_by u T (energy_change n0 n2 e0 e2 (pk_counting pk)))).
(** Moves made one after another, with the numbers drawn. *)
Inductive moves_made (inter : interaction) (T : R) : packing -> list R -> list (nat * bool) -> packing -> Prop :=
| made_none pk : moves_made inter T pk [] [] pk
| made_one pk u us g i s s' o ok pk1 ms pk' : nth_error (shapes_of pk) i = Some s -> particle_move o 0 i -> moves_to (pk_box pk) o s s' ->
    decided inter u T pk i s' ok pk1 -> moves_made inter T pk1 us ms pk' -> moves_made inter T pk (u :: us) ((g, ok) :: ms) pk'.
(** Particles keep their box-relative coordinates. *)
Definition scaled_packing (pk : packing) (newBox : box) (pk' : packing) : Prop :=
  pk_box pk' = newBox /\ pk_wall pk' = pk_wall pk /\ pk_counting pk' = pk_counting pk /\
  shapes_of pk' = map (fun s => Shape (relativeToAbsolute newBox (absoluteToRelative (pk_box pk) (sh_pos s))) (sh_rot s)) (shapes_of pk).
(** The logarithm of the acceptance probability of a scaling in the NpT ensemble, without the limit 1. *)
Definition npt_exponent (n : nat) (P T V V' dE : R) : R := (INR n * ln (V' / V) - (dE + P * (V' - V)) / T)%R.

(** ** What is asked of samplers, random numbers and threads *)
Definition good_sampler (s : sampler) : Prop :=
  match s with
  | Translation step _ _ => (0 < step)%R
  | Rotation step => (0 < step)%R
  | Rototranslation tstep rstep _ _ => (0 < tstep)%R /\ exists r, rstep = Some r /\ (0 < r)%R
  | Flipping every f => 0 < every /\ exists f', f = Some f' /\ vnorm2 (fl_axis f') = 1%R
  end.
(** Enough particles for the sampler. *)
Definition enough_particles (n : nat) (s : sampler) : Prop := match s with Flipping every _ => every < n | _ => True end.
(** Random numbers are within their ranges; the axis is not a zero vector; zero as the number which decides is excluded (see
    C20_zero_refuted). *)
Definition good_draw (d : draw) : Prop :=
  (forall a, (-1 <= vget (dr_shift d) a <= 1)%R) /\ dr_axis d <> vzero /\ (-1 <= dr_angle d <= 1)%R /\ (0 < dr_u d < 1)%R.
Definition good_chance (threads : nat) (ch : chance) : Prop :=
  (forall k, good_draw (ch_draws ch k)) /\ (forall c k, good_draw (ch_domain ch c k)) /\
  (forall k a, (0 <= vget (ch_origin ch k) a < 1)%R) /\ (forall c, ch_thread ch c < threads) /\
  NoDup (ch_reduction ch) /\ (forall c, In (ch_thread ch c) (ch_reduction ch)) /\
  (forall step b b', constructed b -> ch_box ch step b = Some b' -> constructed b') /\ (0 < ch_u ch < 1)%R.
(** The box scaler does not fail. *)
Definition scalable (ch : chance) : Prop := forall step b, constructed b -> exists b', ch_box ch step b = Some b' /\ constructed b'.

(** ** Packings met in a simulation, including all histories *)
Definition domain_workers (threads : nat) (inter : interaction) (pk : packing) (ws : list worker) : Prop :=
  exists div origin d cs, (forall a, 1 <= div a) /\ in_box (pk_box pk) origin /\ decompose pk inter div origin = DdReady d /\
    Forall2 (legal_worker threads d) cs ws /\ different_domains cs.
(** A plan which names the particle and the thread properly and makes a proper rotation. *)
Definition good_plan (n thread : nat) (pl : plan) : Prop :=
  pl_i pl < n /\ forall s, isometry (sh_rot s) -> particle_move (pl_op pl s) thread (pl_i pl) /\
    match pl_op pl s with DoRotation _ _ r _ | DoMove _ _ _ r _ _ => isometry r | _ => True end.
Inductive visited (inter : interaction) (threads : nat) : packing -> Prop :=
| visit_start shapes b os pk : reachable threads shapes b inter os pk -> rotated_properly pk -> visited inter threads pk
| visit_setup pk pk' : visited inter threads pk -> setupForInteraction inter pk = Some pk' -> visited inter threads pk'
| visit_counting on pk pk' : visited inter threads pk -> toggleOverlapCounting on inter pk = Some pk' -> visited inter threads pk'
| visit_move thread pl pk pk' ok : visited inter threads pk -> thread < threads -> good_plan (pk_size pk) thread pl ->
    perform_plan inter thread pl pk = Some (pk', ok) -> pl_accept pl PosInf = false -> visited inter threads pk'
| visit_domains ws schedule pk pk' ws' : visited inter threads pk -> (in_rangeRadius inter <= in_totalRange inter)%R -> centres_reach inter ->
    domain_workers threads inter pk ws -> run_workers inter schedule (pk, ws) = Some (pk', ws') -> visited inter threads pk'
| visit_scaling newBox pk pk' e : visited inter threads pk -> constructed newBox -> tryScaling newBox inter pk = Some (pk', e) ->
    visited inter threads pk'
| visit_revert newBox pk pk' e : visited inter threads pk -> constructed newBox -> tryScaling newBox inter pk = Some (pk', e) ->
    visited inter threads (revertScaling pk')
| visit_renormalize thread allow pk pk' n : visited inter threads pk -> thread < threads ->
    renormalizeOrientations thread inter allow pk = Some (pk', n) -> visited inter threads pk'.

(** Packings which can be seen by a user of a run. *)
Definition output_packing (o : output) : packing :=
  match o with OutSnapshot _ pk _ _ | OutRecord _ pk | OutAverage pk _ _ | OutInline _ pk _ _ => pk end.
Definition seen (g : progress) (pk : packing) : Prop := pk = sm_pk (pg_sim g) \/ In pk (map output_packing (pg_out g)).

(** What is asked of a run. Domain divisions need the interaction range to cover what particles see (see C16); box scaling of convex shapes
    uses a shortcut which misses overlaps (see C14). *)
Definition good_setting (inter : interaction) (threads : nat) (samplers : list sampler) (scaler : option R) (div : axis -> nat)
                        (chances : nat -> chance) (pk : packing) : Prop :=
  0 < threads /\ (forall c, good_chance threads (chances c)) /\ visited inter threads pk /\ Forall good_sampler samplers /\
  match scaler with Some step => (0 < step)%R | None => True end /\ (forall a, 1 <= div a) /\
  (num_domains div = 1 \/ (in_rangeRadius inter <= in_totalRange inter)%R /\ centres_reach inter) /\
  (scaler = None \/ in_convex inter = false).

(** ** Counting *)
Definition performed (group : nat) (ms : list (nat * bool)) : nat := length (filter (fun m => Nat.eqb (fst m) group) ms).
Definition accepted (group : nat) (ms : list (nat * bool)) : nat := length (filter (fun m => Nat.eqb (fst m) group && snd m) ms).
Definition all_moves (cs : list cycle_log) : list (nat * bool) := concat (map cl_moves cs).
Definition scalings (cs : list cycle_log) : list bool := flat_map (fun c => match cl_scaled c with Some x => [x] | None => [] end) cs.
Definition trues (l : list bool) : nat := length (filter (fun x => x) l).

(** ** Step sizes *)

(** [Grown]: after a window with many accepted moves, [Shrunk]: with few. *)
Inductive adjustment := Grown | Shrunk | Kept.
Definition translation_limit (max : R) (step : R) : Prop := (0 < max /\ max <= step)%R.
(** What becomes of the step sizes. A translation step which is not below its (positive) maximum does not grow any more; a
    rotation step grows up to pi. *)
Definition adjusted_to (a : adjustment) (s s' : sampler) : Prop :=
  match a, s, s' with
  | Kept, _, _ => s' = s
  | Grown, Translation step max i, Translation step' max' i' => max' = max /\ i' = i /\
      (translation_limit max step -> step' = step) /\ (~ translation_limit max step -> step' = (step * (11 / 10))%R)
  | Grown, Rotation step, Rotation step' => step' = Rmin PI (step * (11 / 10))%R
  | Grown, Rototranslation step (Some r) max i, Rototranslation step' (Some r') max' i' => max' = max /\ i' = i /\
      (translation_limit max step -> step' = step /\ r' = r) /\
      (~ translation_limit max step -> step' = (step * (11 / 10))%R /\ r' = (r * (11 / 10))%R)
  | Shrunk, Translation step max i, Translation step' max' i' => max' = max /\ i' = i /\ step' = (step / (11 / 10))%R
  | Shrunk, Rotation step, Rotation step' => step' = (step / (11 / 10))%R
  | Shrunk, Rototranslation step (Some r) max i, Rototranslation step' (Some r') max' i' => max' = max /\ i' = i /\
      step' = (step / (11 / 10))%R /\ r' = (r / (11 / 10))%R
  | _, Flipping _ _, _ => s' = s
  | _, _, _ => False
  end.
(** The decision: [window] moves are needed; [moves] of which [ok] accepted were made since the last decision. *)
Definition decision (window moves ok : nat) (a : adjustment) : Prop :=
  let rate := (INR ok / INR moves)%R in
  (moves < window \/ moves = 0 -> a = Kept) /\
  (window <= moves -> 0 < moves -> (rate > 2 / 10 -> a = Grown)%R /\ (rate < 1 / 10 -> a = Shrunk)%R /\
     (1 / 10 <= rate <= 2 / 10 -> a = Kept)%R).
(** The largest displacement along an axis allowed by a sampler: the given maximum or half of the smallest height of the box. *)
Definition displacement_limit (b : box) (s : sampler) (m : R) : Prop :=
  match s with
  | Translation _ max implicit | Rototranslation _ _ max implicit => m = (if implicit then min3 (box_height b) / 2 else max)%R
  | _ => False
  end.
(** The maximum is recalculated when the sampler is used. *)
Definition with_maximum (m : R) (s : sampler) : sampler :=
  match s with Translation step _ i => Translation step m i | Rototranslation t r _ i => Rototranslation t r m i | _ => s end.
Definition with_new_maximum (b : box) (used : Prop) (s s1 : sampler) : Prop :=
  (~ used -> s1 = s) /\ (used -> (forall m, displacement_limit b s m -> s1 = with_maximum m s) /\ ((forall m, ~ displacement_limit b s m) -> s1 = s)).
(** Counters after [k] moves, [ok] of which were accepted; the window starts anew after [window] moves, if step sizes are tuned. *)
Definition counted_window (tuned : bool) (window k ok : nat) (c c' : counter) : Prop :=
  ct_moves c' = ct_moves c + k /\ ct_accepted c' = ct_accepted c + ok /\
  (tuned = true -> window <= ct_recent c + k -> ct_recent c' = 0 /\ ct_recentAccepted c' = 0) /\
  (tuned = false \/ ct_recent c + k < window -> ct_recent c' = ct_recent c + k /\ ct_recentAccepted c' = ct_recentAccepted c + ok).
(** What a cycle does with steps and counters of the k-th sampler. *)
Definition sampler_after (tuned : bool) (n : nat) (b : box) (ms : list (nat * bool)) (k : nat) (x : sampler) (c : counter) (x' : sampler) (c' : counter) : Prop :=
  exists a x1 m, with_new_maximum b (0 < performed k ms) x x1 /\ adjusted_to a x1 x' /\ counted_window tuned (100 * m) (performed k ms) (accepted k ms) c c' /\
    (tuned = true -> requested x n = Some m /\ decision (100 * m) (ct_recent c + performed k ms) (ct_recentAccepted c + accepted k ms) a) /\
    (tuned = false -> a = Kept).
(** The same for the box scaler; its window has 100 moves. *)
Definition scaler_after (tuned : bool) (scaled : option bool) (step : option R) (c : counter) (step' : option R) (c' : counter) : Prop :=
  match step with
  | None => step' = None /\ c' = c /\ scaled = None
  | Some x => exists ok x' a, scaled = Some ok /\ step' = Some x' /\
      (a = Grown -> x' = x * (11 / 10))%R /\ (a = Shrunk -> x' = x / (11 / 10))%R /\ (a = Kept -> x' = x) /\
      counted_window tuned 100 1 (if ok then 1 else 0) c c' /\
      (tuned = true -> decision 100 (S (ct_recent c)) (ct_recentAccepted c + (if ok then 1 else 0)) a) /\ (tuned = false -> a = Kept)
  end.
(** Limits of steps in a run which starts with the sampler [s0], for a maximum which was given: a step may exceed it by one increase. *)
Definition within_limit (s0 s : sampler) : Prop :=
  match s0, s with
  | Translation step0 m false, Translation step m' false | Rototranslation step0 _ m false, Rototranslation step _ m' false =>
    m' = m /\ (0 < m -> step <= Rmax step0 (11 / 10 * m))%R
  | Translation _ _ true, Translation _ _ true | Rototranslation _ _ _ true, Rototranslation _ _ _ true => True
  | Rotation step0, Rotation step => (step <= Rmax step0 PI)%R
  | Flipping _ _, _ => s = s0
  | _, _ => False
  end.
Definition op_translation (o : pack_op) : option vec :=
  match o with DoTranslation _ _ t _ _ | DoMove _ _ t _ _ _ => Some t | _ => None end.

(** ** The schedule of a run *)

(** The last cycle: the first one at which the interruption is noticed, or the end. *)
Definition last_cycle (interrupted : nat -> bool) (from n last : nat) : Prop :=
  from <= last <= from + n /\ (forall c, from < c < last -> interrupted c = false) /\
  (last < from + n -> interrupted last = true /\ from < last).
Definition is_multiple (c period : nat) : bool := Nat.eqb (Nat.modulo c period) 0.
(** What is due after cycle [c] (the absolute number), in the state with the given packing, temperature and pressure. *)
Definition due (p : parameters) (c : nat) (pk : packing) (T P : R) : list output :=
  (if is_multiple c (pr_snapshotEvery p) then OutSnapshot c pk T P :: repeat (OutRecord c pk) (pr_recorders p) else []) ++
  (if Nat.ltb (pr_offset p + pr_thermalisation p) c && is_multiple c (pr_averagingEvery p) then [OutAverage pk T P] else []) ++
  (if is_multiple c (pr_inlineEvery p) then [OutInline c pk T P] else []).
(** The state [s] after a cycle is the state [s1] left by the moves, scaling and tuning of that cycle; temperature, pressure and whether to
    tune step sizes are specified separately. *)
Definition continues (s1 s : sim) : Prop :=
  (shapes_of (sm_pk s) = shapes_of (sm_pk s1) /\ pk_box (sm_pk s) = pk_box (sm_pk s1) /\ pk_wall (sm_pk s) = pk_wall (sm_pk s1)) /\
  sm_samplers s = sm_samplers s1 /\ sm_scaler s = sm_scaler s1 /\ sm_counters s = sm_counters s1 /\ sm_scaling s = sm_scaling s1 /\
  sm_counted s = sm_counted s1 /\ sm_div s = sm_div s1 /\ sm_performed s = sm_performed s1 /\ sm_total s = sm_total s1 /\ sm_max s = sm_max s1.
(** States after consecutive cycles [from] .. [last]; [cycles]: what was done in cycles [from + 1] .. [last]. *)
Definition consecutive (inter : interaction) (chances : nat -> chance) (st : nat -> sim) (from last : nat) (cycles : list cycle_log) : Prop :=
  from <= last /\ length cycles = last - from /\
  forall c, from <= c < last -> exists s1 log, performCycle inter (chances (S c)) (st c) = Some (s1, log) /\ nth_error cycles (c - from) = Some log /\
    continues s1 (st (S c)).
(** Values of the parameters are updated during thermalisation. *)
Definition parameters_at (temperature pressure : parameter) (p : parameters) (c : nat) (s : sim) : Prop :=
  let end_ := pr_offset p + pr_thermalisation p + pr_averaging p in
  let c' := Nat.min c (pr_offset p + pr_thermalisation p) in
  sm_T s = temperature c' end_ /\ sm_P s = (match sm_scaler s with Some _ => pressure c' end_ | None => 0%R end).
(** The state in which a run starts. *)
Definition started (inter : interaction) (samplers : list sampler) (scaler : option R) (div : axis -> nat) (counted : bool) (offset max : nat) (pk : packing) (s : sim) : Prop :=
  (shapes_of (sm_pk s) = shapes_of pk /\ pk_box (sm_pk s) = pk_box pk /\ pk_wall (sm_pk s) = pk_wall pk /\ pk_counting (sm_pk s) = counted) /\
  sm_samplers s = samplers /\ sm_scaler s = scaler /\ sm_counters s = repeat zeroCounter (length samplers) /\ sm_scaling s = zeroCounter /\
  sm_counted s = counted /\ sm_div s = div /\ sm_performed s = 0 /\ sm_total s = offset /\ sm_max s = max.
Definition snapshot_cycles (out : list output) : list nat := flat_map (fun o => match o with OutSnapshot c _ _ _ => [c] | _ => [] end) out.
Definition averages (out : list output) : list output := filter (fun o => match o with OutAverage _ _ _ => true | _ => false end) out.

(** ** Environments *)
Section Environment.
Context {Par Smp Scl : Type}.
Notation env := (@environment Par Smp Scl).
(** The last value which is given in the list. *)
Definition last_given {A} (l : list (option A)) (o : option A) : Prop :=
  match o with
  | Some x => exists pre post, l = pre ++ Some x :: post /\ Forall (fun y => y = None) post
  | None => Forall (fun y => y = None) l
  end.
(** What an environment gives, if it does. *)
Definition given_samplers (e : env) : option (list Smp) := match ev_samplers e with [] => None | l => Some l end.
(** [Some None]: scaling is disabled. *)
Definition given_scaler (e : env) : option (option Scl) :=
  match ev_scaler e with ScalerUnset => None | ScalerDisabled => Some None | ScalerSet s => Some (Some s) end.
Definition last_one_wins (given : list env) (e : env) : Prop :=
  last_given (map ev_temperature given) (ev_temperature e) /\ last_given (map ev_pressure given) (ev_pressure e) /\
  last_given (map given_samplers given) (given_samplers e) /\ last_given (map given_scaler given) (given_scaler e).
Definition complete (e : env) : Prop :=
  ev_temperature e <> None /\ given_samplers e <> None /\ given_scaler e <> None /\
  ((exists s, given_scaler e = Some (Some s)) -> ev_pressure e <> None).
End Environment.
