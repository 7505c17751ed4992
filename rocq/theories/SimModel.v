(** [src/core/Simulation.{h,cpp}], [src/core/move_samplers], [src/core/TriclinicBoxScaler.cpp] and the inheritance of environments in
    [src/frontend/modes/CasinoMode.cpp].

    Simplifications, apart from real numbers for doubles:
    - random numbers are arguments. A number from uniform_real_distribution(-a, a) is [a * x] with [x] between -1 and 1; a number from
      uniform_int_distribution(0, n - 1) is [m mod n] for any natural [m];
    - names of samplers, log messages, timing and memory statistics are left out;
    - the interruption flag is an argument: whether it is found set at the end of the given cycle. *)
From Coq Require Import Reals ZArith List Bool.
From Verif Require Import GeomModel BoxModel RFloorModel PbcModel NGModel PackModel PackSpec DomModel RotModel.
Import ListNotations.
Open Scope nat_scope.

(** *** Move samplers *)

Inductive sampler :=
| Translation (step max : R) (implicit : bool)
| Rotation (step : R)
| Rototranslation (tstep : R) (rstep : option R) (max : R) (implicit : bool)
| Flipping (every : nat) (f : option flipSampler).

(** TranslationSampler.cpp:10-18. *)
Definition legal_step (step max : R) : bool :=
  Rleb 0 max && (negb (Rltb 0 max) || Rleb step max) && Rltb 0 step.
Definition newTranslation (step max : R) : option sampler :=
  if legal_step step max then Some (Translation step max (Reqb max 0)) else None.
(** RotationSampler.cpp:10-12. *)
Definition newRotation (step : R) : option sampler := if Rltb 0 step then Some (Rotation step) else None.
(** RototranslationSampler.cpp:9-20. *)
Definition newRototranslation (tstep : R) (rstep : option R) (max : R) : option sampler :=
  if legal_step tstep max && match rstep with Some r => Rltb 0 r | None => true end
  then Some (Rototranslation tstep rstep max (Reqb max 0)) else None.
(** FlipSampler.cpp:9-11. *)
Definition newFlip (every : nat) : option sampler := if Nat.ltb 0 every then Some (Flipping every None) else None.

(** FlipSampler.cpp:13-16, the headers of the other samplers. *)
Definition requested (s : sampler) (numParticles : nat) : option nat :=
  match s with
  | Flipping every _ => if Nat.ltb every numParticles then Some (Nat.div numParticles every) else None
  | _ => Some numParticles
  end.

(** RototranslationSampler.cpp:95-114, FlipSampler.cpp:43-52; [None]: failed precondition or check. *)
Definition setupForShapeTraits (totalRange : R) (g : geometry) (s : sampler) : option sampler :=
  match s with
  | Rototranslation tstep None max implicit =>
    if negb (Rltb 0 totalRange) then None
    else let ratio := (tstep / totalRange)%R in
         let r := (0.133183 - 1.18634 * ratio + 264.37 * ratio * ratio)%R in
         if Rltb 0 r then Some (Rototranslation tstep (Some r) max implicit) else None
  | Flipping every _ => f <- setupFlip g ;; Some (Flipping every (Some f))
  | _ => Some s
  end.

(** TranslationSampler.cpp:39-46, RototranslationSampler.cpp:78-85. *)
Definition max_step (b : box) (max : R) (implicit : bool) : R := if implicit then (min3 (box_height b) / 2)%R else max.
Definition adjustMax (b : box) (s : sampler) : sampler :=
  match s with
  | Translation step max implicit => Translation step (max_step b max implicit) implicit
  | Rototranslation tstep rstep max implicit => Rototranslation tstep rstep (max_step b max implicit) implicit
  | _ => s
  end.

(** Random numbers used to make and decide about one move. *)
Record draw := Draw { dr_type : nat; dr_pick : nat; dr_shift : vec; dr_axis : vec; dr_angle : R; dr_u : R }.

(** The last lines of sampleMove of all samplers; [None]: empty list. *)
Definition pick_particle (particles : list nat) (d : draw) : option nat :=
  nth_error particles (Nat.modulo (dr_pick d) (length particles)).
(** sampleMove (TranslationSampler.cpp:20-37, RotationSampler.cpp:14-35, RototranslationSampler.cpp:22-49; FlipSampler.cpp:18-41 in
    RotModel) for the shape of the chosen particle [i], with the try function of Packing selected in Simulation.cpp:470-480. The loop
    drawing the axis is replaced by its result. *)
Definition sampled_op (b : box) (s : sampler) (thread i : nat) (inside : option (vec -> bool)) (d : draw) : option (shape -> pack_op) :=
  match s with
  | Translation step max implicit =>
    Some (fun _ => DoTranslation thread i (vscale (Rmin (max_step b max implicit) step) (dr_shift d)) inside true)
  | Rotation step => Some (fun _ => DoRotation thread i (mrot_axis (vnormalized (dr_axis d)) (step * dr_angle d)) true)
  | Rototranslation tstep rstep max implicit =>
    r <- rstep ;;
    Some (fun _ => DoMove thread i (vscale (Rmin (max_step b max implicit) tstep) (dr_shift d))
                     (mrot_axis (vnormalized (dr_axis d)) (Rmin r PI * dr_angle d)) inside true)
  | Flipping _ f => f' <- f ;; Some (sampleFlip f' thread i inside true)
  end.

(** increaseStepSize and decreaseStepSize; the boolean: whether step sizes have been changed. *)
Definition increase_translation (step max : R) : R * bool :=
  if Rltb 0 max && Rleb max step then (step, false) else ((step * 1.1)%R, true).
Definition increaseStepSize (s : sampler) : option (sampler * bool) :=
  match s with
  | Translation step max implicit =>
    let (step', ok) := increase_translation step max in Some (Translation step' max implicit, ok)
  | Rotation step =>
    let step' := if Rltb PI (step * 1.1) then PI else (step * 1.1)%R in
    Some (Rotation step', negb (Reqb step' step))
  | Rototranslation tstep rstep max implicit =>
    r <- rstep ;;
    (let (tstep', ok) := increase_translation tstep max in
     Some (Rototranslation tstep' (Some (r * (tstep' / tstep))%R) max implicit, ok))
  | Flipping _ _ => Some (s, false)
  end.
Definition decreaseStepSize (s : sampler) : option (sampler * bool) :=
  match s with
  | Translation step max implicit => Some (Translation (step / 1.1) max implicit, true)
  | Rotation step => Some (Rotation (step / 1.1), true)
  | Rototranslation tstep rstep max implicit =>
    r <- rstep ;; Some (Rototranslation (tstep / 1.1) (Some (r / 1.1)%R) max implicit, true)
  | Flipping _ _ => Some (s, false)
  end.

(** *** Counters, Simulation.cpp:609-656 *)

Record counter := Counter { ct_moves : nat; ct_accepted : nat; ct_recent : nat; ct_recentAccepted : nat }.
Definition zeroCounter : counter := Counter 0 0 0 0.
Definition increment (accepted : bool) (c : counter) : counter :=
  if accepted then Counter (S (ct_moves c)) (S (ct_accepted c)) (S (ct_recent c)) (S (ct_recentAccepted c))
  else Counter (S (ct_moves c)) (ct_accepted c) (S (ct_recent c)) (ct_recentAccepted c).
Definition resetCurrent (c : counter) : counter := Counter (ct_moves c) (ct_accepted c) 0 0.
Definition currentRate (c : counter) : R := (INR (ct_recentAccepted c) / INR (ct_recent c))%R.
Definition counter_add (c c' : counter) : counter :=
  Counter (ct_moves c + ct_moves c') (ct_accepted c + ct_accepted c') (ct_recent c + ct_recent c')
    (ct_recentAccepted c + ct_recentAccepted c').
(** Simulation.cpp:676-679; both vectors have an element per move sampler. *)
Definition accumulateCounters (out in_ : list counter) : list counter := map (fun p => counter_add (fst p) (snd p)) (combine out in_).
Fixpoint increment_at (g : nat) (accepted : bool) (cs : list counter) : list counter :=
  match g, cs with
  | O, c :: cs' => increment accepted c :: cs'
  | S g', c :: cs' => c :: increment_at g' accepted cs'
  | _, [] => []
  end.
(** Moves which have been made: the index of the sampler, whether accepted. *)
Definition count_moves (ms : list (nat * bool)) (cs : list counter) : list counter :=
  fold_left (fun cs m => increment_at (fst m) (snd m) cs) ms cs.

(** *** Particle moves *)

(** Simulation.cpp:483 with IEEE infinities, for a positive temperature. *)
Definition metropolis (u T : R) (dE : energy) : bool :=
  match dE with NegInf => true | Fin e => Rleb u (exp (- e / T)) | PosInf => Rleb u 0 end.

(** Simulation.cpp:681-692. *)
Fixpoint accumulations (samplers : list sampler) (numParticles acc : nat) : option (list nat) :=
  match samplers with
  | [] => Some []
  | s :: samplers' =>
    n <- requested s numParticles ;;
    (l <- accumulations samplers' numParticles (acc + n) ;; Some (acc + n :: l))
  end.
(** Simulation.cpp:459-464. *)
Fixpoint move_type (accs : list nat) (sampled : nat) : nat :=
  match accs with [] => 0 | a :: accs' => if Nat.ltb sampled a then 0 else S (move_type accs' sampled) end.

(** Simulation.cpp:447-491 up to the try: the chosen sampler and the move it makes; [inside]: the active domain. *)
Definition make_plan (b : box) (samplers : list sampler) (accs particles : list nat) (thread : nat) (inside : option (vec -> bool))
                     (T : R) (d : draw) : option (nat * plan) :=
  let numMoves := last accs 0 in
  let group := move_type accs (Nat.modulo (dr_type d) numMoves) in
  s <- nth_error samplers group ;;
  (i <- pick_particle particles d ;;
   (op <- sampled_op b s thread i inside d ;; Some (group, Plan i op (metropolis (dr_u d) T)))).
Definition make_plans (b : box) (samplers : list sampler) (accs particles : list nat) (thread : nat) (inside : option (vec -> bool))
                      (T : R) (draws : nat -> draw) : option (list (nat * plan)) :=
  map_opt (fun k => make_plan b samplers accs particles thread inside T (draws k)) (seq 0 (last accs 0)).

(** The rest of Simulation.cpp:447-491: try, decision; every kind of move is accepted with acceptMove. *)
Definition perform_plan (inter : interaction) (thread : nat) (pl : plan) (pk : packing) : option (packing * bool) :=
  p <- nth_error (pk_parts pk) (pl_i pl) ;;
  (r <- try_op inter (pl_op pl (pt_shape p)) pk ;;
   if pl_accept pl (snd r) then (pk' <- acceptMove thread (fst r) ;; Some (pk', true)) else Some (fst r, false)).
Fixpoint perform_plans (inter : interaction) (thread : nat) (pls : list (nat * plan)) (pk : packing)
  : option (packing * list (nat * bool)) :=
  match pls with
  | [] => Some (pk, [])
  | pl :: pls' =>
    r <- perform_plan inter thread (snd pl) pk ;;
    (r' <- perform_plans inter thread pls' (fst r) ;; Some (fst r', (fst pl, snd r) :: snd r'))
  end.

(** The state of a simulation. [sm_scaler]: the step size of the box scaler, if scaling is enabled. [sm_counted] is
    areOverlapsCounted. *)
Record sim := Sim {
  sm_pk : packing; sm_samplers : list sampler; sm_scaler : option R; sm_counters : list counter; sm_scaling : counter;
  sm_T : R; sm_P : R; sm_counted : bool; sm_adjust : bool; sm_div : axis -> nat;
  sm_performed : nat; sm_total : nat; sm_max : nat }.
Definition set_moved (s : sim) (pk : packing) (samplers : list sampler) (cs : list counter) : sim :=
  Sim pk samplers (sm_scaler s) cs (sm_scaling s) (sm_T s) (sm_P s) (sm_counted s) (sm_adjust s) (sm_div s) (sm_performed s) (sm_total s) (sm_max s).
Definition set_div (s : sim) (div : axis -> nat) : sim :=
  Sim (sm_pk s) (sm_samplers s) (sm_scaler s) (sm_counters s) (sm_scaling s) (sm_T s) (sm_P s) (sm_counted s) (sm_adjust s) div
    (sm_performed s) (sm_total s) (sm_max s).

(** Random numbers of a cycle and choices made by the threads: numbers for the k-th move of sequential moves and of the given domain,
    origin of the domains in the k-th attempt (relative coordinates), the thread which takes the domain, interleaving of steps of threads
    ([nth] non-empty domain makes a step, see DomModel), the order in which private counters of threads are combined, the new box for a step
    size and an old box ([None]: precondition failed), the number deciding about scaling. *)
Record chance := Chance {
  ch_draws : nat -> draw; ch_origin : nat -> vec; ch_domain : (nat * nat * nat) -> nat -> draw; ch_thread : (nat * nat * nat) -> nat;
  ch_schedule : packing -> list worker -> list nat; ch_reduction : list nat; ch_box : R -> box -> option box; ch_u : R }.

(** Samplers which were used recalculate the maximal step; all threads write the same value. *)
Definition used (ms : list (nat * bool)) (g : nat) : bool := existsb (fun m => Nat.eqb (fst m) g) ms.
Definition adjust_used (b : box) (ms : list (nat * bool)) (samplers : list sampler) : list sampler :=
  map (fun gs : nat * sampler => if used ms (fst gs) then adjustMax b (snd gs) else snd gs) (enumerate samplers).

(** Simulation.cpp:389-394. *)
Definition performMovesWithoutDomainDivision (inter : interaction) (ch : chance) (s : sim) : option (sim * list (nat * bool)) :=
  let pk := sm_pk s in
  accs <- accumulations (sm_samplers s) (pk_size pk) 0 ;;
  (pls <- make_plans (pk_box pk) (sm_samplers s) accs (seq 0 (pk_size pk)) 0 None (sm_T s) (ch_draws ch) ;;
   (r <- perform_plans inter 0 pls pk ;;
    Some (set_moved s (fst r) (adjust_used (pk_box pk) (snd r) (sm_samplers s)) (count_moves (snd r) (sm_counters s)), snd r))).

(** Simulation.cpp:421-440: domains in the order of the collapsed loops; those without particles are skipped. *)
Definition domain_coords (div : axis -> nat) : list (nat * nat * nat) :=
  flat_map (fun i => flat_map (fun j => map (fun k => (i, j, k)) (seq 0 (div AZ))) (seq 0 (div AY))) (seq 0 (div AX)).
Definition coords_of (c : nat * nat * nat) : axis -> nat :=
  fun a => match a with AX => fst (fst c) | AY => snd (fst c) | AZ => snd c end.
(** One domain: its coordinates, thread and moves. *)
Definition domain_job (b : box) (samplers : list sampler) (size : nat) (div : axis -> nat) (T : R) (d : decomposition) (ch : chance)
                      (c : nat * nat * nat) : option (option (nat * nat * nat * list (nat * plan))) :=
  particles <- getParticlesInRegion d (coords_of c) ;;
  (ad <- getActiveDomainBounds d (coords_of c) ;;
   match particles with
   | [] => Some None
   | _ =>
     accs <- accumulations samplers (Nat.div size (num_domains div)) 0 ;;
     (pls <- make_plans b samplers accs particles (ch_thread ch c) (Some (isInside ad)) T (ch_domain ch c) ;;
      Some (Some (c, pls)))
   end).
Definition somes {A} (l : list (option A)) : list A := flat_map (fun o => match o with Some x => [x] | None => [] end) l.
Definition job_worker (ch : chance) (job : nat * nat * nat * list (nat * plan)) : worker :=
  Worker (ch_thread ch (fst job)) (map snd (snd job)) None [].
Definition job_done (w : worker) : bool := match wk_todo w, wk_pending w with [], None => true | _, _ => false end.
(** Moves made in a domain: the reported energies tell which ones have been accepted. *)
Definition job_moves (job : nat * nat * nat * list (nat * plan)) (w : worker) : list (nat * bool) :=
  map (fun pe : (nat * plan) * energy => (fst (fst pe), pl_accept (snd (fst pe)) (snd pe))) (combine (snd job) (rev (wk_log w))).
(** The private counters of a thread: zeros ([omp_priv = omp_orig] before the loop) incremented for moves in all domains it took. *)
Definition private_counters (n : nat) (moves : list (nat * list (nat * bool))) (thread : nat) : list counter :=
  fold_left (fun cs tm => if Nat.eqb (fst tm) thread then count_moves (snd tm) cs else cs) moves (repeat zeroCounter n).
(** Simulation.cpp:396-445 for a decomposition which has been made. *)
Definition performMovesWithDomainDivision (inter : interaction) (ch : chance) (d : decomposition) (s : sim) : option (sim * list (nat * bool)) :=
  let pk := sm_pk s in
  jobs <- map_opt (domain_job (pk_box pk) (sm_samplers s) (pk_size pk) (sm_div s) (sm_T s) d ch) (domain_coords (sm_div s)) ;;
  let jobs := somes jobs in
  let ws := map (job_worker ch) jobs in
  (r <- run_workers inter (ch_schedule ch pk ws) (pk, ws) ;;
   if forallb job_done (snd r) then
     let moves := map (fun jw => (ch_thread ch (fst (fst jw)), job_moves (fst jw) (snd jw))) (combine jobs (snd r)) in
     let n := length (sm_counters s) in
     let temp := fold_left (fun cs th => accumulateCounters cs (private_counters n moves th)) (ch_reduction ch) (repeat zeroCounter n) in
     let ms := concat (map snd moves) in
     Some (set_moved s (fst r) (adjust_used (pk_box pk) ms (sm_samplers s)) (accumulateCounters (sm_counters s) temp), ms)
   else None).
(** Simulation.cpp:365-387. *)
Fixpoint performMoves_sim (fuel k : nat) (inter : interaction) (ch : chance) (s : sim) : option (sim * list (nat * bool)) :=
  match fuel with
  | O => None
  | S fuel' =>
    if Nat.eqb (num_domains (sm_div s)) 1 then performMovesWithoutDomainDivision inter ch s
    else match decompose (sm_pk s) inter (sm_div s) (relativeToAbsolute (pk_box (sm_pk s)) (ch_origin ch k)) with
         | DdReady d => performMovesWithDomainDivision inter ch d s
         | DdTooNarrow a => performMoves_sim fuel' (S k) inter ch (set_div s (decrement (sm_div s) a))
         | DdFailed => None
         end
  end.

(** *** Scaling, Simulation.cpp:493-531 *)

Definition scaling_exponent (n : nat) (P T oldV newV : R) : R := (INR n * ln (newV / oldV) - P * (newV - oldV) / T)%R.
(** Comparison with std::exp(exponent), the energy change included. *)
Definition scaling_accepted (u x T : R) (dE : energy) : bool :=
  match dE with NegInf => true | Fin e => Rleb u (exp (x - e / T)) | PosInf => Rleb u 0 end.
Definition positive_energy (e : energy) : bool := match e with PosInf => true | Fin e => Rltb 0 e | NegInf => false end.
Definition tryScaling_sim (inter : interaction) (ch : chance) (step : R) (s : sim) : option (packing * bool) :=
  let pk := sm_pk s in
  newBox <- ch_box ch step (pk_box pk) ;;
  if Reqb (box_volume newBox) 0 then None
  else
    let x := scaling_exponent (pk_size pk) (sm_P s) (sm_T s) (Rabs (box_volume (pk_box pk))) (Rabs (box_volume newBox)) in
    if in_soft inter || sm_counted s then
      r <- tryScaling newBox inter pk ;;
      if scaling_accepted (ch_u ch) x (sm_T s) (snd r) then Some (fst r, true) else Some (revertScaling (fst r), false)
    else if Rltb (exp x) (ch_u ch) then Some (pk, false)
    else r <- tryScaling newBox inter pk ;;
         if positive_energy (snd r) then Some (revertScaling (fst r), false) else Some (fst r, true).

(** *** Step size adjustment *)

(** TriclinicBoxScaler.cpp:12-20. *)
Definition increase_scaler (step : R) : R := (step * 1.1)%R.
Definition decrease_scaler (step : R) : R := (step / 1.1)%R.
(** Simulation.cpp:539-559. *)
Definition evaluateScalingMoveCounter (step : R) (c : counter) : R * counter :=
  if Nat.ltb (ct_recent c) 100 then (step, c)
  else let rate := currentRate c in
       (if Rltb 0.2 rate then increase_scaler step else if Rltb rate 0.1 then decrease_scaler step else step, resetCurrent c).
(** One pass of the loop Simulation.cpp:563-606. With no requested moves and no moves made the rate is 0/0, which is neither more
    than 0.2 nor less than 0.1. *)
Definition evaluate_one (size : nat) (s : sampler) (c : counter) : option (sampler * counter) :=
  n <- requested s size ;;
  if Nat.ltb (ct_recent c) (100 * n) then Some (s, c)
  else if Nat.eqb (ct_recent c) 0 then Some (s, resetCurrent c)
  else
    let rate := currentRate c in
    r <- (if Rltb 0.2 rate then increaseStepSize s else if Rltb rate 0.1 then decreaseStepSize s else Some (s, false)) ;;
    Some (fst r, resetCurrent c).
Fixpoint evaluateMoleculeMoveCounter (size : nat) (samplers : list sampler) (cs : list counter) : option (list sampler * list counter) :=
  match samplers, cs with
  | [], _ => Some ([], cs)
  | _ :: _, [] => None
  | s :: samplers', c :: cs' =>
    r <- evaluate_one size s c ;;
    (r' <- evaluateMoleculeMoveCounter size samplers' cs' ;; Some (fst r :: fst r', snd r :: snd r'))
  end.
(** Simulation.cpp:533-537. *)
Definition evaluateCounters (s : sim) : option sim :=
  r <- evaluateMoleculeMoveCounter (pk_size (sm_pk s)) (sm_samplers s) (sm_counters s) ;;
  let (scaler, c) := match sm_scaler s with
                     | Some step => let (step', c') := evaluateScalingMoveCounter step (sm_scaling s) in (Some step', c')
                     | None => (None, sm_scaling s)
                     end in
  Some (Sim (sm_pk s) (fst r) scaler (snd r) c (sm_T s) (sm_P s) (sm_counted s) (sm_adjust s) (sm_div s)
          (sm_performed s) (sm_total s) (sm_max s)).

(** *** Cycles *)

(** What happened in a cycle: particle moves, whether the box was scaled (if scaling is enabled). *)
Record cycle_log := CycleLog { cl_moves : list (nat * bool); cl_scaled : option bool }.
(** Divisions get smaller in every unsuccessful attempt. *)
Definition attempts (div : axis -> nat) : nat := S (div AX + div AY + div AZ).
(** Simulation.cpp:325-363. *)
Definition performCycle (inter : interaction) (ch : chance) (s : sim) : option (sim * cycle_log) :=
  r <- performMoves_sim (attempts (sm_div s)) 0 inter ch s ;;
  let s1 := fst r in
  (r2 <- (match sm_scaler s1 with
          | None => Some (s1, None)
          | Some step =>
            q <- tryScaling_sim inter ch step s1 ;;
            Some (Sim (fst q) (sm_samplers s1) (sm_scaler s1) (sm_counters s1) (increment (snd q) (sm_scaling s1)) (sm_T s1) (sm_P s1)
                    (sm_counted s1) (sm_adjust s1) (sm_div s1) (sm_performed s1) (sm_total s1) (sm_max s1), Some (snd q))
          end) ;;
   (s3 <- (if sm_adjust (fst r2) then evaluateCounters (fst r2) else Some (fst r2)) ;;
    Some (Sim (sm_pk s3) (sm_samplers s3) (sm_scaler s3) (sm_counters s3) (sm_scaling s3) (sm_T s3) (sm_P s3) (sm_counted s3) (sm_adjust s3)
            (sm_div s3) (S (sm_performed s3)) (S (sm_total s3)) (sm_max s3), CycleLog (snd r) (snd r2)))).

(** src/core/DynamicParameter.h: value for a cycle and the number of all cycles. *)
Definition parameter := nat -> nat -> R.
(** Simulation.cpp:793-800; the observables collector gets the same values. *)
Definition updateThermodynamicParameters (temperature pressure : parameter) (s : sim) : sim :=
  Sim (sm_pk s) (sm_samplers s) (sm_scaler s) (sm_counters s) (sm_scaling s) (temperature (sm_total s) (sm_max s))
    (match sm_scaler s with Some _ => pressure (sm_total s) (sm_max s) | None => 0%R end)
    (sm_counted s) (sm_adjust s) (sm_div s) (sm_performed s) (sm_total s) (sm_max s).
Definition set_pk (s : sim) (pk : packing) : sim := set_moved s pk (sm_samplers s) (sm_counters s).
(** Simulation.cpp:750-759; 761-768 only logs. Called from outside of the parallel region. *)
Definition fixRotationMatrices (inter : interaction) (s : sim) : option sim :=
  r <- renormalizeOrientations 0 inter (sm_counted s) (sm_pk s) ;; Some (set_pk s (fst r)).

(** What can be seen from outside: snapshots given to the collector and to the recorders (in that order), values averaged, inline
    info; each with the packing and the cycle number (averaging does not get it). *)
Inductive output :=
| OutSnapshot (cycle : nat) (pk : packing) (T P : R)
| OutRecord (cycle : nat) (pk : packing)
| OutAverage (pk : packing) (T P : R)
| OutInline (cycle : nat) (pk : packing) (T P : R).

(** Simulation.h:169-187; [recorders]: their number. *)
Record parameters := Parameters {
  pr_thermalisation : nat; pr_averaging : nat; pr_averagingEvery : nat; pr_snapshotEvery : nat; pr_inlineEvery : nat; pr_fixEvery : nat;
  pr_offset : nat; pr_recorders : nat }.
Inductive phase := Thermalisation | Averaging | Relaxation.
(** [x % every == 0]; [None]: division by zero. *)
Definition every (x period : nat) : option bool := if Nat.eqb period 0 then None else Some (Nat.eqb (Nat.modulo x period) 0).
(** One pass of the loops Simulation.cpp:140-161, 170-192, 256-277, without the interruption. *)
Definition one_pass (inter : interaction) (ph : phase) (temperature pressure : parameter) (p : parameters) (ch : chance) (s : sim)
  : option (sim * list output * cycle_log) :=
  c <- performCycle inter ch s ;;
  let s1 := match ph with Averaging => fst c | _ => updateThermodynamicParameters temperature pressure (fst c) end in
  (fx <- every (sm_total s1) (pr_fixEvery p) ;;
   (s2 <- (if (fx : bool) then fixRotationMatrices inter s1 else Some s1) ;;
    (sn <- every (sm_total s2) (pr_snapshotEvery p) ;;
     (av <- match ph with Averaging => every (sm_total s2) (pr_averagingEvery p) | _ => Some false end ;;
      (il <- every (sm_total s2) (pr_inlineEvery p) ;;
       let pk := sm_pk s2 in
       Some (s2,
             (if (sn : bool) then OutSnapshot (sm_total s2) pk (sm_T s2) (sm_P s2) :: repeat (OutRecord (sm_total s2) pk) (pr_recorders p) else []) ++
             (if (av : bool) then [OutAverage pk (sm_T s2) (sm_P s2)] else []) ++
             (if (il : bool) then [OutInline (sm_total s2) pk (sm_T s2) (sm_P s2)] else []), snd c)))))).

(** What has been done so far: the state, outputs, cycles, whether the run was interrupted. *)
Record progress := Progress { pg_sim : sim; pg_out : list output; pg_cycles : list cycle_log; pg_interrupted : bool }.
(** A phase with [n] cycles; [chances] and [interrupted] are indexed with the cycle number after the cycle. *)
Fixpoint run_phase (inter : interaction) (ph : phase) (temperature pressure : parameter) (p : parameters) (chances : nat -> chance)
                   (interrupted : nat -> bool) (n : nat) (g : progress) : option progress :=
  match n with
  | O => Some g
  | S n' =>
    r <- one_pass inter ph temperature pressure p (chances (S (sm_total (pg_sim g)))) (pg_sim g) ;;
    let '(s, out, log) := r in
    let g' := Progress s (pg_out g ++ out) (pg_cycles g ++ [log]) (interrupted (sm_total s)) in
    if interrupted (sm_total s) then Some g' else run_phase inter ph temperature pressure p chances interrupted n' g'
  end.
Definition set_adjust (s : sim) (x : bool) : sim :=
  Sim (sm_pk s) (sm_samplers s) (sm_scaler s) (sm_counters s) (sm_scaling s) (sm_T s) (sm_P s) (sm_counted s) x (sm_div s)
    (sm_performed s) (sm_total s) (sm_max s).

(** Simulation.cpp:304-323 and 118-120: a new run of a simulation with the (already combined) environment. The clearing of the collector
    and of the interruption flag is seen in the outputs being those of this run. *)
Definition start_run (temperature pressure : parameter) (samplers : list sampler) (scaler : option R) (div : axis -> nat)
                     (counted : bool) (offset max : nat) (pk : packing) : sim :=
  updateThermodynamicParameters temperature pressure
    (Sim pk samplers scaler (repeat zeroCounter (length samplers)) zeroCounter 0 0 counted true div 0 offset max).
(** Simulation.cpp:98-199: the run with the environment already combined and the samplers set up for the shape traits; [None]: failed
    precondition, undefined behaviour, or overlaps at the start. *)
Definition integrate (inter : interaction) (temperature pressure : parameter) (samplers : list sampler) (scaler : option R)
                     (div : axis -> nat) (p : parameters) (chances : nat -> chance) (interrupted : nat -> bool) (pk : packing) : option progress :=
  if negb (Nat.ltb 0 (pr_thermalisation p) || Nat.ltb 0 (pr_averaging p)) then None
  else if negb (Nat.ltb 0 (pr_inlineEvery p) && Nat.ltb 0 (pr_fixEvery p)) then None
  else if Nat.ltb 0 (pr_averaging p) && negb (Nat.ltb 0 (pr_averagingEvery p) && Nat.leb (pr_averagingEvery p) (pr_averaging p)) then None
  else if negb (Nat.leb (pr_snapshotEvery p) (pr_thermalisation p + pr_averaging p)) then None
  else
    pk1 <- setupForInteraction inter pk ;;
    (pk2 <- toggleOverlapCounting false inter pk1 ;;
     (n <- countTotalOverlaps pk2 inter false ;;
      if negb (Nat.eqb n 0) then None
      else
        let s := start_run temperature pressure samplers scaler div false (pr_offset p)
                   (pr_offset p + pr_thermalisation p + pr_averaging p) pk2 in
        g <- run_phase inter Thermalisation temperature pressure p chances interrupted (pr_thermalisation p) (Progress s [] [] false) ;;
        if pg_interrupted g then Some g
        else run_phase inter Averaging temperature pressure p chances interrupted (pr_averaging p)
               (Progress (set_adjust (pg_sim g) false) (pg_out g) (pg_cycles g) false))).

(** Simulation.cpp:222-284: [fuel] bounds the number of cycles; [maxCycles] is the largest size_t. *)
Fixpoint relax_loop (fuel : nat) (inter : interaction) (temperature pressure : parameter) (p : parameters) (chances : nat -> chance)
                    (interrupted : nat -> bool) (g : progress) : option progress :=
  match fuel with
  | O => None
  | S fuel' =>
    n <- getCachedNumberOfOverlaps (sm_pk (pg_sim g)) ;;
    if negb (0 <? n)%Z then Some g
    else
      r <- one_pass inter Relaxation temperature pressure p (chances (S (sm_total (pg_sim g)))) (pg_sim g) ;;
      let '(s, out, log) := r in
      let g' := Progress s (pg_out g ++ out) (pg_cycles g ++ [log]) (interrupted (sm_total s)) in
      if interrupted (sm_total s) then Some g' else relax_loop fuel' inter temperature pressure p chances interrupted g'
  end.
Definition relaxOverlaps (fuel : nat) (inter : interaction) (temperature pressure : parameter) (samplers : list sampler)
                         (scaler : option R) (div : axis -> nat) (maxCycles : nat) (p : parameters) (chances : nat -> chance)
                         (interrupted : nat -> bool) (pk : packing) : option progress :=
  if negb (Nat.ltb 0 (pr_inlineEvery p) && Nat.ltb 0 (pr_fixEvery p) && Nat.ltb 0 (pr_snapshotEvery p)) then None
  else
    pk1 <- setupForInteraction inter pk ;;
    (pk2 <- toggleOverlapCounting true inter pk1 ;;
     relax_loop fuel inter temperature pressure p chances interrupted
       (Progress (start_run temperature pressure samplers scaler div true (pr_offset p) maxCycles pk2) [] [] false)).

(** *** Environments, Simulation.h:113-165 and Simulation.cpp:802-894 *)

(** Everything is held by (shared) pointers, whose types are parameters here: an environment which takes over the samplers of another one
    goes on with their current step sizes. *)
Section Environment.
Context {Par Smp Scl : Type}.
Inductive scaler_status := ScalerUnset | ScalerDisabled | ScalerSet (s : Scl).
Record environment := Env { ev_temperature : option Par; ev_pressure : option Par; ev_samplers : list Smp; ev_scaler : scaler_status }.
Definition emptyEnv : environment := Env None None [] ScalerUnset.
Definition setTemperature (x : Par) (e : environment) := Env (Some x) (ev_pressure e) (ev_samplers e) (ev_scaler e).
Definition setPressure (x : Par) (e : environment) := Env (ev_temperature e) (Some x) (ev_samplers e) (ev_scaler e).
Definition setMoveSamplers (x : list Smp) (e : environment) : option environment :=
  match x with [] => None | _ => Some (Env (ev_temperature e) (ev_pressure e) x (ev_scaler e)) end.
Definition setBoxScaler (x : Scl) (e : environment) := Env (ev_temperature e) (ev_pressure e) (ev_samplers e) (ScalerSet x).
Definition disableBoxScaling (e : environment) := Env (ev_temperature e) (ev_pressure e) (ev_samplers e) ScalerDisabled.
(** Simulation.cpp:802-815. *)
Definition combineEnv (e other : environment) : environment :=
  Env (match ev_temperature other with Some x => Some x | None => ev_temperature e end)
      (match ev_pressure other with Some x => Some x | None => ev_pressure e end)
      (match ev_samplers other with [] => ev_samplers e | x => x end)
      (match ev_scaler other with ScalerUnset => ev_scaler e | x => x end).
(** Simulation.cpp:817-825. *)
Definition isComplete (e : environment) : bool :=
  let has {A} (o : option A) := match o with Some _ => true | None => false end in
  match ev_scaler e with
  | ScalerUnset => false
  | ScalerSet _ => has (ev_temperature e) && has (ev_pressure e) && match ev_samplers e with [] => false | _ => true end
  | ScalerDisabled => has (ev_temperature e) && match ev_samplers e with [] => false | _ => true end
  end.

(** CasinoMode.cpp:313-342 (step sizes are overwritten through the pointers): the environment of the run to start with. [None]: incomplete,
    or no such run. *)
Definition recreateEnvironment (base : environment) (runs : list environment) (start : nat) (continuation : bool) : option environment :=
  let env :=
    if continuation then Some (fold_left combineEnv (firstn (S start) runs) base)
    else r <- nth_error runs start ;; Some (combineEnv (fold_left combineEnv (firstn start runs) base) r) in
  e <- env ;; if isComplete e && Nat.ltb start (length runs) then Some e else None.
(** CasinoMode.cpp:168-198 with Simulation.cpp:109-110: environments of all performed runs, as used by the simulation, which combines what
    it is given with what it had before. *)
Fixpoint run_environments (env simEnv : environment) (runs : list environment) : list environment :=
  match runs with
  | [] => []
  | r :: runs' =>
    let env' := combineEnv env r in
    let simEnv' := combineEnv simEnv env' in
    simEnv' :: run_environments env' simEnv' runs'
  end.
Definition casino_environments (base : environment) (runs : list environment) (start : nat) (continuation : bool) : option (list environment) :=
  env <- recreateEnvironment base runs start continuation ;;
  let simEnv := combineEnv emptyEnv env in
  Some (simEnv :: run_environments env simEnv (skipn (S start) runs)).
End Environment.
