(** [src/frontend/modes/TrajectoryMode.cpp], [IO::loadRamtrjPlayer], [IO::storeSnapshots] and [IO::storeBulkObservables] of
    [src/frontend/IO.cpp], and [CasinoMode::verifyDynamicParameter]: what the trajectory mode does with a recorded trajectory.

    Simplifications:
    - options are parsed, and expressions in them matched, before the mode begins;
    - the initial packing is given by the number of its shapes; Packing::reset, which puts a snapshot into it, does not fail;
    - an output is what is given to the recorder, the collector or the writer, under the name of its file; a RAMTRJ recorder gives commands for
      the file (see TrjModel); files can be opened; the player keeps what it has read from its file;
    - log messages (and option -I, which only prints) are left out;
    - dynamic parameters are of any type, [value] being DynamicParameter::getValueForCycle, [None]: a failed precondition. *)
From Coq Require Import ZArith List Bool.
From Verif Require Import TextModel LoadModel SimModel TrjModel OptModel.
Import ListNotations.
Open Scope Z_scope.

(** *** Players: RamtrjPlayer or TruncatedPlayer *)
Inductive source := Whole (p : player) | Cut (t : truncated).
Definition inner (s : source) : player := match s with Whole p => p | Cut t => tp_player t end.
(** RamtrjPlayer.cpp:47-51 and TruncatedPlayer.cpp:18-23 *)
Definition more (s : source) : bool := match s with Whole p => hasNext p | Cut t => hasNextT t end.
Definition call (size : Z) (n : nav) (s : source) : option (source * reply) :=
  match s with
  | Whole p => r <- navigate size n p ;; Some (Whole (fst r), snd r)
  | Cut t => r <- navigateT size n t ;; Some (Cut (fst r), snd r)
  end.
(** TruncatedPlayer.h:30 *)
Definition currentCycles (s : source) : Z := getCurrentSnapshotCycles (inner s).
(** TruncatedPlayer.h:31 *)
Definition cycleStep (s : source) : Z := hd_step (py_header (inner s)).
(** TruncatedPlayer.h:32 *)
Definition numMolecules (s : source) : Z := hd_particles (py_header (inner s)).
(** TruncatedPlayer.cpp:39-41 *)
Definition totalCycles (s : source) : Z := match s with Whole p => getTotalCycles p | Cut t => tp_total t end.

(** *** What the mode gives *)

(** EXIT_SUCCESS, EXIT_FAILURE, an exception, a failed precondition (or undefined behaviour). *)
Inductive ending := Success | Failure | Rejected | Violated.
(** A step of the mode: it goes on with a value, or ends. *)
Inductive step_result (A : Type) := Go (a : A) | Stop (e : ending).
Arguments Go {A}. Arguments Stop {A}.
Definition andThen {A B} (r : step_result A) (f : A -> step_result B) : step_result B := match r with Go a => f a | Stop e => Stop e end.
Definition orElse {A} (o : option A) (e : ending) : step_result A := match o with Some a => Go a | None => Stop e end.

(** TrajectoryMode.cpp:232-236, 258-274, 321-325: [while (player->hasNext())], each snapshot being given to [use] with the current cycle and all
    cycles. *)
Fixpoint replay {X} (fuel : nat) (size : Z) (use : snapshot -> Z -> Z -> X -> option X) (s : source) (x : X) : step_result (source * X) :=
  if negb (more s) then Go (s, x)
  else match fuel with
       | O => Stop Violated
       | S fuel' =>
         match call size Next s with
         | Some (s', Shown snap) =>
           andThen (orElse (use snap (currentCycles s') (totalCycles s') x) Violated) (fun x' => replay fuel' size use s' x')
         | _ => Stop Violated
         end
       end.
(** Not a part of the program: as many steps as there can be. *)
Definition enough (s : source) : nat := S (Z.to_nat (hd_snapshots (py_header (inner s)))).

Inductive format := Ramtrj | Xyz.

Section mode.
Context {Par Smp Scl V : Type}.
Variables (value : Par -> Z -> Z -> option V) (zero : V).
Notation env := (@environment Par Smp Scl).

Inductive output :=
| RamtrjFile (name : text) (commands : list io)
| XyzFile (name : text) (frames : list (snapshot * Z))
| ObservablesFile (name : text) (rows : list (snapshot * Z * (V * V)))
| BulkFile (name : text) (signature : text) (frames : list snapshot)
| SnapshotFile (name : text) (frame : snapshot * Z).

(** TrajectoryMode.cpp:215-246 with SimulationRecorderFactory.cpp: the file is truncated by opening. *)
Definition storeTrajectory (size : Z) (input : text) (out : format * text) (s : source) : step_result (source * output) :=
  if text_eqb (snd out) input then Stop Rejected
  else
    andThen (match fst out with
             | Ramtrj =>
               andThen (orElse (newRecorder [] (numMolecules s) (cycleStep s) false) Violated) (fun r =>
               andThen (replay (enough s) size
                          (fun snap cycles _ x => a <- recordSnapshot snap cycles (fst x) ;; Some (fst a, snd x ++ snd a)) s r) (fun a =>
               Go (fst a, RamtrjFile (snd out) (snd (snd a) ++ snd (close0 (fst (snd a)))))))
             | Xyz =>
               andThen (replay (enough s) size (fun snap cycles _ x => Some (x ++ [(snap, cycles)])) s []) (fun a =>
               Go (fst a, XyzFile (snd out) (snd a)))
             end) (fun a =>
    match call size Reset (fst a) with
    | Some (s', _) => Go (s', snd a)
    | None => Stop Violated
    end).
Fixpoint storeTrajectories (size : Z) (input : text) (outs : list (format * text)) (s : source) (done : list output) :
  list output * step_result source :=
  match outs with
  | [] => (done, Go s)
  | o :: outs' =>
    match storeTrajectory size input o s with
    | Go (s', out) => storeTrajectories size input outs' s' (done ++ [out])
    | Stop e => (done, Stop e)
    end
  end.

(** TrajectoryMode.cpp:262-269, Simulation.cpp:827-830 and Simulation.h:145-147 *)
Definition thermodynamic (e : env) (cycles total : Z) : option (V * V) :=
  t <- ev_temperature e ;;
  (temperature <- value t cycles total ;;
   (pressure <- match ev_scaler e with
                | ScalerSet _ => p <- ev_pressure e ;; value p cycles total
                | _ => Some zero
                end ;; Some (temperature, pressure))).
(** TrajectoryMode.cpp:248-284 and IO.cpp:16-30; [observables]: their expressions *)
Definition storeObservables (size : Z) (e : env) (name : text) (observables : list text) (s : source) : step_result (source * output) :=
  match observables with
  | [] => Stop Rejected
  | _ =>
    andThen (replay (enough s) size
               (fun snap cycles total x => tp <- thermodynamic e cycles total ;; Some (x ++ [(snap, cycles, tp)])) s []) (fun a =>
    Go (fst a, ObservablesFile name (snd a)))
  end.

(** std::regex_search and std::regex_replace with the pattern "\{\}" (signatures of observables have no dollar signs) *)
Fixpoint hasBraces (t : text) : bool :=
  match t with [] => false | c :: t' => match t' with d :: _ => ((c =? 123) && (d =? 125)) || hasBraces t' | [] => false end end.
Fixpoint replaceBraces (t name : text) : text :=
  match t with
  | [] => []
  | c :: t' => match t' with
               | d :: t'' => if (c =? 123) && (d =? 125) then name ++ replaceBraces t'' name else c :: replaceBraces t' name
               | [] => [c]
               end
  end.
(** "_{}.txt" *)
Definition bulk_suffix : text := [95; 123; 125; 46; 116; 120; 116].
(** IO.cpp:65-76 *)
Definition bulkName (pattern signature : text) : text :=
  replaceBraces (if hasBraces pattern then pattern else pattern ++ bulk_suffix) signature.
(** TrajectoryMode.cpp:310-316; size_t arithmetic *)
Definition startingCycle (start step : Z) : Z :=
  if start mod step =? 0 then start else wrap (wrap (start / step + 1) * step).
(** TrajectoryMode.cpp:286-334; [observables]: signatures of bulk observables *)
Definition storeBulk (size : Z) (pattern : text) (observables : list text) (averagingStart : option Z) (s : source) :
  step_result (source * list output) :=
  match observables, averagingStart with
  | [], _ | _, None => Stop Rejected
  | _, Some start =>
    if totalCycles s <=? start then Stop Rejected
    else if start <? cycleStep s then Stop Rejected
    else if cycleStep s =? 0 then Stop Violated
    else match call size (Jump (startingCycle start (cycleStep s))) s with
         | Some (s', Shown first) =>
           andThen (replay (enough s') size (fun snap _ _ x => Some (x ++ [snap])) s' [first]) (fun a =>
           Go (fst a, map (fun o => BulkFile (bulkName pattern o) o (snd a)) observables))
         | _ => Stop Violated
         end
  end.

(** TrajectoryMode.cpp:342-350 *)
Fixpoint writeSnapshots (input : text) (names : list text) (frame : snapshot * Z) (done : list output) : list output * ending :=
  match names with
  | [] => (done, Success)
  | n :: names' => if text_eqb n input then (done, Rejected) else writeSnapshots input names' frame (done ++ [SnapshotFile n frame])
  end.
(** TrajectoryMode.cpp:336-353 *)
Definition storeSnapshots (size : Z) (input : text) (names : list text) (s : source) (done : list output) : list output * ending :=
  match names with
  | [] => (done, Success)
  | _ => match call size Last s with
         | Some (s', Shown snap) => writeSnapshots input names (snap, currentCycles s') done
         | _ => (done, Violated)
         end
  end.

(** Options. *)
Record options := Options {
  op_info : bool; op_run : option text; op_fix : bool; op_truncate : option Z; op_trajectories : list (format * text);
  op_observables : option (text * list text); op_bulk : option (text * list text); op_averagingStart : option Z; op_snapshots : list text }.

(** TrajectoryMode.cpp:201-213 *)
Definition truncateSource (n : option Z) (p : player) : step_result source :=
  match n with
  | None => Go (Whole p)
  | Some n =>
    if negb (n <=? getTotalCycles p) then Stop Rejected
    else if hd_step (py_header p) =? 0 then Stop Violated
    else if negb (n mod hd_step (py_header p) =? 0) then Stop Rejected
    else andThen (orElse (newTruncated p n) Violated) (fun t => Go (Cut t))
  end.
(** IO.cpp:32-62 for a file with the given content; AutoFix needs a positive number of molecules (RamtrjPlayer.cpp:147-149) *)
Definition loadPlayer (content : list Z) (size : Z) (fix_ : bool) : step_result player :=
  if fix_ then
    if size =? 0 then Stop Violated
    else match snd (openFixing content (newAutoFix size)) with Some p => Go p | None => Stop Failure end
  else match openPlayer content with
       | None => Stop Failure
       | Some p => if hd_particles (py_header p) =? size then Go p else Stop Rejected
       end.

(** TrajectoryMode.cpp:201-353: everything after the player has been loaded *)
Definition process (size : Z) (e : env) (input : text) (o : options) (p : player) : list output * ending :=
  match truncateSource (op_truncate o) p with
  | Stop x => ([], x)
  | Go s0 =>
    match storeTrajectories size input (op_trajectories o) s0 [] with
    | (out1, Stop x) => (out1, x)
    | (out1, Go s1) =>
      match match op_observables o with
            | None => Go (s1, [])
            | Some (name, obs) => andThen (storeObservables size e name obs s1) (fun a => Go (fst a, [snd a]))
            end with
      | Stop x => (out1, x)
      | Go (s2, out2) =>
        match match op_bulk o with
              | None => Go (s2, [])
              | Some (pattern, obs) => storeBulk size pattern obs (op_averagingStart o) s2
              end with
        | Stop x => (out1 ++ out2, x)
        | Go (s3, out3) => storeSnapshots size input (op_snapshots o) s3 (out1 ++ out2 ++ out3)
        end
      end
    end
  end.

(** RampackParameters.h:37-74: what matters here. *)
Record trun := TRun { tr_run : run; tr_env : env; tr_ramtrj : option text }.
(** TrajectoryMode.cpp:365-368 *)
Definition defaultRunName (runs : list trun) : option text := if Nat.ltb (length runs) 2 then Some last_name else None.
(** TrajectoryMode.cpp:355-363 *)
Definition rawEnvironment (base : env) (runs : list trun) (start : nat) : env :=
  fold_left combineEnv (map tr_env (firstn (S start) runs)) base.
Definition some_option (o : options) : bool :=
  op_info o || match op_observables o with Some _ => true | None => false end || match op_bulk o with Some _ => true | None => false end
  || match op_snapshots o with [] => false | _ => true end || match op_trajectories o with [] => false | _ => true end.
(** TrajectoryMode.cpp:139-353; [files]: contents of files; [size]: the number of molecules *)
Definition trajectoryMode (files : text -> option (list Z)) (size : Z) (base : env) (runs : list trun) (o : options) : list output * ending :=
  if negb (some_option o) then ([], Rejected)
  else if match op_run o with Some n => text_eqb n auto_name | None => false end then ([], Rejected)
  else match (match op_run o with Some n => Some n | None => defaultRunName runs end) with
       | None => ([], Rejected)
       | Some name =>
         match findRunIndex name (map tr_run runs) with
         | LoadModel.Refused _ => ([], Rejected)
         | Undefined => ([], Violated)
         | LoadModel.Done i =>
           match nth_error runs i with
           | None => ([], Violated)
           | Some r =>
             match tr_ramtrj r with
             | None => ([], Rejected)
             | Some input =>
               match files input with
               | None => ([], Rejected)
               | Some content =>
                 match loadPlayer content size (op_fix o) with
                 | Stop x => ([], x)
                 | Go p => process size (rawEnvironment base runs i) input o p
                 end
               end
             end
           end
         end
       end.
End mode.

(** *** CasinoMode::verifyDynamicParameter, CasinoMode.cpp:367-401 *)
Section verify.
Context {V : Type}.
Variables (same : V -> V -> bool) (value : Z -> Z -> option V).
(** CasinoMode.cpp:376-377, [n] cycles from [c] on *)
Fixpoint constant_on (n : nat) (c total : Z) (v : V) : step_result unit :=
  match n with
  | O => Go tt
  | S n' => match value c total with
            | None => Stop Violated
            | Some w => if same w v then constant_on n' (c + 1) total v else Stop Rejected
            end
  end.
(** [averaging == 0] is false for std::nullopt *)
Definition verifyDynamicParameter (thermalization averaging : option Z) (cycleOffset : Z) : step_result unit :=
  match averaging with
  | Some 0 => Go tt
  | _ =>
    let first := wrap (value_or0 thermalization + cycleOffset) in
    let total := wrap (first + value_or0 averaging) in
    match value first total with
    | None => Stop Violated
    | Some v => constant_on (Z.to_nat (total - (first + 1))) (wrap (first + 1)) total v
    end
  end.
End verify.
