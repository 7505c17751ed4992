(** Replaying trajectories. *)
From Coq Require Import Reals ZArith List Bool Lia.
From Verif Require Import TextModel LoadModel SimModel TrjModel TrjSpec TrjExamples DynModel ReplayModel ReplaySpec ReplayModeProofs ReplayMoreProofs ReplayExamples.
Import ListNotations.
Open Scope Z_scope.

(** C76: every combination of options gives exactly what is expected from the recorded snapshots, with the parameters in force in the run. *)
Theorem C76_replay : forall (Par Smp Scl V : Type) (value : Par -> Z -> Z -> option V) zero files size (base : @environment Par Smp Scl) runs o name i r input content step ss,
  asks o -> legal_options o -> named o runs name -> chosen name runs i r -> tr_ramtrj r = Some input -> files input = Some content ->
  fits size step (Z.of_nat (length ss)) -> Forall (good_snapshot size) ss -> trajectory size step ss content ->
  exists e, in_force base (map tr_env (firstn (S i) runs)) e /\
    expected value zero step ss e input o size (trajectoryMode value zero files size base runs o).
Proof. exact @whole_ok. Qed.
Print Assumptions C76_replay.
Example C76_example : (asks all_options /\ legal_options all_options /\ named all_options [run1 None] last_name /\ chosen last_name [run1 None] 0 (run1 None) /\
    disk one_trj = Some recorded) /\ fits 2 10 (Z.of_nat (length snaps)) /\ Forall (good_snapshot 2) snaps /\ trajectory 2 10 snaps recorded.
Proof. split; [exact all_met|]. split; [exact snaps_fit|]. split; [exact snaps_good|exact recorded_trajectory]. Qed.
Example C76_example2 : mode1 2 None all_options =
  ([RamtrjFile some_file (match recording [] 2 10 false (numbered 10 0 (firstn 2 snaps)) with Some cs => cs | None => [] end);
    XyzFile [98] [(snap 70000, 10); (snap 12, 20)]; ObservablesFile [99] [(snap 70000, 10, (2%R, 3%R)); (snap 12, 20, (2%R, 3%R))];
    BulkFile [101; 95; 102; 46; 116; 120; 116] [102] [snap 12]; BulkFile [101; 95; 103; 46; 116; 120; 116] [103] [snap 12];
    SnapshotFile [104] (snap 12, 20); SnapshotFile [105] (snap 12, 20)], Success).
Proof. exact everything. Qed.
(** A trajectory left by a process which died at any moment is replayed with auto-fix up to the last complete snapshot; without auto-fix it is
    refused or, if nothing is missing, replayed. *)
Theorem C76_interrupted : forall (Par Smp Scl V : Type) (value : Par -> Z -> Z -> option V) zero files size (base : @environment Par Smp Scl) runs o name i r input step append old new content cs m,
  asks o -> legal_options o -> named o runs name -> chosen name runs i r -> tr_ramtrj r = Some input ->
  fits size step (Z.of_nat (length (old ++ new))) -> Forall (good_snapshot size) (old ++ new) -> session size step append old content ->
  recording content size step append (numbered step (Z.of_nat (length old)) new) = Some cs ->
  files input = Some (left_after m cs content) ->
  let result := trajectoryMode value zero files size base runs o in
  ((length (left_after m cs content) < 33)%nat -> result = ([], Failure)) /\
  ((33 <= length (left_after m cs content))%nat -> exists j rest, partly size (old ++ new) j rest (left_after m cs content) /\ (length old <= j)%nat /\
     exists e, in_force base (map tr_env (firstn (S i) runs)) e /\
     (op_fix o = true -> expected value zero step (firstn j (old ++ new)) e input o size result) /\
     (op_fix o = false -> result = ([], Failure) \/ rest = [] /\ expected value zero step (firstn j (old ++ new)) e input o size result)).
Proof. exact @crashed_ok. Qed.
Print Assumptions C76_interrupted.
(** What is refused before anything is stored. *)
Theorem C76_refused : forall (Par Smp Scl V : Type) (value : Par -> Z -> Z -> option V) zero files size (base : @environment Par Smp Scl) runs o,
  let result := trajectoryMode value zero files size base runs o in
  (~ asks o -> result = ([], Rejected)) /\
  (op_run o = Some auto_name -> result = ([], Rejected)) /\
  (op_run o = None -> (2 <= length runs)%nat -> result = ([], Rejected)) /\
  (forall name, op_run o = Some name -> name <> first_name -> name <> last_name -> Forall (fun r => run_name (tr_run r) <> name) runs -> result = ([], Rejected)) /\
  (forall name i r, asks o -> named o runs name -> chosen name runs i r ->
     (tr_ramtrj r = None -> result = ([], Rejected)) /\
     (forall input, tr_ramtrj r = Some input -> files input = None -> result = ([], Rejected)) /\
     (forall input n step ss content, tr_ramtrj r = Some input -> files input = Some content -> fits n step (Z.of_nat (length ss)) -> Forall (good_snapshot n) ss ->
        trajectory n step ss content -> n <> size -> op_fix o = false -> result = ([], Rejected))).
Proof. exact @refused_cases. Qed.
Print Assumptions C76_refused.
(** Names of files of bulk observables. *)
Theorem C76_bulk_name : forall pattern name, bulk_name pattern name (bulkName pattern name).
Proof. exact bulk_named. Qed.
Print Assumptions C76_bulk_name.
(** Trajectories and snapshots are never stored over the input trajectory ... *)
Theorem C76_input_spared : forall (Par Smp Scl V : Type) (value : Par -> Z -> Z -> option V) zero step ss (e : @environment Par Smp Scl) input o n result,
  expected value zero step ss e input o n result -> Forall (spares input) (fst result).
Proof. exact @spared. Qed.
Print Assumptions C76_input_spared.
(** ... but observables are, if asked for under its name. *)
Theorem C76_overwritten_refuted : exists rows, disk one_trj = Some recorded /\ mode1 2 None (only_observables one_trj) = ([ObservablesFile one_trj rows], Success).
Proof. destruct overwritten as (rows & E). exists rows. split; [reflexivity|exact E]. Qed.
Print Assumptions C76_overwritten_refuted.
(** The temperature and the pressure at a cycle do not depend on how many cycles there are, whenever they have values ... *)
Theorem C76_same_parameters : forall (Smp Scl : Type) (e : @environment parameter Smp Scl) zero, written_environment e -> forall c t1 t2 T P T' P',
  state_at (fun x => x) zero e c t1 T P -> state_at (fun x => x) zero e c t2 T' P' -> T = T' /\ P = P'.
Proof. exact @same_state. Qed.
Print Assumptions C76_same_parameters.
(** ... but they may have none in a replay of a trajectory which is shorter than the simulation. *)
Theorem C76_unfinished_refuted : written_parameter (two_pieces 40) /\
  (forall c, In c [10; 20; 30] -> two_pieces 40 c 50 = Some 1%R) /\ mode1 2 (Some (two_pieces 40)) (only_observables some_file) = ([], Violated).
Proof. split; [apply two_written; lia|exact unfinished]. Qed.
Print Assumptions C76_unfinished_refuted.
(** Before a run it is checked that parameters are constant in all cycles of averaging, from its first one on ... *)
Theorem C76_checked : forall (V : Type) (same : V -> V -> bool) (value : Z -> Z -> option V) (th av : option Z) offset, (forall a b, same a b = true <-> a = b) ->
  0 <= value_or0 th -> 0 < value_or0 av -> 0 <= offset -> value_or0 th + offset + value_or0 av < 2 ^ 64 ->
  let first := value_or0 th + offset in let total := first + value_or0 av in
  (verifyDynamicParameter same value th av offset = Go tt <-> exists v, forall c, first <= c < total -> value c total = Some v).
Proof. exact @verified. Qed.
Print Assumptions C76_checked.
(** ... but not after the last one, where the value used in a replay may be another. *)
Theorem C76_last_cycle_refuted : verifyDynamicParameter same_real (two_pieces 50) (Some 30) (Some 20) 0 = Go tt /\
  (forall c, 30 <= c < 50 -> two_pieces 50 c 50 = Some 1%R) /\ two_pieces 50 50 50 = Some 2%R.
Proof. exact last_cycle. Qed.
Print Assumptions C76_last_cycle_refuted.
Example C76_example3 : 0 <= value_or0 (Some 30) /\ 0 < value_or0 (Some 20) /\ value_or0 (Some 30) + 0 + value_or0 (Some 20) < 2 ^ 64.
Proof. cbn; lia. Qed.
(** Asking for the last snapshot of a trajectory cut to no cycles is not refused but breaks a precondition. *)
Theorem C76_nothing_refuted : mode1 2 None (only_snapshot 0) = ([], Violated).
Proof. exact cut_to_nothing. Qed.
Print Assumptions C76_nothing_refuted.
(** With auto-fix a complete trajectory of another number of molecules is accepted, and a precondition is broken later. *)
Theorem C76_fix_size_refuted : mode1 3 None (fixing []) = ([], Success) /\ mode1 3 None (fixing [some_file]) = ([], Violated).
Proof. exact fixed_wrong_size. Qed.
Print Assumptions C76_fix_size_refuted.
