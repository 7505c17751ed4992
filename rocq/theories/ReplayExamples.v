(** Replays of a short trajectory (C76). *)
From Coq Require Import Reals ZArith List Bool Lia.
From Verif Require Import TextModel LoadModel SimModel TrjModel TrjSpec TrjProofs TrjPlayProofs TrjRecProofs TrjPropProofs TrjExamples DynModel ReplayModel ReplaySpec ReplayModeProofs ReplayMoreProofs.
Import ListNotations.
Open Scope Z_scope.

Definition env1 : Type := @environment parameter unit unit.
(** "one.ramtrj" *)
Definition one_trj : text := [111; 110; 101; 46; 114; 97; 109; 116; 114; 106].
Definition some_file : text := [97].
Definition base_env : env1 := Env (Some (constant 2)) (Some (constant 3)) [] (ScalerSet tt).
Definition run1 (t : option parameter) : @trun parameter unit unit :=
  TRun (Run [114; 49] (Some (Cycles (Some 30) (Some 20) 10 10)) None) (Env t None [] ScalerUnset) (Some one_trj).
Definition disk : text -> option (list Z) := fun name => if text_eqb name one_trj then Some recorded else None.
Definition mode1 (size : Z) (t : option parameter) (o : options) := trajectoryMode (V := R) (fun x : parameter => x) 0%R disk size base_env [run1 t] o.
(** Everything at once: cut to 20 cycles, a copy, averages, the last snapshot. *)
Definition all_options : options :=
  Options true None false (Some 20) [(Ramtrj, some_file); (Xyz, [98])] (Some ([99], [[100]])) (Some ([101], [[102]; [103]])) (Some 13) [[104]; [105]].
Lemma everything : mode1 2 None all_options =
  ([RamtrjFile some_file (match recording [] 2 10 false (numbered 10 0 (firstn 2 snaps)) with Some cs => cs | None => [] end);
    XyzFile [98] [(snap 70000, 10); (snap 12, 20)]; ObservablesFile [99] [(snap 70000, 10, (2%R, 3%R)); (snap 12, 20, (2%R, 3%R))];
    BulkFile [101; 95; 102; 46; 116; 120; 116] [102] [snap 12]; BulkFile [101; 95; 103; 46; 116; 120; 116] [103] [snap 12];
    SnapshotFile [104] (snap 12, 20); SnapshotFile [105] (snap 12, 20)], Success).
Proof. unfold mode1, trajectoryMode. vm_compute. reflexivity. Qed.
Lemma all_met : asks all_options /\ legal_options all_options /\ named all_options [run1 None] last_name /\ chosen last_name [run1 None] 0 (run1 None) /\ disk one_trj = Some recorded.
Proof.
  split; [left; reflexivity|]. split; [unfold legal_options, is_word64; cbn; lia|]. split; [split; [reflexivity|cbn; lia]|]. split; [split; reflexivity|reflexivity].
Qed.

Definition only_observables (name : text) : options := Options false None false None [] (Some (name, [[100]])) None None [].
(** Observables stored over the trajectory. *)
Lemma overwritten : exists rows, mode1 2 None (only_observables one_trj) = ([ObservablesFile one_trj rows], Success).
Proof. eexists. vm_compute. reflexivity. Qed.

(** A parameter whose second piece begins at cycle 40, and a trajectory with 30 cycles of 50. *)
Definition pieces (b : Z) : list (Z * parameter) := [(0, constant 1); (b, constant 2)].
Definition two_pieces (b : Z) : parameter := piecewise_value (match piecewise (pieces b) with Some us => us | None => [] end).
Lemma two_written b : 0 <= b -> written_parameter (two_pieces b).
Proof.
  intros Hb. unfold two_pieces. destruct (piecewise (pieces b)) as [us|] eqn:E.
  - apply (wp_piecewise (pieces b) us); [|exact E]. intros x [<-|[<-|[]]]; constructor.
  - exfalso. unfold piecewise, pieces in E. cbn [fst Z.eqb negb is_sorted] in E. destruct (Z.ltb_spec b 0); [lia|]. cbn in E. discriminate.
Qed.
Lemma unfinished : (forall c, In c [10; 20; 30] -> two_pieces 40 c 50 = Some 1%R) /\ mode1 2 (Some (two_pieces 40)) (only_observables some_file) = ([], Violated).
Proof. split; [intros c [<-|[<-|[<-|[]]]]; reflexivity|]. vm_compute. reflexivity. Qed.

(** A parameter which changes at the very end of averaging is accepted. *)
Definition same_real (a b : R) : bool := if Req_EM_T a b then true else false.
Lemma same_real_ok a b : same_real a b = true <-> a = b.
Proof. unfold same_real. destruct (Req_EM_T a b); split; congruence. Qed.
Lemma first_piece c : 0 <= c < 50 -> two_pieces 50 c 50 = Some 1%R.
Proof.
  intros Hc. unfold two_pieces, pieces, piecewise, piecewise_value. cbn [fst snd Z.eqb Pos.eqb negb is_sorted Z.ltb Z.compare andb map last upper_bound Z.leb Pos.compare Pos.compare_cont].
  assert (E : c <=? 50 = true) by lia. assert (E1 : c <? 0 = false) by lia. assert (E2 : c <? 50 = true) by lia. rewrite E, E1. cbn [fst snd negb]. rewrite E2. cbn [fst snd rev app].
  unfold shifted, constant. change (as_long 0) with 0. cbn [Z.ltb Z.compare Z.opp]. assert (E3 : c <=? size_max - 0 = true) by (unfold size_max; lia). rewrite E3. reflexivity.
Qed.
Lemma last_cycle : verifyDynamicParameter same_real (two_pieces 50) (Some 30) (Some 20) 0 = Go tt /\
  (forall c, 30 <= c < 50 -> two_pieces 50 c 50 = Some 1%R) /\ two_pieces 50 50 50 = Some 2%R.
Proof.
  split; [|split; [intros c Hc; apply first_piece; lia|reflexivity]].
  apply (verified same_real (two_pieces 50) (Some 30) (Some 20) 0 same_real_ok); cbn [value_or0]; try lia. exists 1%R. intros c Hc. apply first_piece. lia.
Qed.

(** Cut to nothing, then the last snapshot; auto-fix with another number of molecules. *)
Definition only_snapshot (n : Z) : options := Options false None false (Some n) [] None None None [some_file].
Definition fixing (snapshots : list text) : options := Options true None true None [] None None None snapshots.
Lemma cut_to_nothing : mode1 2 None (only_snapshot 0) = ([], Violated).
Proof. vm_compute. reflexivity. Qed.
Lemma fixed_wrong_size : mode1 3 None (fixing []) = ([], Success) /\ mode1 3 None (fixing [some_file]) = ([], Violated).
Proof. split; vm_compute; reflexivity. Qed.
