From Coq Require Import Reals ZArith List Bool.
From Verif Require Import GeomModel BoxModel BoxSpec HistModel HistSpec PackSpec CorrModel CorrSpec CorrEnumProofs CorrHistProofs CorrWholeProofs CorrMeanProofs CorrEvolProofs CorrFindProofs CorrSelfProofs CorrExamples.
Import ListNotations.
Local Open Scope R_scope.

(** Pairs which are enumerated: each one once, also a particle with itself; the distance vector is unique. *)
Theorem C67_enumerated : forall b point sn, constructed (sn_box sn) -> legal_binning b ->
  (exists l, enumeratePairs b point sn = Some l /\ NoDup l /\ forall i j v, In (i, j, v) l <-> (i <= j < length (sn_shapes sn))%nat /\ separated point sn i j b v) /\
  forall i j u v, separated point sn i j b u -> separated point sn i j b v -> u = v.
Proof. exact enumerated_unique. Qed.
Print Assumptions C67_enumerated.
(** In linear binning the distance is a relative coordinate times the height of the box. *)
Theorem C67_linear_distance : forall point sn i j a v, constructed (sn_box sn) -> separated point sn i j (Linear a) v ->
  vnorm v = Rabs (vget (absoluteToRelative (sn_box sn) (joining point sn i j)) a) * box_height (sn_box sn) a.
Proof. exact linear_distance. Qed.
Print Assumptions C67_linear_distance.
(** The expected number of particles is the mean density times the volume of a bin. *)
Theorem C67_expected : forall d b sn, d_min d = 0 -> 0 < d_max d -> (1 <= d_bins d)%nat -> legal_snapshot sn -> legal_binning b ->
  exists es, getExpectedNumOfMoleculesInShells b sn (getBinDividers d) = Some es /\ length es = d_bins d /\
    forall k, (k < d_bins d)%nat -> exists V, shell sn (edge d k) (edge d (k + 1)) b V /\ 0 < V /\ nth k es 0 = INR (length (sn_shapes sn)) / box_volume (sn_box sn) * V.
Proof. exact expected_numbers. Qed.
Print Assumptions C67_expected.
(** Pair density correlation: the mean over snapshots of the relative density of pairs, for any order in which threads add pairs. *)
Theorem C67_density : forall d b point threads history, d_min d = 0 -> 0 < d_max d -> (1 <= d_bins d)%nat -> legal_binning b -> Forall (density_scheduled d b point threads) history -> history <> [] ->
  exists h0 h, build [d] threads 0 = Some h0 /\ density_run d b history h0 = Some h /\ length (dumpHistogram 0 SUM h) = d_bins d /\
    forall k, (k < d_bins d)%nat -> exists parts, Forall2 (density_part d b point k) history parts /\
      nth k (dumpHistogram 0 SUM h) (None, 0%nat) = (Some (density_terms history parts / INR (length history)), list_sum (map fst parts)).
Proof. exact density_spec. Qed.
Print Assumptions C67_density.
(** Pair averaged correlation: the mean of values over all pairs in a bin - with every particle and itself - from all snapshots. *)
Theorem C67_averaged : forall d f ax b point threads history, d_min d = 0 -> 0 < d_max d -> (1 <= d_bins d)%nat -> legal_binning b -> Forall (averaged_scheduled d f ax b point threads) history -> history <> [] ->
  exists h0 h m, build [d] threads 0 = Some h0 /\ averaged_run d (map snd history) h0 h0 = Some (h, m) /\ length (averaged_dump h m) = d_bins d /\
    forall k, (k < d_bins d)%nat -> exists parts, Forall2 (in_bin_list point b d k) history parts /\
      nth k (averaged_dump h m) (None, 0%nat) = (mean (all_values f ax history parts), length (all_values f ax history parts)).
Proof. exact averaged_spec. Qed.
Print Assumptions C67_averaged.
(** Probability evolution: the number of pairs in a bin of distance and a bin of value, normalized as chosen. *)
Theorem C67_evolution : forall d1 d2 f ax b point, d_min d1 = 0 -> 0 < d_max d1 -> (1 <= d_bins d1)%nat -> d_min d2 < d_max d2 -> (1 <= d_bins d2)%nat -> legal_binning b ->
  forall threads history, Forall (evolution_scheduled d1 d2 f ax b point threads) history -> history <> [] ->
    exists h0 h c, build [d1; d2] threads 0 = Some h0 /\ run [d1; d2] 0 (map additions (map snd history)) h0 = Some h /\
      (forall i j, (i < d_bins d1)%nat -> (j < d_bins d2)%nat -> (exists parts, Forall2 (fun q n => counts (valued_in_bin point b f ax d1 d2 i j (fst q)) n) history parts /\ c i j = list_sum parts) /\
        snd (nth (flattenIndex [d1; d2] [i; j]) (dumpHistogram 0 SUM h) (None, 0%nat)) = c i j) /\
      forall n, length (evolution_dump [d1; d2] n h) = (d_bins d1 * d_bins d2)%nat /\ forall i j, (i < d_bins d1)%nat -> (j < d_bins d2)%nat -> nth (flattenIndex [d1; d2] [i; j]) (evolution_dump [d1; d2] n h) 0 =
        let row := Rsum (fun j => INR (c i j)) (seq 0 (d_bins d2)) in
        match n with
        | AVG_COUNT => INR (c i j) / INR (length history)
        | PDF => if Req_EM_T row 0 then 0 else INR (c i j) / row / ((d_max d2 - d_min d2) / INR (d_bins d2))
        | UNIT => if Req_EM_T row 0 then 0 else INR (c i j) / row * INR (d_bins d2)
        end.
Proof. exact evolution_counts. Qed.
Print Assumptions C67_evolution.
(** These values are normalized: the integral of PDF over values is 1, the mean of UNIT over values is 1. *)
Theorem C67_normalized : forall (d2 : dim) (c : nat -> nat), d_min d2 < d_max d2 -> (1 <= d_bins d2)%nat -> let row := Rsum (fun j => INR (c j)) (seq 0 (d_bins d2)) in row <> 0 ->
  Rsum (fun j => INR (c j) / row / ((d_max d2 - d_min d2) / INR (d_bins d2)) * ((d_max d2 - d_min d2) / INR (d_bins d2))) (seq 0 (d_bins d2)) = 1 /\ Rsum (fun j => INR (c j) / row * INR (d_bins d2)) (seq 0 (d_bins d2)) / INR (d_bins d2) = 1.
Proof. exact evolution_normalized. Qed.
Print Assumptions C67_normalized.
(** Correlation functions of axes: ranges, symmetry, sign of axes and chirality. *)
Theorem C67_functions : forall f a b v, vnorm a = 1 -> vnorm b = 1 -> v <> vzero ->
  exists y, calculateForAxes f a b v = Some y /\ within f a b y /\ calculateForAxes f b a (vscale (-1) v) = Some y /\
    calculateForAxes f (vscale (-1) a) b v = Some (match f with S110 => - y | _ => y end) /\ calculateForAxes f a b (vscale (-1) v) = Some (match f with S221 => - y | _ => y end).
Proof. exact function_values. Qed.
Print Assumptions C67_functions.

(** Linear binning with distances up to half of the height of a periodic box: the mean of the density is not 1 (up to the correction 1/N) but twice as much. *)
Theorem C67_linear_refuted : forall a n point threads sn s h0 h, (1 <= n)%nat -> periodic sn ->
  let d := Dim 0 (box_height (sn_box sn) a / 2) n in density_scheduled d (Linear a) point threads (sn, s) -> build [d] threads 0 = Some h0 -> density_run d (Linear a) [(sn, s)] h0 = Some h ->
  Rsum (fun k => match fst (nth k (dumpHistogram 0 SUM h) (None, 0%nat)) with Some g => g | None => 0 end) (seq 0 n) / INR n = 2 * (INR (length (sn_shapes sn)) - 1) / INR (length (sn_shapes sn)).
Proof. exact linear_mean. Qed.
Print Assumptions C67_linear_refuted.
(** The first bin of pair averaged correlation: every particle with itself is counted, too. *)
Theorem C67_first_bin : forall d f ax b point threads sn s h0 h m, d_min d = 0 -> 0 < d_max d -> (1 <= d_bins d)%nat -> legal_binning b -> averaged_scheduled d f ax b point threads (sn, s) -> (forall p, sn_translation sn p p = vzero) ->
  build [d] threads 0 = Some h0 -> averaged_run d [s] h0 h0 = Some (h, m) ->
  exists l, NoDup l /\ (forall x, In x l <-> distinct_in_bin point b d 0 sn x) /\
    nth 0 (averaged_dump h m) (None, 0%nat) = (mean (map (pair_value f ax sn) (selves (length (sn_shapes sn)) ++ l)), (length (sn_shapes sn) + length l)%nat).
Proof. exact self_counted. Qed.
Print Assumptions C67_first_bin.
(** So it is not the mean over pairs of particles: two particles with perpendicular axes have S110 = 2/3. *)
Theorem C67_self_refuted : exists s h0 h m, averaged_scheduled unit_range S110 (V3 1 0 0) Radial vzero 1 (two, s) /\ build [unit_range] 1 0 = Some h0 /\ averaged_run unit_range [s] h0 h0 = Some (h, m) /\
  nth 0 (averaged_dump h m) (None, 0%nat) = (Some (2 / 3), 3%nat) /\ forall x, distinct_in_bin vzero Radial unit_range 0 two x -> pair_value S110 (V3 1 0 0) two x = Some 0.
Proof. exact self_example. Qed.
Print Assumptions C67_self_refuted.
(** S221 in the first bin is never a number. *)
Theorem C67_s221_refuted : forall d ax b point threads history h0 h m sn s, d_min d = 0 -> 0 < d_max d -> (1 <= d_bins d)%nat -> legal_binning b -> Forall (averaged_scheduled d S221 ax b point threads) history ->
  In (sn, s) history -> sn_shapes sn <> [] -> (forall p, sn_translation sn p p = vzero) ->
  build [d] threads 0 = Some h0 -> averaged_run d (map snd history) h0 h0 = Some (h, m) -> fst (nth 0 (averaged_dump h m) (None, 0%nat)) = None.
Proof. exact s221_first. Qed.
Print Assumptions C67_s221_refuted.
(** Miller indices [0, 0, 1] do not project all particles onto one plane: two particles which are a third of the box apart are in different layers. *)
Theorem C67_single_layer_refuted : constructed (sn_box column_of) /\ periodic column_of /\ (forall a, Rabs (vget (joining vzero column_of 2 3) a) <= 1 / 3) /\ forall v, ~ separated vzero column_of 2 3 (Layerwise 0 0 1) v.
Proof. exact layer_example. Qed.
Print Assumptions C67_single_layer_refuted.

(** Hypotheses are met by any legal snapshot; a pair of particles in a periodic cube. *)
Example C67_scheduled_example : forall d f ax b point sn, constructed (sn_box sn) -> legal_binning b -> exists s, averaged_scheduled d f ax b point 1 (sn, s).
Proof. exact schedulable. Qed.
Example C67_density_example : forall d b point sn, legal_snapshot sn -> legal_binning b -> exists s, density_scheduled d b point 1 (sn, s).
Proof. exact density_schedulable. Qed.
Example C67_snapshot_example : legal_snapshot two /\ periodic two /\ forall p, sn_translation two p p = vzero.
Proof. exact two_legal. Qed.
Example C67_evolution_example : exists s, evolution_scheduled unit_range (Dim (-1) 1 2) S110 (V3 1 0 0) Radial vzero 1 (two, s) /\ s <> [].
Proof. exact two_evolution. Qed.
