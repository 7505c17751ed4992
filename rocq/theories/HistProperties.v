From Coq Require Import Reals ZArith List Bool Lia Lra Permutation.
From Verif Require Import GeomModel RFloorModel HistModel HistSpec HistProofs.
Import ListNotations.
Local Open Scope nat_scope.

(** A histogram can be created exactly if in each dimension the range is not empty and there are bins; all bins have the initial value. *)
Theorem C45_created : forall g i, (create g i <> None <-> Forall (fun d => (d_min d < d_max d)%R) g /\ 1 <= size g) /\ (proper g -> create g i = Some (repeat (i, 0) (size g)) /\ 1 <= size g).
Proof. exact (fun g i => conj (created g i) (create_some g i)). Qed.
Print Assumptions C45_created.
(** Each position in range is in exactly one bin, and it is the one which is selected; positions out of range are refused. *)
Theorem C45_bin : forall g pos, proper g -> Forall2 in_range g pos -> exists idx, located g idx pos /\ (forall idx', located g idx' pos -> idx' = idx) /\ atPos g pos = Some (flattenIndex g idx) /\ flattenIndex g idx < size g.
Proof. exact (fun g pos P R => match at_pos g pos P R with ex_intro _ idx (conj L H) => ex_intro _ idx (conj L (conj (fun idx' L' => located_unique g P idx' idx pos L' L) H)) end). Qed.
Print Assumptions C45_bin.
Theorem C45_out_of_range : forall g pos, length pos = length g -> ~ Forall2 in_range g pos -> atPos g pos = None.
Proof. exact at_pos_refused. Qed.
Print Assumptions C45_out_of_range.
(** Flat and multi-dimensional indices are inverse of each other. *)
Theorem C45_flat : forall g, (forall idx, index_of g idx -> flattenIndex g idx < size g /\ reshapeIndex g (flattenIndex g idx) = idx) /\ (forall k, k < size g -> index_of g (reshapeIndex g k) /\ flattenIndex g (reshapeIndex g k) = k).
Proof. exact (fun g => conj (fun idx H => conj (flat_range g idx H) (flat_reshape g idx H)) (reshape_flat g)). Qed.
Print Assumptions C45_flat.
Theorem C45_index : forall g idx, length idx = length g -> (index_of g idx -> atIndex g idx = Some (flattenIndex g idx)) /\ (~ index_of g idx -> atIndex g idx = None).
Proof. exact at_index. Qed.
Print Assumptions C45_index.
(** Middles of bins are inside them, dividers are their ends. *)
Theorem C45_middles : forall g k, proper g -> k < size g -> located g (reshapeIndex g k) (middle g k) /\ Forall2 (fun d x => snd x = ((edge d (fst x) + edge d (fst x + 1)) / 2)%R) g (combine (reshapeIndex g k) (middle g k)).
Proof. exact (fun g k P H => conj (middle_inside g k P H) (middle_half g k H)). Qed.
Print Assumptions C45_middles.
Theorem C45_dividers : forall d, 1 <= d_bins d -> length (getBinDividers d) = d_bins d + 1 /\ forall i, i <= d_bins d -> nth i (getBinDividers d) 0%R = edge d i.
Proof. exact dividers. Qed.
Print Assumptions C45_dividers.
(** After any history of snapshots each bin has the sum of the values which were added to it, by all threads, and their number. *)
Theorem C45_sums : forall g threads i s, proper g -> Forall (Forall (legal g threads)) s ->
  exists b0 b, build g threads i = Some b0 /\ run g i s b0 = Some b /\ length (hb_total b) = size g /\ hb_snapshots b = length s /\
    forall idx v n, index_of g idx -> tally g idx (concat s) v n -> nth (flattenIndex g idx) (hb_total b) (0%R, 0) = ((i + INR (length s) * (INR threads * i) + v)%R, n).
Proof. exact filled. Qed.
Print Assumptions C45_sums.
Theorem C45_counted : forall g threads l idx, proper g -> Forall (legal g threads) l -> index_of g idx -> exists v n, tally g idx l v n /\ forall v' n', tally g idx l v' n' -> v' = v /\ n' = n.
Proof. exact tally_total. Qed.
Print Assumptions C45_counted.
(** The order of additions and the threads which make them do not matter. *)
Theorem C45_threads : forall g threads i s s' b0 b b', proper g -> Forall (Forall (legal g threads)) s -> Forall (Forall (legal g threads)) s' -> length s = length s' ->
  Permutation (map (fun a => (a_pos a, a_value a)) (concat s)) (map (fun a => (a_pos a, a_value a)) (concat s')) ->
  build g threads i = Some b0 -> run g i s b0 = Some b -> run g i s' b0 = Some b' -> hb_total b = hb_total b' /\ hb_snapshots b = hb_snapshots b'.
Proof. exact threads_irrelevant. Qed.
Print Assumptions C45_threads.
(** Also the number of threads, if the initial value is zero, as it is everywhere in the program. *)
Theorem C45_number_of_threads : forall g threads threads' s s' b0 b b0' b', proper g -> Forall (Forall (legal g threads)) s -> Forall (Forall (legal g threads')) s' -> length s = length s' ->
  Permutation (map (fun a => (a_pos a, a_value a)) (concat s)) (map (fun a => (a_pos a, a_value a)) (concat s')) ->
  build g threads 0 = Some b0 -> run g 0 s b0 = Some b -> build g threads' 0 = Some b0' -> run g 0 s' b0' = Some b' -> hb_total b = hb_total b' /\ hb_snapshots b = hb_snapshots b'.
Proof. exact number_irrelevant. Qed.
Print Assumptions C45_number_of_threads.
(** Finding: if it is not zero, it is added once more for each thread and snapshot. *)
Theorem C45_initial_value_refuted : exists g i s b0 b b0' b', proper g /\ Forall (Forall (legal g 1)) s /\ build g 1 i = Some b0 /\ run g i s b0 = Some b /\ build g 2 i = Some b0' /\ run g i s b0' = Some b' /\ hb_total b <> hb_total b'.
Proof. exact initial_refuted. Qed.
Print Assumptions C45_initial_value_refuted.
(** What is dumped: sums over the number of snapshots, or averages of the values in the bin; the latter are not numbers in empty bins. *)
Theorem C45_dumped : forall i m b k, k < length (hb_total b) -> nth k (dumpHistogram i m b) (None, 0) =
  if hb_snapshots b =? 0 then (Some i, 0) else
  (match m with SUM => Some (fst (nth k (hb_total b) (0%R, 0%nat)) / INR (hb_snapshots b))%R | AVERAGE => if snd (nth k (hb_total b) (0%R, 0%nat)) =? 0 then None else Some (fst (nth k (hb_total b) (0%R, 0%nat)) / INR (snd (nth k (hb_total b) (0%R, 0%nat))))%R end, snd (nth k (hb_total b) (0%R, 0%nat))).
Proof. exact dumped. Qed.
Print Assumptions C45_dumped.
(** Clearing gives a builder which is as the new one, whatever was added before. *)
Theorem C45_cleared : forall g threads i s b0 b, proper g -> Forall (Forall (legal g threads)) s -> build g threads i = Some b0 -> run g i s b0 = Some b -> clear i b = b0.
Proof. exact cleared_run. Qed.
Print Assumptions C45_cleared.

(** Two dimensions, 2 and 3 bins. *)
Definition grid := [Dim 0 1 2; Dim (-1) 2 3].
Example grid_proper : proper grid. Proof. repeat constructor; cbn; try lra; lia. Qed.
Example history_legal : Forall (Forall (legal grid 2)) [[Addition 0 [1; 2]%R 5; Addition 1 [0; 0]%R 3]; [Addition 1 [/ 2; -1]%R 7]].
Proof. repeat constructor; cbn; try lra; lia. Qed.
Example ends : located grid [1; 2] [1; 2]%R /\ located grid [1; 0] [/ 2; -1]%R.
Proof.
  unfold located, grid. split; (split; [|reflexivity]); cbn [combine]; (apply Forall2_cons; [|apply Forall2_cons; [|constructor]]); unfold in_bin, edge; cbn [fst snd d_min d_max d_bins Nat.add]; simpl INR; (split; [lia|]); (split; [lra|]); first [left; lra|right; split; [reflexivity|lra]].
Qed.
Example flat : flattenIndex grid [1; 2] = 5 /\ reshapeIndex grid 5 = [1; 2]. Proof. split; reflexivity. Qed.
