From Coq Require Import Reals ZArith List Bool Lia Lra Permutation.
From Verif Require Import GeomModel BoxModel BoxSpec PbcModel PbcSpec PbcTotalModel PackSpec HistModel HistSpec BinsModel BinsSpec BinsProofs BinsAverageProofs BinsTotalProofs CorrExamples.
Import ListNotations.
Local Open Scope R_scope.

(** C68. Histograms of density and bin averages. *)
Theorem C68_created nx ny nz threads values :
  ((1 < nx \/ 1 < ny \/ 1 < nz)%nat -> exists b, build (cells nx ny nz) threads 0 = Some b /\ bins_create nx ny nz threads values = Some (Bins None b values)) /\
  (~ (1 < nx \/ 1 < ny \/ 1 < nz)%nat -> bins_create nx ny nz threads values = None).
Proof. exact (create_spec nx ny nz threads values). Qed.
Theorem C68_density nx ny nz threads norm values cmds : (1 < nx \/ 1 < ny \/ 1 < nz)%nat -> all_snapshots (ordered threads) cmds ->
  let g := cells nx ny nz in
  exists st0 st, bins_create nx ny nz threads values = Some st0 /\ bins_run (bins_grid nx ny nz) (density_additions (bins_grid nx ny nz) norm) cmds st0 = Some st /\
    length (density_dump st) = number_of_cells nx ny nz /\
    (recent cmds = [] -> forall k, (k < number_of_cells nx ny nz)%nat -> nth k (density_dump st) (None, 0%nat) = (Some 0, 0%nat)) /\
    forall first idx, first_origin cmds first -> index_of g idx -> exists parts, Forall2 (cell_count g idx first) (recent cmds) parts /\
      nth (flattenIndex g idx) (density_dump st) (None, 0%nat) =
      (Some (Rsum (fun x => weight (number_of_cells nx ny nz) norm (fst (fst x)) * INR (snd x)) (combine (recent cmds) parts) / INR (length (recent cmds))), list_sum parts).
Proof. rewrite grid_cells. exact (density_spec nx ny nz threads norm values cmds). Qed.
Theorem C68_density_total nx ny nz threads norm cmds st0 st first values : (1 < nx \/ 1 < ny \/ 1 < nz)%nat -> all_snapshots (ordered threads) cmds -> first_origin cmds first ->
  bins_create nx ny nz threads values = Some st0 -> bins_run (bins_grid nx ny nz) (density_additions (bins_grid nx ny nz) norm) cmds st0 = Some st ->
  list_sum (map snd (density_dump st)) = list_sum (map (fun h => length (fr_shapes (fst h))) (recent cmds)) /\
  (norm = AVG_COUNT -> Rsum amount (density_dump st) = Rsum (fun h => INR (length (fr_shapes (fst h)))) (recent cmds) / INR (length (recent cmds))) /\
  (norm = UNIT -> (forall h, In h (recent cmds) -> fr_shapes (fst h) <> []) -> Rsum amount (density_dump st) = INR (number_of_cells nx ny nz)).
Proof. rewrite grid_cells. exact (density_total nx ny nz threads norm cmds st0 st first values). Qed.
(** One place for a particle. *)
Theorem C68_place first fr i : periodic_frame fr -> exists u, moved_back first fr i u /\ placed fr (vsub (fr_origin fr) first) i = [vx u; vy u; vz u] /\ forall u', moved_back first fr i u' -> u' = u.
Proof. exact (placed_moved first fr i). Qed.
Theorem C68_values f c m : length (calculate_values f m) = number_of_values f /\ ((c < number_of_values f)%nat -> nth c (calculate_values f m) 0 = component f c m).
Proof. exact (conj (values_length f m) (values_component f c m)). Qed.
Theorem C68_average nx ny nz threads f c values cmds : (1 < nx \/ 1 < ny \/ 1 < nz)%nat -> (c < number_of_values f)%nat -> all_snapshots (exclusive threads) cmds ->
  let g := cells nx ny nz in
  exists st0 st, bins_create nx ny nz threads values = Some st0 /\ bins_run (bins_grid nx ny nz) (average_additions f c) cmds st0 = Some st /\
    length (average_dump st) = number_of_cells nx ny nz /\
    (recent cmds = [] -> forall k, (k < number_of_cells nx ny nz)%nat -> nth k (average_dump st) (None, 0%nat) = (Some 0, 0%nat)) /\
    forall first idx, first_origin cmds first -> index_of g idx -> exists parts, Forall2 (cell_list g idx first) (recent cmds) parts /\
      nth (flattenIndex g idx) (average_dump st) (None, 0%nat) = (mean_over f c (recent cmds) parts, size_of parts).
Proof. rewrite grid_cells. exact (average_spec nx ny nz threads f c values cmds). Qed.
(** One thread never meets another one. *)
Theorem C68_one_thread fr e : parallel 1 fr e -> exclusive 1 fr e.
Proof. exact (one_thread_exclusive fr e). Qed.
(** Numbers of particles are correct for any number of threads. *)
Theorem C68_parallel_counts nx ny nz threads f c values cmds : (1 < nx \/ 1 < ny \/ 1 < nz)%nat -> all_snapshots (parallel threads) cmds ->
  let g := cells nx ny nz in
  exists st0 st, bins_create nx ny nz threads values = Some st0 /\ bins_run (bins_grid nx ny nz) (average_additions f c) cmds st0 = Some st /\
    forall first idx, first_origin cmds first -> index_of g idx -> exists parts, Forall2 (cell_count g idx first) (recent cmds) parts /\
      snd (nth (flattenIndex g idx) (average_dump st) (None, 0%nat)) = list_sum parts.
Proof. exact (parallel_counts nx ny nz threads f c values cmds). Qed.
(** Values are not: the function of a particle is shared by threads. *)
Theorem C68_average_threads_refuted : exists f c cmds st0 st, all_snapshots (parallel 2) cmds /\ (c < number_of_values f)%nat /\ bins_create 2 1 1 2 [0] = Some st0 /\ bins_run (cells 2 1 1) (average_additions f c) cmds st0 = Some st /\
  exists first parts, first_origin cmds first /\ Forall2 (cell_list (cells 2 1 1) [0; 0; 0]%nat first) (recent cmds) parts /\
    mean_over f c (recent cmds) parts = Some 1 /\ nth 0 (average_dump st) (None, 0%nat) = (Some 0, 1%nat).
Proof. exact race. Qed.

Print Assumptions C68_created.
Print Assumptions C68_density.
Print Assumptions C68_density_total.
Print Assumptions C68_place.
Print Assumptions C68_values.
Print Assumptions C68_average.
Print Assumptions C68_one_thread.
Print Assumptions C68_parallel_counts.
Print Assumptions C68_average_threads_refuted.

(** Two threads, a moving origin, and a clear in between. *)
Definition moved : frame := Frame cube (correction cube) (V3 (1 / 10) 0 0) (fr_shapes apart).
Example C68_ordered_example : let cmds := [Snapshot apart [(0, 0); (1, 1)]; Clear; Snapshot apart [(0, 1); (1, 0)]; Snapshot moved [(1, 1); (1, 0)]]%nat in
  all_snapshots (ordered 2) cmds /\ first_origin cmds vzero /\ length (recent cmds) = 2%nat /\ cell_list (cells 2 1 1) [0; 0; 0]%nat vzero (apart, [(0, 1); (1, 0)])%nat [0%nat].
Proof.
  split; [|split; [|split]].
  - intros fr e I. assert (P : periodic_frame fr) by (destruct I as [E|[E|[E|[E|[]]]]]; try discriminate; injection E as <- <-; (split; [exact cube_constructed|intros p; apply PbcProofs.getCorrection_terminates])). destruct I as [E|[E|[E|[E|[]]]]]; try discriminate; injection E as <- <-; (split; [exact P|]); (split; [|repeat constructor]); cbn [map snd]; try apply Permutation_refl; apply perm_swap.
  - do 3 eexists. split; reflexivity.
  - reflexivity.
  - exact (apart_cell 0 ltac:(lia)).
Qed.
Example C68_exclusive_example : exclusive 2 apart [(1, Calculate 1); (1, Store 1); (0, Calculate 0); (0, Store 0)]%nat /\ parallel 1 apart [(0, Calculate 0); (0, Store 0); (0, Calculate 1); (0, Store 1)]%nat.
Proof.
  split.
  - exists [(1, 1); (0, 0)]%nat. split; [|reflexivity]. split; [exact apart_periodic|]. split; [apply perm_swap|repeat constructor].
  - split; [exact apart_periodic|]. split; [repeat constructor|]. exists (fun _ => [0; 1]%nat). split; [|apply Permutation_refl]. intros t Ht. destruct t as [|t]; [reflexivity|lia].
Qed.
Example C68_tensor_example : map (fun c => component (FQTensor (V3 1 0 0)) c mid) [0; 1; 3; 5]%nat = [1; 0; - / 2; - / 2].
Proof. cbn. repeat (f_equal; try lra). Qed.
