From Coq Require Import ZArith Reals List Bool Arith Permutation Sorting.Sorted Lra Lia.
From Verif Require Import TextModel GeomModel BoxModel BoxSpec RotSpec PbcModel PbcSpec LatticeModel LatticeSpec LatticeProofs LatticeNormProofs LatticeExamples DimsModel DimsSpec OptModel CellModel CellSpec CellProofs CellKindProofs CellLatticeProofs CellArrangeProofs CellExamples.
Import ListNotations.
Local Open Scope R_scope.

(** Balls of the given diameter on the whole crystal: none overlap, and each touches the number of others the type of the cell is known for. *)
Theorem C71_neighbours t d : builtin t -> 0 < d -> exists b ms, create_cell t (DimNumber d) = Some (b, ms) /\ constructed b /\ nearest_neighbours b ms d (coordination t).
Proof. exact (cell_neighbours t d). Qed.
Print Assumptions C71_neighbours.

(** Six of them are in the layer perpendicular to the given axis; three, or exactly one, in each of the two layers next to it. *)
Theorem C71_hcp_layers a d : 0 < d -> exists b ms, create_cell (CellHcp a) (DimNumber d) = Some (b, ms) /\
  neighbours_above b ms d a 0 6 /\ neighbours_above b ms d a (sqrt 6 / 3 * d) 3 /\ neighbours_above b ms d a (- (sqrt 6 / 3 * d)) 3.
Proof. exact (hcp_layers a d). Qed.
Print Assumptions C71_hcp_layers.

Theorem C71_hexagonal_layers a d : 0 < d -> exists b ms, create_cell (CellHexagonal a) (DimNumber d) = Some (b, ms) /\
  neighbours_above b ms d a 0 6 /\ neighbours_above b ms d a d 1 /\ neighbours_above b ms d a (- d) 1.
Proof. exact (hex_layers a d). Qed.
Print Assumptions C71_hexagonal_layers.

(** Molecules, whatever the size of the cell *)
Theorem C71_molecules t x b ms : create_cell t x = Some (b, ms) ->
  map sh_pos ms = documented_positions t /\ Forall2 (fun s q => sh_pos s = fst q /\ turned_by (snd q) (sh_rot s)) ms (documented_molecules t) /\ (builtin t -> forall s, In s ms -> sh_rot s = mid).
Proof. exact (fun E => conj (proj1 (cell_positions t x b ms E)) (conj (cell_molecules t x b ms E) (proj2 (cell_positions t x b ms E)))). Qed.
Print Assumptions C71_molecules.

Theorem C71_centred t : builtin t -> centred (documented_positions t) /\ forall v a, In v (documented_positions t) -> 0 <= vget v a < 1.
Proof. exact (fun B => conj (documented_centred t B) (fun v a => documented_unit t v a B)). Qed.
Print Assumptions C71_centred.

(** A given box or given sides are those of the cell. *)
Theorem C71_box t i x : match_dim i = Some x -> (forall y, i <> InFloat y) -> exists b ms, create_cell t x = Some (b, ms) /\ is_box b (given_sides i).
Proof. exact (manual_cell t i x). Qed.
Print Assumptions C71_box.

Example C71_given_box : exists x, match_dim (InVectors (V3 2 0 0) (V3 1 3 0) (V3 0 1 4)) = Some x.
Proof. exact vectors_example. Qed.

(** Any number of cells along each axis: no overlaps of balls also through periodic boundaries *)
Theorem C71_balls t d n : builtin t -> 0 < d -> (0 < ix n)%nat -> (0 < iy n)%nat -> (0 < iz n)%nat -> exists l lb shapes, manual_lattice t (DimNumber d) n = Some l /\
  create_packing [] Full l = Some (lb, shapes) /\ length shapes = (ix n * iy n * iz n * length (documented_positions t))%nat /\ balls_apart lb shapes d.
Proof. exact (ball_lattice t d n). Qed.
Print Assumptions C71_balls.

Theorem C72_input i : match_dim i <> None <-> acceptable i.
Proof. exact (input_matched i). Qed.
Print Assumptions C72_input.

(** Given: a type and dimensions of a cell, numbers of cells *)
Theorem C72_cells t x b ms n : create_cell t x = Some (b, ms) -> constructed b -> positive n -> exists l lb shapes, manual_lattice t x n = Some l /\
  create_packing [] Full l = Some (lb, shapes) /\
  has_sides lb (vscale (INR (ix n)) (box_side b AX)) (vscale (INR (iy n)) (box_side b AY)) (vscale (INR (iz n)) (box_side b AZ)) /\ filled t lb n shapes.
Proof. exact (manual_spec t x b ms n). Qed.
Print Assumptions C72_cells.

(** Given: a box and numbers of cells *)
Theorem C72_box t i x n : match_dim i = Some x -> positive n -> exists l lb shapes, boxed_lattice t x n = Some l /\
  create_packing [] Full l = Some (lb, shapes) /\ is_box lb (given_sides i) /\ filled t lb n shapes.
Proof. exact (boxed_spec t i x n). Qed.
Print Assumptions C72_box.

(** Given: a box and a number of shapes *)
Theorem C72_shapes fuel t i x N l : match_dim i = Some x -> (0 < N)%nat -> automatic_lattice fuel t x N = Some l ->
  exists b n lb shapes, is_box b (given_sides i) /\ nearly_cubic N (length (documented_positions t)) b n /\
    create_packing [] Full l = Some (lb, shapes) /\ is_box lb (given_sides i) /\ filled t lb n shapes /\ (N <= length shapes)%nat.
Proof. exact (automatic_spec fuel t i x N l). Qed.
Print Assumptions C72_shapes.

Theorem C72_shapes_terminates t i x N b cells s : match_dim i = Some x -> (0 < N)%nat -> (0 < length (documented_positions t))%nat -> is_box b (given_sides i) ->
  cells_needed N (length (documented_positions t)) cells -> cube_side b cells s -> (forall a, s <= 2 * box_height b a) ->
  exists l, terminates_with (fun fuel => automatic_lattice fuel t x N) l.
Proof. exact (automatic_terminates t i x N b cells s). Qed.
Print Assumptions C72_shapes_terminates.

(** The number of shapes may be greater than requested. *)
Theorem C72_number_of_shapes_refuted :
  ~ (forall fuel t i x N l lb shapes, match_dim i = Some x -> (0 < N)%nat -> automatic_lattice fuel t x N = Some l -> create_packing [] Full l = Some (lb, shapes) -> length shapes = N).
Proof. exact automatic_more. Qed.
Print Assumptions C72_number_of_shapes_refuted.

Theorem C72_number_of_shapes t lb n shapes : filled t lb n shapes -> length shapes = (cells_in n * length (documented_positions t))%nat.
Proof. exact (filled_length t lb n shapes). Qed.
Print Assumptions C72_number_of_shapes.

(** Transformations are made in the order of the list, and the packing has the molecules chosen from the last lattice. *)
Theorem C72_packing ts p l b shapes : create_packing ts p l = Some (b, shapes) <-> exists l', transformed ts l l' /\ populate p l' = Some shapes /\ getLatticeBox l' = Some b.
Proof. exact (packing_iff ts p l b shapes). Qed.
Print Assumptions C72_packing.

Theorem C72_full l b d k : built l b d k -> exists cells, traversal AX AY AZ d cells /\ populate Full l = Some (flat_map (fun c => map (placed b c) (k c)) cells).
Proof. exact (built_generated l b d k). Qed.
Print Assumptions C72_full.

Theorem C72_serial l b d k a0 a1 a2 n : built l b d k -> a0 <> a1 /\ a0 <> a2 /\ a1 <> a2 ->
  exists cells size, traversal a0 a1 a2 d cells /\ lattice_size l = Some size /\
    populate (Serial n [axis_letter a0; axis_letter a1; axis_letter a2]) l =
    if Nat.leb n size then Some (firstn n (flat_map (fun c => map (placed b c) (k c)) cells)) else None.
Proof. exact (built_serial l b d k a0 a1 a2 n). Qed.
Print Assumptions C72_serial.

(** Without an order of axes: the outermost loop goes along the axis with the most cells. *)
Theorem C72_serial_auto l b d k n : built l b d k -> exists a0 a1 a2 cells size, (a0 <> a1 /\ a0 <> a2 /\ a1 <> a2) /\ goes_first d a0 a1 /\ goes_first d a1 a2 /\ traversal a0 a1 a2 d cells /\ lattice_size l = Some size /\
  populate (SerialAuto n) l = if Nat.leb n size then Some (firstn n (flat_map (fun c => map (placed b c) (k c)) cells)) else None.
Proof. exact (auto_serial l b d k n). Qed.
Print Assumptions C72_serial_auto.

Theorem C72_random l b d k shuffled size n : built l b d k -> lattice_size l = Some size -> Permutation shuffled (seq 0 size) ->
  ((n <= size)%nat -> exists molecules shapes, generateMolecules l = Some molecules /\ populate (Random n shuffled) l = Some shapes /\ length shapes = n /\ subsequence shapes molecules) /\
  ((size < n)%nat -> populate (Random n shuffled) l = None).
Proof. exact (built_random l b d k shuffled size n). Qed.
Print Assumptions C72_random.

Example C72_case : exists t x b ms, create_cell t x = Some (b, ms) /\ constructed b /\ positive (I3 2 3 1) /\ (1 < length ms)%nat /\ exists l, built l b (I3 2 3 1) (fun _ => ms).
Proof. exact case_example. Qed.
Example C72_shapes_case : exists b, match_dim (InFloat 1) = Some (DimNumber 1) /\ is_box b (given_sides (InFloat 1)) /\ cells_needed 1 (length (documented_positions CellBcc)) 1 /\ cube_side b 1 1 /\ (forall a, 1 <= 2 * box_height b a).
Proof. exact unit_cube_example. Qed.
