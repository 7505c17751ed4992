(** C06-C09: the neighbour grid. *)
From Coq Require Import Reals ZArith List Bool Permutation.
From Verif Require Import GeomModel BoxModel BoxSpec PbcSpec NGModel NGSpec NGProofs.
Import ListNotations.
Open Scope Z_scope.

(** After any legal sequence of add/remove/clear/resize calls the grid is defined (no access out of bounds, no endless
    list) and every cell holds exactly the identifiers the abstract map says, found by coordinates and by position. *)
Theorem C06_contents : forall b cs np ks, valid_setup b cs -> legal_calls np (NgState b cs empty_contents) ks ->
  exists g, grid_after b cs np ks = Some g /\
    let s := state_after b cs ks in
    (forall a, cget (getCellDivisions g) a = st_n s a) /\
    (forall c, in_range (st_n s) c -> getCellAt g c = Some (st_contents s (real_cell_no (st_n s) c))) /\
    (forall c, ~ in_range (st_n s) c -> getCellAt g c = None) /\
    (forall p, in_box (st_box s) p ->
       getCell g p = Some (st_contents s (real_cell_no (st_n s) (cell_of s p)))).
Proof. exact ng_contents. Qed.
Print Assumptions C06_contents.

(** Adding and removing by position acts on the cell the position lies in; a position outside the box by less than
    the tolerance counts as lying in the nearest cell; a position outside the box by more than the
    tolerance is refused by every call. *)
Theorem C06_positions : forall b cs np ks, valid_setup b cs -> legal_calls np (NgState b cs empty_contents) ks ->
  exists g, grid_after b cs np ks = Some g /\
    let s := state_after b cs ks in
    (forall idx p, in_box (st_box s) p ->
       grid_add idx p g = grid_op (OpAdd idx (real_cell_no (st_n s) (cell_of s p))) g /\
       grid_remove idx p g = grid_op (OpRemove idx (real_cell_no (st_n s) (cell_of s p))) g) /\
    (forall idx p, (forall a, IZR (st_n s a) * EPSILON <= 1)%R ->
       (forall a, - EPSILON < vget (absoluteToRelative (st_box s) p) a < 1 + EPSILON)%R ->
       let c := real_cell_no (st_n s) (nearest_cell (st_n s) (cell_of s p)) in
       grid_add idx p g = grid_op (OpAdd idx c) g /\ grid_remove idx p g = grid_op (OpRemove idx c) g) /\
    (forall idx p, (exists a, vget (absoluteToRelative (st_box s) p) a <= - EPSILON \/
                              1 + EPSILON <= vget (absoluteToRelative (st_box s) p) a)%R ->
       grid_add idx p g = None /\ grid_remove idx p g = None /\ getCell g p = None /\
       getNeighbouringCells g p true = None /\ getNeighbouringCells g p false = None).
Proof. exact ng_positions. Qed.
Print Assumptions C06_positions.

(** Whatever has been recorded within one cell size of a point is reported for this point, with the periodic image it is
    near in, and exactly once. *)
Theorem C07_complete : forall b cs np ks p q i L, valid_setup b cs -> legal_calls np (NgState b cs empty_contents) ks ->
  let s := state_after b cs ks in
  in_box (st_box s) p -> in_box (st_box s) q ->
  In i (st_contents s (real_cell_no (st_n s) (cell_of s q))) ->
  is_lattice_vector (st_box s) L -> (vnorm (vsub (vadd q L) p) <= st_cellSize s)%R ->
  exists g views, grid_after b cs np ks = Some g /\ getNeighbouringCells g p false = Some views /\
    In (i, L) (view_pairs views) /\ NoDup (view_pairs views).
Proof. exact ng_complete. Qed.
Print Assumptions C07_complete.

(** The neighbourhood of a cell is made of exactly the 27 periodic images around it, the half neighbourhood of a fixed half
    of them; no (identifier, translation) is reported twice. *)
Theorem C08_views : forall b cs np ks, valid_setup b cs -> legal_calls np (NgState b cs empty_contents) ks ->
  exists g, grid_after b cs np ks = Some g /\
    let s := state_after b cs ks in
    (exists Full Half, full_cube Full /\ half_cube Half /\
      forall c op, in_range (st_n s) c -> exists views, getNeighbouringCellsAt g c op = Some views /\
       Permutation views (map (fun d => image_view (st_box s) (st_n s) (st_contents s) (cadd c d)) (if op : bool then Half else Full)) /\
       NoDup (view_pairs views)) /\
    (forall c op, ~ in_range (st_n s) c -> getNeighbouringCellsAt g c op = None) /\
    (forall p op, in_box (st_box s) p -> exists views, getNeighbouringCells g p op = Some views /\
       getNeighbouringCellsAt g (cell_of s p) op = Some views) /\
    (forall p, in_box (st_box s) p -> exists views, getNeighbouringCells g p false = Some views /\
       getNeighbours g p = Some (map fst (view_pairs views))).
Proof. exact ng_views. Qed.
Print Assumptions C08_views.

(** Every pair of identifiers from two neighbouring (images of) cells is reported by the half enumeration from exactly one
    of the two cells. *)
Theorem C08_half : forall b cs np ks, valid_setup b cs -> legal_calls np (NgState b cs empty_contents) ks ->
  exists g, grid_after b cs np ks = Some g /\
    let s := state_after b cs ks in
    forall c1 c2 i j L, in_range (st_n s) c1 -> in_range (st_n s) c2 ->
      In i (st_contents s (real_cell_no (st_n s) c1)) -> In j (st_contents s (real_cell_no (st_n s) c2)) ->
      exists v1 v2 w1 w2,
        getNeighbouringCellsAt g c1 true = Some v1 /\ getNeighbouringCellsAt g c2 true = Some v2 /\
        getNeighbouringCellsAt g c1 false = Some w1 /\ getNeighbouringCellsAt g c2 false = Some w2 /\
        (In (j, lattice (st_box s) L) (view_pairs w1) <-> In (i, lattice (st_box s) (copp L)) (view_pairs w2)) /\
        ((c1, C3 0 0 0) <> (c2, L) -> In (j, lattice (st_box s) L) (view_pairs w1) ->
           (In (j, lattice (st_box s) L) (view_pairs v1) <-> ~ In (i, lattice (st_box s) (copp L)) (view_pairs v2))) /\
        (In (j, lattice (st_box s) L) (view_pairs v1) ->
           In (j, lattice (st_box s) L) (view_pairs w1) /\ (c1, C3 0 0 0) <> (c2, L)).
Proof. exact ng_half. Qed.
Print Assumptions C08_half.

(** A grid re-sized at any point of its life answers every query as a freshly constructed one. *)
Theorem C09_resize_as_fresh : forall b cs np ks b' cs' ks',
  valid_setup b cs -> legal_calls np (NgState b cs empty_contents) ks ->
  valid_setup b' cs' -> legal_calls np (NgState b' cs' empty_contents) ks' ->
  exists g fresh, grid_after b cs np (ks ++ [Resize b' cs'] ++ ks') = Some g /\ grid_after b' cs' np ks' = Some fresh /\
    (forall c, getCellAt g c = getCellAt fresh c) /\
    (forall p, in_box (st_box (state_after b' cs' ks')) p -> getCell g p = getCell fresh p) /\
    (forall c op, getNeighbouringCellsAt g c op = getNeighbouringCellsAt fresh c op) /\
    (forall p op, in_box (st_box (state_after b' cs' ks')) p -> getNeighbouringCells g p op = getNeighbouringCells fresh p op) /\
    (forall p, in_box (st_box (state_after b' cs' ks')) p -> getNeighbours g p = getNeighbours fresh p) /\
    (forall p, positionToCellNo g p = positionToCellNo fresh p) /\
    getCellDivisions g = getCellDivisions fresh.
Proof. exact ng_resize. Qed.
Print Assumptions C09_resize_as_fresh.

(** The value returned by the re-sizing call tells whether the number of cells has changed. *)
Theorem C09_resize_result : forall b cs np ks b' cs', valid_setup b cs ->
  legal_calls np (NgState b cs empty_contents) ks -> valid_setup b' cs' ->
  exists g g' changed, grid_after b cs np ks = Some g /\ grid_resize b' cs' g = Some (g', changed) /\
    (changed = false <-> getCellDivisions g' = getCellDivisions g).
Proof. exact ng_resize_result. Qed.
Print Assumptions C09_resize_result.

(** The hypotheses are met by a 3 x 3 x 3 grid in a cube of side 10 and a history with additions and a removal. *)
Example C06_nonvacuous : exists b, box_cuboid 10 10 10 = Some b /\ valid_setup b 3 /\ (forall a, cells_per_axis b 3 a = 3).
Proof. exact cube_box. Qed.
Example C07_nonvacuous : forall b, (forall a, cells_per_axis b 3 a = 3) ->
  legal_calls 5 (NgState b 3 empty_contents)
    [Call (OpAdd 4 31); Call (OpAdd 2 31); Call (OpAdd 0 93); Call (OpRemove 4 31); Call (OpAdd 4 93)].
Proof. exact cube_history. Qed.
