(** Specification of the neighbour grid: an abstract map from cells to lists of identifiers, and the geometry of
    periodic cells. Independent of arrays, linked lists, offsets and reflected cells. *)
From Coq Require Import Reals ZArith List Bool.
From Verif Require Import GeomModel BoxModel BoxSpec PbcSpec NGModel.
Import ListNotations.
Open Scope Z_scope.

(** ** Contents *)

(** Calls changing the contents (the position-taking variants are these with the cell of the position). *)
Inductive ng_op :=
| OpAdd (idx : nat) (cell : Z)
| OpRemove (idx : nat) (cell : Z)
| OpClear.

Definition contents := Z -> list nat.
Definition empty_contents : contents := fun _ => [].

Definition spec_op (o : ng_op) (m : contents) : contents :=
  match o with
  | OpAdd idx c => fun c' => if Z.eqb c' c then idx :: m c else m c'
  | OpRemove idx c => fun c' => if Z.eqb c' c then remove Nat.eq_dec idx (m c) else m c'
  | OpClear => fun _ => []
  end.
Definition spec_ops (os : list ng_op) : contents := fold_left (fun m o => spec_op o m) os empty_contents.

(** What callers must respect: identifiers in range and not added twice; cells existing. *)
Definition legal_op (numParticles : nat) (numCells : Z) (m : contents) (o : ng_op) : Prop :=
  match o with
  | OpAdd idx c => (idx < numParticles)%nat /\ 0 <= c < numCells /\ (forall c', ~ In idx (m c'))
  | OpRemove idx c => 0 <= c < numCells
  | OpClear => True
  end.
Fixpoint legal_from (numParticles : nat) (numCells : Z) (m : contents) (os : list ng_op) : Prop :=
  match os with
  | [] => True
  | o :: os' => legal_op numParticles numCells m o /\ legal_from numParticles numCells (spec_op o m) os'
  end.
Definition legal_history numParticles numCells os := legal_from numParticles numCells empty_contents os.

(** The program. *)
Definition grid_op (o : ng_op) (g : grid) : option grid :=
  match o with
  | OpAdd idx c => grid_add_cell idx c g
  | OpRemove idx c => grid_remove_cell idx c g
  | OpClear => Some (grid_clear g)
  end.
Fixpoint grid_ops (os : list ng_op) (g : grid) : option grid :=
  match os with
  | [] => Some g
  | o :: os' => match grid_op o g with Some g' => grid_ops os' g' | None => None end
  end.

(** ** Geometry *)

(** Number of cells per axis: as many as fit in the height of the box. *)
Definition cells_per_axis (b : box) (cellSize : R) (a : axis) : Z := RFloorModel.Rfl (box_height b a / cellSize)%R.

(** 0-based index of the cell of a point with relative coordinate [r] when the axis is cut into [n] equal slices. *)
Definition slice (n : Z) (r : R) : Z := RFloorModel.Rfl (IZR n * r)%R.
Definition slices (n : axis -> Z) (r : vec) : cvec := C3 (slice (n AX) (vx r)) (slice (n AY) (vy r)) (slice (n AZ) (vz r)).

(** Number of a real cell with 0-based coordinates [c], one layer of reflected cells around. *)
Definition real_cell_no (n : axis -> Z) (c : cvec) : Z :=
  (cx c + 1) + (n AX + 2) * ((cy c + 1) + (n AY + 2) * (cz c + 1)).

(** An arbitrary integer cell coordinate belongs to the periodic image number [c / n] of the cell [c mod n]. *)
Definition wrap_coord (n : axis -> Z) (c : cvec) : cvec :=
  C3 (cx c mod n AX) (cy c mod n AY) (cz c mod n AZ).
Definition image_no (n : axis -> Z) (c : cvec) : cvec :=
  C3 (cx c / n AX) (cy c / n AY) (cz c / n AZ).

Definition cadd (a b : cvec) : cvec := C3 (cx a + cx b) (cy a + cy b) (cz a + cz b).
Definition copp (a : cvec) : cvec := C3 (- cx a) (- cy a) (- cz a).

(** The 27 displacements. *)
Definition in_cube (d : cvec) : Prop := -1 <= cx d <= 1 /\ -1 <= cy d <= 1 /\ -1 <= cz d <= 1.

(** Exactly one of every two opposite displacements, and not the zero one. *)
Definition half_cube (D : list cvec) : Prop :=
  NoDup D /\ (forall d, In d D -> in_cube d) /\ ~ In (C3 0 0 0) D /\
  (forall d, in_cube d -> d <> C3 0 0 0 -> (In d D <-> ~ In (copp d) D)).
Definition full_cube (D : list cvec) : Prop := NoDup D /\ (forall d, In d D <-> in_cube d).

Definition in_range (n : axis -> Z) (c : cvec) : Prop :=
  0 <= cx c < n AX /\ 0 <= cy c < n AY /\ 0 <= cz c < n AZ.

(** Lattice vector (of the periodic box) with integer components [c]. *)
Definition lattice (b : box) (c : cvec) : vec := lattice_vector b (cx c) (cy c) (cz c).

(** What looking at the periodic image of a cell at (unrestricted) integer coordinates [c] should give: the identifiers of
    the cell it is an image of, and the vector moving that cell there. *)
Definition image_view (b : box) (n : axis -> Z) (m : contents) (c : cvec) : list nat * vec :=
  (m (real_cell_no n (wrap_coord n c)), lattice b (image_no n c)).

(** ** Whole histories: contents and re-sizing *)
Record ng_state := NgState { st_box : box; st_cellSize : R; st_contents : contents }.
Definition st_n (s : ng_state) : axis -> Z := cells_per_axis (st_box s) (st_cellSize s).
Definition total_cells (n : axis -> Z) : Z := (n AX + 2) * (n AY + 2) * (n AZ + 2).

(** A box and a cell size for which the grid can be built: at least one cell per axis, a representable number of cells. *)
Definition valid_setup (b : box) (cellSize : R) : Prop :=
  constructed b /\ (0 < cellSize)%R /\ (forall a, cellSize <= box_height b a)%R /\
  total_cells (cells_per_axis b cellSize) < 2 ^ 64.

Inductive ng_call :=
| Call (o : ng_op)
| Resize (b : box) (cellSize : R).

Definition spec_call (k : ng_call) (s : ng_state) : ng_state :=
  match k with
  | Call o => NgState (st_box s) (st_cellSize s) (spec_op o (st_contents s))
  | Resize b cs => NgState b cs empty_contents
  end.
Definition legal_call (np : nat) (s : ng_state) (k : ng_call) : Prop :=
  match k with
  | Call o => legal_op np (total_cells (st_n s)) (st_contents s) o
  | Resize b cs => valid_setup b cs
  end.
Fixpoint legal_calls (np : nat) (s : ng_state) (ks : list ng_call) : Prop :=
  match ks with
  | [] => True
  | k :: ks' => legal_call np s k /\ legal_calls np (spec_call k s) ks'
  end.
Definition spec_calls (ks : list ng_call) (s : ng_state) : ng_state := fold_left (fun s k => spec_call k s) ks s.

(** The program. *)
Definition grid_call (k : ng_call) (g : grid) : option grid :=
  match k with
  | Call o => grid_op o g
  | Resize b cs => option_map fst (grid_resize b cs g)
  end.
Fixpoint grid_calls (ks : list ng_call) (g : grid) : option grid :=
  match ks with
  | [] => Some g
  | k :: ks' => match grid_call k g with Some g' => grid_calls ks' g' | None => None end
  end.

(** The grid obtained by constructing it and then performing the calls. *)
Definition grid_after (b : box) (cs : R) (np : nat) (ks : list ng_call) : option grid :=
  match grid_new b cs np with Some g => grid_calls ks g | None => None end.
Definition state_after (b : box) (cs : R) (ks : list ng_call) : ng_state :=
  spec_calls ks (NgState b cs empty_contents).

(** All (identifier, translation) pairs of a view. *)
Definition view_pairs (views : list (list nat * vec)) : list (nat * vec) :=
  flat_map (fun v => map (fun i => (i, snd v)) (fst v)) views.

(** 0-based coordinates of the cell a point belongs to. *)
Definition cell_of (s : ng_state) (p : vec) : cvec := slices (st_n s) (absoluteToRelative (st_box s) p).
(** The existing cell nearest to given coordinates. *)
Definition nearest_cell (n : axis -> Z) (c : cvec) : cvec :=
  C3 (Z.max 0 (Z.min (n AX - 1) (cx c))) (Z.max 0 (Z.min (n AY - 1) (cy c))) (Z.max 0 (Z.min (n AZ - 1) (cz c))).
