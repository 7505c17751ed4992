(** Crystals: all translations of the molecules of a cell by sides of its box. *)
From Coq Require Import ZArith Reals List Bool Arith.
From Verif Require Import GeomModel BoxModel BoxSpec RotSpec PbcModel LatticeModel LatticeSpec DimsSpec CellModel.
Import ListNotations.
Local Open Scope R_scope.

(** The molecule of a cell with a given number, in the cell with given integer coordinates *)
Record site := Site { molecule : nat; cell_x : Z; cell_y : Z; cell_z : Z }.
Definition located (b : box) (ms : list shape) (p : site) (v : vec) : Prop :=
  exists s, nth_error ms (molecule p) = Some s /\
    v = relativeToAbsolute b (vadd (V3 (IZR (cell_x p)) (IZR (cell_y p)) (IZR (cell_z p))) (sh_pos s)).
Definition number_of {A} (P : A -> Prop) (n : nat) : Prop := exists l, NoDup l /\ length l = n /\ forall x, In x l <-> P x.
(** No two molecules are closer than [d], and each of them has [n] neighbours at this distance. *)
Definition nearest_neighbours (b : box) (ms : list shape) (d : R) (n : nat) : Prop :=
  (forall p q u v, located b ms p u -> located b ms q v -> p <> q -> d <= vnorm (vsub v u)) /\
  (forall p u, located b ms p u -> number_of (fun q => exists v, located b ms q v /\ vnorm (vsub v u) = d) n).
(** Each molecule has [n] of the neighbours at the distance [h] above it along the axis. *)
Definition neighbours_above (b : box) (ms : list shape) (d : R) (a : axis) (h : R) (n : nat) : Prop :=
  forall p u, located b ms p u -> number_of (fun q => exists v, located b ms q v /\ vnorm (vsub v u) = d /\ vget v a = vget u a + h) n.

(** Numbers of nearest neighbours *)
Definition coordination (t : cell_type) : nat :=
  match t with CellSc => 6 | CellBcc => 8 | CellFcc => 12 | CellHcp _ => 12 | CellHexagonal _ => 8 | CellCustom _ => 0 end.
Definition builtin (t : cell_type) : Prop := match t with CellCustom _ => False | _ => True end.
(** Relative positions as in the documentation; for axes y and x they are shifted left once and twice *)
Definition left_shift (v : vec) : vec := V3 (vy v) (vz v) (vx v).
Definition shifted_for (a : axis) (v : vec) : vec := match a with AZ => v | AY => left_shift v | AX => left_shift (left_shift v) end.
Definition documented_positions (t : cell_type) : list vec :=
  match t with
  | CellSc => [V3 (1/2) (1/2) (1/2)]
  | CellBcc => [V3 (1/4) (1/4) (1/4); V3 (3/4) (3/4) (3/4)]
  | CellFcc => [V3 (1/4) (1/4) (1/4); V3 (1/4) (3/4) (3/4); V3 (3/4) (1/4) (3/4); V3 (3/4) (3/4) (1/4)]
  | CellHcp a => map (shifted_for a) [V3 (1/4) (1/12) (1/4); V3 (3/4) (7/12) (1/4); V3 (1/4) (5/12) (3/4); V3 (3/4) (11/12) (3/4)]
  | CellHexagonal a => map (shifted_for a) [V3 (1/4) (1/4) (1/2); V3 (3/4) (3/4) (1/2)]
  | CellCustom shapes => map fst shapes
  end.
(** The middle of the range of coordinates along each axis is the middle of the cell. *)
Definition centred (positions : list vec) : Prop :=
  forall a, exists low high, In low positions /\ In high positions /\ vget low a + vget high a = 1 /\
    forall v, In v positions -> vget low a <= vget v a <= vget high a.
(** A box with given sides *)
Definition has_sides (b : box) (u v w : vec) : Prop := constructed b /\ box_side b AX = u /\ box_side b AY = v /\ box_side b AZ = w.
(** A translation by a combination of sides of the box *)
Definition box_translation (b : box) (i j k : Z) : vec :=
  vadd (vadd (vscale (IZR i) (box_side b AX)) (vscale (IZR j) (box_side b AY))) (vscale (IZR k) (box_side b AZ)).
(** Balls of the given diameter do not overlap, nor do their periodic images. *)
Definition balls_apart (b : box) (shapes : list shape) (d : R) : Prop :=
  forall m n s s' i j k, nth_error shapes m = Some s -> nth_error shapes n = Some s' -> m <> n \/ (i, j, k) <> (0, 0, 0)%Z ->
    d <= vnorm (vsub (vadd (sh_pos s') (box_translation b i j k)) (sh_pos s)).

(** *** The class [lattice] of the input file *)
(** Sides of a box as they are written: a cube, a cuboid, or three vectors *)
Definition given_sides (i : dim_input) : vec * vec * vec :=
  match i with
  | InFloat x => (V3 x 0 0, V3 0 x 0, V3 0 0 x)
  | InFloats v => (V3 (vx v) 0 0, V3 0 (vy v) 0, V3 0 0 (vz v))
  | InVectors u v w => (u, v, w)
  end.
Definition acceptable (i : dim_input) : Prop :=
  match i with
  | InFloat x => 0 < x
  | InFloats v => 0 < vx v /\ 0 < vy v /\ 0 < vz v
  | InVectors u v w => / 10 ^ 8 < Rabs (vdot (vcross u v) w)
  end.
Definition is_box (b : box) (sides : vec * vec * vec) : Prop := let '(u, v, w) := sides in has_sides b u v w.
(** Angles in degrees about the axes x, y and z, one after another *)
Definition turned_by (r : vec) (m : mat) : Prop :=
  exists mx my mz, rotates_about mx (V3 1 0 0) (vx r * PI / 180) /\ rotates_about my (V3 0 1 0) (vy r * PI / 180) /\ rotates_about mz (V3 0 0 1) (vz r * PI / 180) /\
    m = mmul mz (mmul my mx).
(** Positions and angles in the cell *)
Definition documented_molecules (t : cell_type) : list (vec * vec) :=
  match t with CellCustom shapes => shapes | _ => map (fun p => (p, vzero)) (documented_positions t) end.
(** The box is divided into cells, each of them with molecules of the type of the cell. *)
Definition filled (t : cell_type) (lb : box) (n : idx3) (shapes : list shape) : Prop :=
  exists cells, traversal AX AY AZ n cells /\
    Forall2 (fun s x => let '(c, (p, r)) := x in
               sh_pos s = relativeToAbsolute lb (V3 ((INR (ix c) + vx p) / INR (ix n)) ((INR (iy c) + vy p) / INR (iy n)) ((INR (iz c) + vz p) / INR (iz n))) /\
               turned_by r (sh_rot s))
            shapes (list_prod cells (documented_molecules t)).
Definition positive (n : idx3) : Prop := (0 < ix n /\ 0 < iy n /\ 0 < iz n)%nat.
(** Axes with more cells first, of those with the same number the later one first *)
Definition goes_first (n : idx3) (a a' : axis) : Prop := (iget n a' < iget n a)%nat \/ (iget n a = iget n a' /\ (axis_letter a' < axis_letter a)%Z).
(** Numbers of cells for at least [N] molecules with [m] in a cell: the nearest to those of cubic cells, of which the first greatest is increased
    only as much as needed *)
Definition nearly_cubic (N m : nat) (b : box) (n : idx3) : Prop :=
  exists cells side r a k, cells_needed N m cells /\ cube_side b cells side /\ (forall a, nearest (box_height b a / side) (iget r a)) /\
    first_greatest r a /\ lengthened r a k n /\ (cells <= cells_in n)%nat /\
    (forall j n', (j < k)%nat -> lengthened r a j n' -> (cells_in n' < cells)%nat).
(** Transformations made one after another, none of which fails *)
Inductive transformed : list transformer -> lattice -> lattice -> Prop :=
| tr_none l : transformed [] l l
| tr_next t ts l l' l'' : t l = Some l' -> transformed ts l' l'' -> transformed (t :: ts) l l''.
