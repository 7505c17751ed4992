(** [src/core/lattice/UnitCellFactory.cpp] and [src/frontend/matchers/LatticeMatcher.cpp]: unit cells, and packings made by the class
    [lattice] of the input file.

    A unit cell is a box and molecules with relative positions ([UnitCell.h:22-23]). Arguments of the class are values after parsing.
    Transformers are functions which may fail, and random permutations are arguments. *)
From Coq Require Import ZArith Reals List Bool Arith.
From Verif Require Import TextModel GeomModel BoxModel PbcModel LatticeModel DimsModel OptModel.
Import ListNotations.
Local Open Scope R_scope.

(** Shape.h:31-33: a shape with no orientation given *)
Definition at_position (x y z : R) : shape := Shape (V3 x y z) mid.
(** TriclinicBox.h:35-37 *)
Definition box_cube (a : R) : option box := box_cuboid a a a.

(** UnitCellFactory.cpp:8-18 *)
Definition sc_molecules : list shape := [at_position (1/2) (1/2) (1/2)].
(** UnitCellFactory.cpp:20-31 *)
Definition bcc_molecules : list shape := [at_position (1/4) (1/4) (1/4); at_position (3/4) (3/4) (3/4)].
Definition bcc_side (ballDiameter : R) : R := 2 * ballDiameter / sqrt 3.
(** UnitCellFactory.cpp:33-45 *)
Definition fcc_molecules : list shape :=
  [at_position (1/4) (1/4) (1/4); at_position (1/4) (3/4) (3/4); at_position (3/4) (1/4) (3/4); at_position (3/4) (3/4) (1/4)].
Definition fcc_side (ballDiameter : R) : R := sqrt 2 * ballDiameter.
(** UnitCellFactory.cpp:54-67: [newPos[(i + shift) % 3] = oldPos[i]] *)
Definition cycled (a : axis) (v : vec) : vec :=
  match a with
  | AX => V3 (vz v) (vx v) (vy v)
  | AY => V3 (vy v) (vz v) (vx v)
  | AZ => v
  end.
(** UnitCellFactory.cpp:47-70 *)
Definition hcp_molecules (a : axis) : list shape :=
  map (fun v => Shape (cycled a (vadd v (V3 (1/4) (1/12) (1/4)))) mid) [V3 0 0 0; V3 (1/2) (1/2) 0; V3 0 (1/3) (1/2); V3 (1/2) (5/6) (1/2)].
(** UnitCellFactory.cpp:76-89 *)
Definition hcp_sides (ballDiameter : R) (ax : axis) : vec :=
  let a := ballDiameter in let b := sqrt 3 * ballDiameter in let c := 2 * sqrt 6 * ballDiameter / 3 in
  match ax with AX => V3 c a b | AY => V3 b c a | AZ => V3 a b c end.
(** UnitCellFactory.cpp:91-101 *)
Definition hexagonal_molecules (a : axis) : list shape :=
  match a with
  | AX => [at_position (1/2) (1/4) (1/4); at_position (1/2) (3/4) (3/4)]
  | AY => [at_position (1/4) (1/2) (1/4); at_position (3/4) (1/2) (3/4)]
  | AZ => [at_position (1/4) (1/4) (1/2); at_position (3/4) (3/4) (1/2)]
  end.
(** UnitCellFactory.cpp:107-119 *)
Definition hexagonal_sides (ballDiameter : R) (ax : axis) : vec :=
  let a := ballDiameter in let b := sqrt 3 * ballDiameter in let c := ballDiameter in
  match ax with AX => V3 c a b | AY => V3 b c a | AZ => V3 a b c end.

(** LatticeMatcher.cpp:260-334: classes of cells; [CellCustom] with positions and angles in degrees *)
Inductive cell_type := CellSc | CellBcc | CellFcc | CellHcp (a : axis) | CellHexagonal (a : axis) | CellCustom (shapes : list (vec * vec)).
(** LatticeMatcher.cpp:306-320 *)
Definition custom_shape (s : vec * vec) : shape :=
  let factor := PI / 180 in Shape (fst s) (mrot_xyz (factor * vx (snd s)) (factor * vy (snd s)) (factor * vz (snd s))).
(** LatticeMatcher.cpp:34: std::variant<double, std::array<double, 3>, TriclinicBox> *)
Inductive cell_dim := DimNumber (d : R) | DimSides (v : vec) | DimBox (b : box).
(** LatticeMatcher.cpp:214: [TriclinicBox(args)] *)
Definition dim_box (x : cell_dim) : option box :=
  match x with DimNumber d => box_cube d | DimSides v => box_cuboid (vx v) (vy v) (vz v) | DimBox b => Some b end.
Definition with_molecules (molecules : list shape) (b : option box) : option (box * list shape) :=
  match b with Some b' => Some (b', molecules) | None => None end.
(** LatticeMatcher.cpp:265-334 and the overloads of UnitCellFactory.cpp *)
Definition create_cell (t : cell_type) (x : cell_dim) : option (box * list shape) :=
  match t with
  | CellSc => with_molecules sc_molecules (dim_box x)
  | CellBcc => with_molecules bcc_molecules (match x with DimNumber d => box_cube (bcc_side d) | _ => dim_box x end)
  | CellFcc => with_molecules fcc_molecules (match x with DimNumber d => box_cube (fcc_side d) | _ => dim_box x end)
  | CellHcp a => with_molecules (hcp_molecules a) (match x with DimNumber d => dim_box (DimSides (hcp_sides d a)) | _ => dim_box x end)
  | CellHexagonal a => with_molecules (hexagonal_molecules a) (match x with DimNumber d => dim_box (DimSides (hexagonal_sides d a)) | _ => dim_box x end)
  | CellCustom shapes => with_molecules (map custom_shape shapes) (dim_box x)
  end.

(** LatticeMatcher.cpp:336-361: what is written in the input; vectors of a box are rows of the matrix, so it is transposed *)
Inductive dim_input := InFloat (x : R) | InFloats (v : vec) | InVectors (u v w : vec).
Definition rows (u v w : vec) : mat := M33 (vx u) (vy u) (vz u) (vx v) (vy v) (vz v) (vx w) (vy w) (vz w).
Definition match_dim (i : dim_input) : option cell_dim :=
  match i with
  | InFloat x => if Rltb 0 x then Some (DimNumber x) else None
  | InFloats v => if Rltb 0 (vx v) && Rltb 0 (vy v) && Rltb 0 (vz v) then Some (DimSides v) else None
  | InVectors u v w => if Rltb (/ 10 ^ 8) (Rabs (mdet (rows u v w)))
                       then match box_of_matrix (mtrans (rows u v w)) with Some b => Some (DimBox b) | None => None end else None
  end.

Definition transformer := lattice -> option lattice.
(** LatticeMatcher.cpp:84-93: pairs of a dimension and a letter are sorted, then letters are reversed *)
Definition pair_leb (p q : nat * Z) : bool := Nat.ltb (fst p) (fst q) || (Nat.eqb (fst p) (fst q) && Z.leb (snd p) (snd q)).
Fixpoint insert_pair (p : nat * Z) (l : list (nat * Z)) : list (nat * Z) :=
  match l with [] => [p] | q :: l' => if pair_leb p q then p :: l else q :: insert_pair p l' end.
Definition optimizeAxisOrder (l : lattice) : text :=
  rev (map snd (fold_right insert_pair [] [(ix (lat_dims l), 120%Z); (iy (lat_dims l), 121%Z); (iz (lat_dims l), 122%Z)])).
(** LatticeMatcher.cpp:95-111 and 376-404; [shuffled] is what the generator of RandomPopulator makes of indices *)
Inductive populator := Full | Serial (n : nat) (order : text) | SerialAuto (n : nat) | Random (n : nat) (shuffled : list nat).
Definition populate (p : populator) (l : lattice) : option (list shape) :=
  match p with
  | Full => generateMolecules l
  | Serial n order => serial_populate order l n
  | SerialAuto n => serial_populate (optimizeAxisOrder l) l n
  | Random n shuffled => random_populate shuffled l n
  end.
(** LatticeMatcher.cpp:70-80; the box and shapes given to the constructor of Packing *)
Definition create_packing (ts : list transformer) (p : populator) (l : lattice) : option (box * list shape) :=
  l' <- fold_left (fun r (t : transformer) => x <- r ;; t x) ts (Some l) ;;
  (shapes <- populate p l' ;; (b <- getLatticeBox l' ;; Some (b, shapes))).

(** LatticeMatcher.cpp:165-191 *)
Definition manual_lattice (t : cell_type) (x : cell_dim) (n : idx3) : option lattice :=
  c <- create_cell t x ;; make_lattice (fst c) (snd c) n.
(** LatticeMatcher.cpp:219-221 and 249-252: sides divided by numbers of cells *)
Definition divided_box (b : box) (n : idx3) : option box :=
  box_of_sides (vscale (/ INR (ix n)) (box_side b AX)) (vscale (/ INR (iy n)) (box_side b AY)) (vscale (/ INR (iz n)) (box_side b AZ)).
(** LatticeMatcher.cpp:229-258 *)
Definition boxed_lattice (t : cell_type) (x : cell_dim) (n : idx3) : option lattice :=
  b <- dim_box x ;; (cb <- divided_box b n ;; (c <- create_cell t (DimBox cb) ;; make_lattice (fst c) (snd c) n)).
(** LatticeMatcher.cpp:193-227; all places of the lattice are then filled, [Full] *)
Definition automatic_lattice (fuel : nat) (t : cell_type) (x : cell_dim) (nShapes : nat) : option lattice :=
  b <- dim_box x ;; (one <- create_cell t (DimNumber 1) ;; (n <- optimize_dims fuel nShapes (length (snd one)) b ;;
  (cb <- divided_box b n ;; (c <- create_cell t (DimBox cb) ;; make_lattice (fst c) (snd c) n)))).
