(** [src/core/lattice/DistanceOptimizer.cpp:57-131], [CellOptimizationTransformer.cpp], [LayerWiseCellOptimizationTransformer.cpp].

    What is known about the interaction are three arguments: whether it has a hard part, its total range radius, and whether a packing with
    periodic boundary conditions has overlaps (a non-zero [Packing::countTotalOverlaps]) for a box and shapes given to its constructor or to
    [Packing::reset]. Results are [None] if loops need more fuel, [Some Violated] for exceptions and failed assertions. *)
From Coq Require Import ZArith Reals List Bool Arith.
From Verif Require Import TextModel GeomModel BoxModel PbcModel LatticeModel PackModel RotModel TransModel DistModel.
Import ListNotations.
Local Open Scope R_scope.

Definition abind {A B} (r : option (answer A)) (f : A -> option (answer B)) : option (answer B) :=
  match r with Some (Value a) => f a | Some Violated => Some Violated | None => None end.
Notation "x <-! r ;; f" := (abind r (fun x => f)) (at level 61, r at next level, right associativity).
Definition may_throw {A} (r : option A) : option (answer A) := match r with Some a => Some (Value a) | None => Some Violated end.
Definition may_loop {A} (r : option A) : option (answer A) := match r with Some a => Some (Value a) | None => None end.
(** TransformerValidate, Assert *)
Definition validate (condition : bool) : option (answer unit) := Some (if condition then Value tt else Violated).

(** DistanceOptimizer.cpp:65, LayerWiseCellOptimizationTransformer.cpp:130 *)
Definition FACTOR_EPSILON : R := 1 + / 10 ^ 12.
Definition all_axes (p : axis -> bool) : bool := p AX && p AY && p AZ.
(** DistanceOptimizer.cpp:91-92: a column of the matrix is multiplied *)
Definition scale_column (m : mat) (a : axis) (f : R) : mat := mmake (fun i j => if axis_eqb j a then mget m i j * f else mget m i j).
(** DistanceOptimizer.cpp:104 *)
Definition middle (m m' : mat) : mat := mmake (fun i j => (mget m i j + mget m' i j) / 2).
(** DistanceOptimizer.cpp:133-139 *)
Definition generateAbsoluteShapes (relShapes : list shape) (m : mat) : list shape := map (fun s => Shape (mvec m (sh_pos s)) (sh_rot s)) relShapes.

Section Optimization.
Variable hard : bool.
Variable range : R.
Variable overlaps : box -> list shape -> bool.

Definition overlaps_in (m : mat) (shapes : list shape) : option (answer bool) := b <-! may_throw (box_of_matrix m) ;; Some (Value (overlaps b shapes)).
(** DistanceOptimizer.cpp:102-115 *)
Fixpoint shrink_loop (fuel : nat) (relShapes : list shape) (begFactor endFactor : R) (begBox endBox : mat) (endShapes : list shape)
    : option (answer (mat * list shape)) :=
  match fuel with
  | O => None
  | S fuel' =>
    let factorMid := (begFactor + endFactor) / 2 in
    let midBox := middle begBox endBox in
    let midShapes := generateAbsoluteShapes relShapes midBox in
    o <-! overlaps_in midBox midShapes ;;
    (let '(begF, begB, endF, endB, endS) :=
       if o : bool then (factorMid, midBox, endFactor, endBox, endShapes) else (begFactor, begBox, factorMid, midBox, midShapes) in
     if Rltb EPSILON (Rabs (endF - begF)) then shrink_loop fuel' relShapes begF endF begB endB endS else Some (Value (endB, endS)))
  end.
(** DistanceOptimizer.cpp:85-127 *)
Definition shrink_axis (fuel : nat) (initialHeights : axis -> R) (relShapes : list shape) (b : box) (axisNum : axis) : option (answer box) :=
  let begFactor := range * FACTOR_EPSILON / initialHeights axisNum in
  let endBox := dims b in
  let begBox := scale_column (dims b) axisNum begFactor in
  o <-! overlaps_in begBox (generateAbsoluteShapes relShapes begBox) ;;
  (_ <-! validate o ;;
  (r <-! shrink_loop fuel relShapes begFactor 1 begBox endBox (generateAbsoluteShapes relShapes endBox) ;;
  (b' <-! may_throw (box_of_matrix (scale_column (fst r) axisNum FACTOR_EPSILON)) ;;
  (_ <-! validate (negb (overlaps b' (snd r))) ;; Some (Value b'))))).
(** DistanceOptimizer.cpp:57-128; the new box of the packing *)
Definition shrinkPacking (fuel : nat) (b : box) (shapes : list shape) (axisOrderString : text) : option (answer box) :=
  _ <-! validate hard ;;
  (_ <-! validate (all_axes (fun a => Rltb (FACTOR_EPSILON * range) (box_height b a))) ;;
  (_ <-! validate (negb (overlaps b shapes)) ;;
  (let relShapes := map (fun s => Shape (absoluteToRelative b (sh_pos s)) (sh_rot s)) shapes in
   o <-! may_throw (parseAxisOrder axisOrderString) ;;
   (let '(a0, a1, a2) := o in
    b0 <-! shrink_axis fuel (box_height b) relShapes b a0 ;;
    (b1 <-! shrink_axis fuel (box_height b) relShapes b0 a1 ;; shrink_axis fuel (box_height b) relShapes b1 a2))))).
(** CellOptimizationTransformer.cpp:39-44 *)
Definition spaced_box (newBox : box) (dim : idx3) (spacings : vec) : option box :=
  let side a := vscale ((box_height newBox a + vget spacings a * INR (iget dim a)) / box_height newBox a) (box_side newBox a) in
  box_of_sides (side AX) (side AY) (side AZ).
(** CellOptimizationTransformer.cpp:15-48 and 50-56 *)
Definition cell_optimization (fuel : nat) (axisOrderString : text) (spacings : vec) (l : lattice) : option (answer lattice) :=
  _ <-! may_throw (parseAxisOrder axisOrderString) ;;
  (_ <-! validate hard ;;
  (_ <-! validate (isNormalized l) ;;
  (oldBox <-! may_throw (getLatticeBox l) ;;
  (shapes <-! may_throw (generateMolecules l) ;;
  (newBox <-! shrinkPacking fuel oldBox shapes axisOrderString ;;
  (_ <-! validate (all_axes (fun a => Rltb 0 (box_height newBox a + vget spacings a * INR (iget (lat_dims l) a)))) ;;
  (newBox <-! may_throw (spaced_box newBox (lat_dims l) spacings) ;;
  (inverse <-! may_throw (minverse (dims oldBox)) ;;
  (b <-! may_throw (box_transform (mmul (dims newBox) inverse) (lat_box l)) ;; Some (Value (modifyCellBox l b))))))))))).

(** LayerWiseCellOptimizationTransformer.cpp:44-54 *)
Definition areShapesOverlapping (fuel : nat) (b : box) (shapes : list shape) (d : idx3) : option (answer bool) :=
  l <-! may_throw (make_lattice b shapes d) ;;
  (l' <-! may_loop (normalize fuel l) ;;
  (molecules <-! may_throw (generateMolecules l') ;;
  (lb <-! may_throw (getLatticeBox l') ;; Some (Value (overlaps lb molecules))))).
(** LayerWiseCellOptimizationTransformer.cpp:73-78 and 92-97: new coordinates of molecules with given indices *)
Fixpoint change_coords (a : axis) (f : R -> R) (indices : list nat) (cell : list shape) : option (list shape) :=
  match indices with
  | [] => Some cell
  | i :: indices' => match change_at i (fun s => Some (Shape (vput (sh_pos s) a (f (vget (sh_pos s) a))) (sh_rot s))) cell with
                     | Some cell' => change_coords a f indices' cell'
                     | None => None
                     end
  end.
(** LayerWiseCellOptimizationTransformer.cpp:70-87 *)
Fixpoint layer_loop (fuel fuel0 : nat) (b : box) (d : idx3) (a : axis) (indices : list nat) (begLayerCoord endLayerCoord : R) (cellShapes : list shape)
    : option (answer (list shape)) :=
  match fuel with
  | O => None
  | S fuel' =>
    let midLayerCoord := (begLayerCoord + endLayerCoord) / 2 in
    midShapes <-! may_throw (change_coords a (fun _ => midLayerCoord) indices cellShapes) ;;
    (o <-! areShapesOverlapping fuel0 b midShapes d ;;
     (let '(begC, endC, shapes) := if o : bool then (midLayerCoord, endLayerCoord, cellShapes) else (begLayerCoord, midLayerCoord, midShapes) in
      if Rltb EPSILON (Rabs (endC - begC)) then layer_loop fuel' fuel0 b d a indices begC endC shapes else Some (Value shapes)))
  end.
(** LayerWiseCellOptimizationTransformer.cpp:64-98; [prevLayer->first] is the coordinate from before the optimisation *)
Fixpoint optimize_layers (fuel : nat) (b : box) (d : idx3) (a : axis) (prevLayer : R * list nat) (layers : list (R * list nat)) (cellShapes : list shape)
    : option (answer (list shape)) :=
  match layers with
  | [] => Some (Value cellShapes)
  | layer :: layers' =>
    shapes <-! layer_loop fuel fuel b d a (snd layer) (fst prevLayer) (fst layer) cellShapes ;;
    (shapes' <-! may_throw (change_coords a (fun x => x + EPSILON) (snd layer) shapes) ;; optimize_layers fuel b d a layer layers' shapes')
  end.
Definition optimizeLayers (fuel : nat) (b : box) (d : idx3) (a : axis) (layerAssociation : list (R * list nat)) (cellShapes : list shape) : option (answer (list shape)) :=
  match layerAssociation with [] => Some (Value cellShapes) | first :: layers => optimize_layers fuel b d a first layers cellShapes end.
(** LayerWiseCellOptimizationTransformer.cpp:101-114 *)
Definition rescaleCell (a : axis) (oldBox : box) (oldShapes : list shape) (factor : R) : option (box * list shape) :=
  let side a' := if axis_eqb a' a then vscale factor (box_side oldBox a') else box_side oldBox a' in
  match box_of_sides (side AX) (side AY) (side AZ) with
  | Some b => Some (b, map (fun s => Shape (vput (sh_pos s) a (vget (sh_pos s) a / factor)) (sh_rot s)) oldShapes)
  | None => None
  end.
(** LayerWiseCellOptimizationTransformer.cpp:146-158 *)
Fixpoint cell_loop (fuel fuel0 : nat) (a : axis) (d : idx3) (initialBox : box) (initialShapes : list shape) (begFactor endFactor : R) (best : box * list shape)
    : option (answer (box * list shape)) :=
  match fuel with
  | O => None
  | S fuel' =>
    let midFactor := (begFactor + endFactor) / 2 in
    mid <-! may_throw (rescaleCell a initialBox initialShapes midFactor) ;;
    (o <-! areShapesOverlapping fuel0 (fst mid) (snd mid) d ;;
     (let '(begF, endF, best') := if o : bool then (midFactor, endFactor, best) else (begFactor, midFactor, mid) in
      if Rltb EPSILON (Rabs (endF - begF)) then cell_loop fuel' fuel0 a d initialBox initialShapes begF endF best' else Some (Value best')))
  end.
(** LayerWiseCellOptimizationTransformer.cpp:116-159 *)
Definition optimizeCell (fuel : nat) (a : axis) (d : idx3) (b : box) (cellShapes : list shape) : option (answer (box * list shape)) :=
  lb <-! may_throw (getLatticeBox (Lattice b [cellShapes] d true)) ;;
  (_ <-! validate (all_axes (fun a' => Rltb (FACTOR_EPSILON * range) (box_height lb a'))) ;;
  (let begFactor := range * FACTOR_EPSILON / box_height lb a in
   beg <-! may_throw (rescaleCell a b cellShapes begFactor) ;;
   (o <-! areShapesOverlapping fuel (fst beg) (snd beg) d ;;
   (_ <-! validate o ;; cell_loop fuel fuel a d b cellShapes begFactor 1 (b, cellShapes))))).
(** LayerWiseCellOptimizationTransformer.cpp:178-185 *)
Fixpoint space_layers (a : axis) (shift cellFactor : R) (i : nat) (layers : list (R * list nat)) (cellShapes : list shape) : option (list shape) :=
  match layers with
  | [] => Some cellShapes
  | layer :: layers' => match change_coords a (fun x => (x + INR i * shift) / cellFactor) (snd layer) cellShapes with
                        | Some shapes => space_layers a shift cellFactor (S i) layers' shapes
                        | None => None
                        end
  end.
(** LayerWiseCellOptimizationTransformer.cpp:161-186 *)
Definition introduceSpacing (a : axis) (spacing : R) (layers : list (R * list nat)) (c : box * list shape) : option (answer (box * list shape)) :=
  let height := box_height (fst c) a in
  let cellFactor := (height + INR (length layers) * spacing) / height in
  _ <-! validate (Rltb 0 cellFactor) ;;
  (let side a' := if axis_eqb a' a then vscale cellFactor (box_side (fst c) a') else box_side (fst c) a' in
   b <-! may_throw (box_of_sides (side AX) (side AY) (side AZ)) ;;
   (shapes <-! may_throw (space_layers a (spacing / height) cellFactor 0 layers (snd c)) ;; Some (Value (b, shapes)))).
(** LayerWiseCellOptimizationTransformer.cpp:188-196 *)
Definition centerShapesInCell (a : axis) (cellShapes : list shape) : option (list shape) :=
  match nth_error cellShapes 0, nth_error cellShapes (length cellShapes - 1) with
  | Some front, Some back =>
    let cellMiddle := (vget (sh_pos front) a + vget (sh_pos back) a) / 2 in
    Some (map (fun s => Shape (vput (sh_pos s) a (vget (sh_pos s) a + (1/2 - cellMiddle))) (sh_rot s)) cellShapes)
  | _, _ => None
  end.
(** LayerWiseCellOptimizationTransformer.cpp:18-42 *)
Definition layer_optimization (fuel : nat) (a : axis) (spacing : R) (l : lattice) : option (answer lattice) :=
  _ <-! validate hard ;;
  (_ <-! validate (lat_regular l) ;;
  (_ <-! validate (isNormalized l) ;;
  (cell <-! may_throw (getSpecificCell l (I3 0 0 0)) ;;
  (let layers := getLayerAssociation cell a in
   _ <-! validate (match layers with [] => false | _ => true end) ;;
  (lb <-! may_throw (getLatticeBox l) ;;
  (molecules <-! may_throw (generateMolecules l) ;;
  (_ <-! validate (negb (overlaps lb molecules)) ;;
  (shapes <-! optimizeLayers fuel (lat_box l) (lat_dims l) a layers cell ;;
  (c <-! optimizeCell fuel a (lat_dims l) (lat_box l) shapes ;;
  (c' <-! introduceSpacing a spacing layers c ;;
  (shapes' <-! may_throw (centerShapesInCell a (snd c')) ;;
   may_loop (normalize fuel (Lattice (fst c') [shapes'] (lat_dims l) true))))))))))))).
End Optimization.
