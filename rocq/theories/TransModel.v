(** [src/core/lattice/LatticeTraits.cpp:31-85], [LayerWiseTransformer.cpp], [LayerRotationTransformer.cpp], [ColumnarTransformer.cpp],
    [FlipRandomizingTransformer.cpp], [RotationRandomizingTransformer.cpp].

    Numbers drawn from random generators are arbitrary arguments, given for the place in which they are used. A failed precondition, an
    exception and reading a vector outside of its bounds are [None]; a transformer which throws leaves the lattice as it was, because the
    lattice is only assigned at the end (LayerWiseTransformer.cpp:34-35) or after all checks (ColumnarTransformer.cpp:14-17). *)
From Coq Require Import ZArith Reals List Bool Arith.
From Verif Require Import TextModel GeomModel BoxModel PbcModel RFloorModel LatticeModel PackModel RotModel OptModel.
Import ListNotations.
Local Open Scope nat_scope.

Definition LAYER_EPSILON : R := (/ 10 ^ 10)%R.
(** [std::find_if] over bins, a new bin at the end if there is none, and [push_back] of the index [i] *)
Fixpoint join_bin {K} (near : K -> bool) (key : K) (i : nat) (bins : list (K * list nat)) : list (K * list nat) :=
  match bins with
  | [] => [(key, [i])]
  | (y, indices) :: bins' => if near y then (y, indices ++ [i]) :: bins' else (y, indices) :: join_bin near key i bins'
  end.
Definition associate {K} (key : shape -> K) (near : K -> K -> bool) (cell : list shape) : list (K * list nat) :=
  fold_left (fun bins p => join_bin (fun y => near y (key (snd p))) (key (snd p)) (fst p) bins) (combine (seq 0 (length cell)) cell) [].
(** [std::sort] with the comparator of LatticeTraits.cpp:53-55; coordinates of bins are different, so the order is unique *)
Fixpoint insert_bin {A} (x : R * A) (l : list (R * A)) : list (R * A) :=
  match l with [] => [x] | y :: l' => if Rltb (fst y) (fst x) then y :: insert_bin x l' else x :: l end.
Definition sort_bins {A} (l : list (R * A)) : list (R * A) := fold_right insert_bin [] l.
(** LatticeTraits.cpp:31-58 *)
Definition layer_near (y x : R) : bool := Rltb (Rabs (y - x)) LAYER_EPSILON.
Definition getLayerAssociation (cell : list shape) (a : axis) : list (R * list nat) :=
  sort_bins (associate (fun s => vget (sh_pos s) a) layer_near cell).
(** LatticeTraits.cpp:60-85 *)
Definition axis_next (a : axis) : axis := match a with AX => AY | AY => AZ | AZ => AX end.
Definition column_near (y x : R * R) : bool := Rltb (Rabs (fst y - fst x)) LAYER_EPSILON && Rltb (Rabs (snd y - snd x)) LAYER_EPSILON.
Definition column_key (a : axis) (s : shape) : R * R := (vget (sh_pos s) (axis_next a), vget (sh_pos s) (axis_next (axis_next a))).
Definition getColumnAssociation (cell : list shape) (a : axis) : list ((R * R) * list nat) := associate (column_key a) column_near cell.

(** LayerWiseTransformer.cpp:95-106; the loop makes less than [n2] rounds, which the proofs show *)
Fixpoint lcm_loop (fuel n1 n1_0 n2 : nat) : option nat :=
  if Nat.eqb (n1 mod n2) 0 then Some n1
  else match fuel with O => None | S fuel' => lcm_loop fuel' (n1 + n1_0) n1_0 n2 end.
Definition LCM (n1 n2 : nat) : option nat :=
  if Nat.ltb 0 n1 && Nat.ltb 0 n2
  then let '(m1, m2) := if Nat.ltb n1 n2 then (n2, n1) else (n1, n2) in lcm_loop m2 m1 m1 m2
  else None.

Definition vput (v : vec) (a : axis) (x : R) : vec := vmake (fun a' => if axis_eqb a' a then x else vget v a').
(** LayerWiseTransformer.cpp:57-71 *)
Definition replicate_layers (factor molecules : nat) (layers : list (R * list nat)) : list (R * list nat) :=
  flat_map (fun i => map (fun layer => ((fst layer + INR i + INR factor)%R, map (fun j => j + i * molecules) (snd layer))) layers) (seq 0 factor).
(** LayerWiseTransformer.cpp:80-90 *)
Definition replicate_cell (factor : nat) (a : axis) (cell : list shape) : list shape :=
  flat_map (fun i => map (fun s => Shape (vput (sh_pos s) a ((vget (sh_pos s) a + INR i) / INR factor)%R) (sh_rot s)) cell) (seq 0 factor).
(** LayerWiseTransformer.cpp:76-78 *)
Definition scaled_box (b : box) (a : axis) (factor : nat) : option box :=
  let side a' := if axis_eqb a' a then vscale (INR factor) (box_side b a') else box_side b a' in
  box_of_sides (side AX) (side AY) (side AZ).
(** LayerWiseTransformer.cpp:38-93 *)
Definition recalculateUnitCell (b : box) (cell : list shape) (layers : list (R * list nat)) (d : idx3) (a : axis) (requested : nat)
    : option (box * list shape * list (R * list nat) * idx3) :=
  newNumOfLayers <- LCM (length layers) requested ;;
  let factor := newNumOfLayers / length layers in
  if Nat.eqb (iget d a mod factor) 0
  then b' <- scaled_box b a factor ;;
       Some (b', replicate_cell factor a cell, replicate_layers factor (length cell) layers, iset d a (iget d a / factor))
  else None.
Fixpoint change_at (i : nat) (f : shape -> option shape) (cell : list shape) : option (list shape) :=
  match cell, i with
  | [], _ => None
  | s :: cell', O => s' <- f s ;; Some (s' :: cell')
  | s :: cell', S i' => r <- change_at i' f cell' ;; Some (s :: r)
  end.
Section LayerWise.
(** The virtual functions [getRequestedNumOfLayers] and [transformShape] *)
Variable requested : nat.
Variable transformShape : shape -> nat -> option shape.
(** LayerWiseTransformer.cpp:26-32 *)
Definition transform_layers (layers : list (R * list nat)) (cell : list shape) : option (list shape) :=
  fold_left (fun r p => c <- r ;; fold_left (fun r' i => c' <- r' ;; change_at i (fun s => transformShape s (fst p mod requested)) c') (snd (snd p)) (Some c))
            (combine (seq 0 (length layers)) layers) (Some cell).
(** LayerWiseTransformer.cpp:11-36 *)
Definition layerwise_transform (a : axis) (l : lattice) : option lattice :=
  if negb (lat_regular l) then None
  else if negb (isNormalized l) then None
  else cell <- getSpecificCell l (I3 0 0 0) ;;
       (r <- recalculateUnitCell (lat_box l) cell (getLayerAssociation cell a) (lat_dims l) a requested ;;
        let '(b', cell', layers', d') := r in
        if Nat.eqb (length layers' mod requested) 0
        then cell'' <- transform_layers layers' cell' ;; make_lattice b' cell'' d'
        else None).
End LayerWise.

(** LayerRotationTransformer.cpp:15-39 *)
Definition rotation_requested (alternating : bool) : nat := if alternating then 2 else 1.
Definition rotation_of (rotation_axis : axis) (angle : R) : mat :=
  let angles a := if axis_eqb a rotation_axis then angle else 0%R in mrot_xyz (angles AX) (angles AY) (angles AZ).
Definition rotate_layer (rotation_axis : axis) (angle : R) (alternating : bool) (s : shape) (layer : nat) : option shape :=
  if negb alternating && negb (Nat.eqb layer 0) then None
  else match layer with
       | 0 => Some (shape_rotate (rotation_of rotation_axis angle) s)
       | 1 => Some (shape_rotate (rotation_of rotation_axis (- angle)%R) s)
       | _ => None
       end.
Definition layer_rotation (layer_axis rotation_axis : axis) (angle : R) (alternating : bool) (l : lattice) : option lattice :=
  layerwise_transform (rotation_requested alternating) (rotate_layer rotation_axis angle alternating) layer_axis l.

(** ColumnarTransformer.cpp:40-43: the new coordinate *)
Definition wrap_loops (fuel : nat) (x : R) : option R :=
  y <- while_add fuel (fun c => Rleb 1 c) (-1)%R x ;; while_add fuel (fun c => Rltb c 0) 1%R y.
(** ColumnarTransformer.cpp:36-46; [fuel] bounds the number of iterations of each while loop *)
Definition shift_shape (fuel : nat) (a : axis) (shift : R) (s : shape) : option shape :=
  x <- wrap_loops fuel (vget (sh_pos s) a + shift)%R ;; Some (Shape (vput (sh_pos s) a x) (sh_rot s)).
Definition shift_indices (fuel : nat) (a : axis) (shift : R) (indices : list nat) (cell : list shape) : option (list shape) :=
  fold_left (fun r i => c <- r ;; change_at i (shift_shape fuel a shift) c) indices (Some cell).
(** Lattice.cpp:26-33 for a change of molecules which may fail *)
Definition modify_cell (l : lattice) (c : idx3) (f : list shape -> option (list shape)) : option lattice :=
  l' <- modifySpecificCellMolecules l c (fun ms => ms) ;;
  (ms <- getSpecificCell l' c ;; (ms' <- f ms ;; modifySpecificCellMolecules l' c (fun _ => ms'))).
(** ColumnarTransformer.cpp:13-50; [shift i1 i2 n] is the number drawn for the n-th column of the column of cells (i1, i2) *)
Definition columnar (fuel : nat) (shift : nat -> nat -> nat -> R) (a : axis) (l : lattice) : option lattice :=
  if negb (lat_regular l) then None
  else if negb (isNormalized l) then None
  else cell <- nth_error (lat_cells l) 0 ;;
       let columns := getColumnAssociation cell a in
       let d := lat_dims l in
       let a1 := axis_next a in
       let a2 := axis_next a1 in
       fold_left (fun r i1 =>
         fold_left (fun r i2 =>
           fold_left (fun r (p : nat * ((R * R) * list nat)) =>
             fold_left (fun r i =>
               l' <- r ;; modify_cell l' (iset (iset (iset (I3 0 0 0) a1 i1) a2 i2) a i) (shift_indices fuel a (shift i1 i2 (fst p)) (snd (snd p))))
               (seq 0 (iget d a)) r)
             (combine (seq 0 (length columns)) columns) r)
           (seq 0 (iget d a2)) r)
         (seq 0 (iget d a1)) (Some l).

Fixpoint map_opt {A B} (f : A -> option B) (l : list A) : option (list B) :=
  match l with [] => Some [] | x :: l' => y <- f x ;; (r <- map_opt f l' ;; Some (y :: r)) end.
(** The loops over cells and their molecules of FlipRandomizingTransformer.cpp:17-33 and RotationRandomizingTransformer.cpp:21-28; [f c n] is done with the n-th molecule of the cell [c] *)
Definition for_molecules (f : idx3 -> nat -> shape -> option shape) (l : lattice) : option lattice :=
  fold_left (fun r c => l' <- r ;; modify_cell l' c (fun ms => map_opt (fun p => f c (fst p) (snd p)) (combine (seq 0 (length ms)) ms)))
            (loop3 AX AY AZ (lat_dims l)) (Some l).
(** FlipRandomizingTransformer.cpp:23-28; boundary conditions are free, so the translation is the sum *)
Definition flip_shape (g : geometry) (flipAxis : vec) (b : box) (s : shape) : shape :=
  let rotation := mrot_axis (vnormalized (mvec (sh_rot s) flipAxis)) PI in
  let origin := mvec (sh_rot s) (ge_origin g) in
  let translation := vadd (vneg (mvec rotation origin)) origin in
  Shape (vadd (sh_pos s) (absoluteToRelative b translation)) (mmul rotation (sh_rot s)).
(** FlipRandomizingTransformer.cpp:8-37 *)
Definition flip_randomize (fuel : nat) (g : geometry) (flips : idx3 -> nat -> bool) (l : lattice) : option lattice :=
  let wasNormalized := isNormalized l in
  flipAxis <- findFlipAxis g ;;
  (l' <- for_molecules (fun c n s => Some (if flips c n then flip_shape g flipAxis (lat_box l) s else s)) l ;;
   if wasNormalized then normalize fuel l' else Some l').

(** RotationRandomizingTransformer.h: an axis given as a vector, as an axis of the shape, or a random one *)
Inductive rotation_axis := AxisVector (v : vec) | AxisPrimary | AxisSecondary | AxisAuxiliary | AxisRandom.
(** RotationRandomizingTransformer.cpp:9-19 *)
Definition make_rotation_axis (x : rotation_axis) : option rotation_axis :=
  match x with
  | AxisVector v => if Rltb (/ 10 ^ 20)%R (vnorm2 v) then Some (AxisVector (vnormalized v)) else None
  | _ => Some x
  end.
(** ShapeGeometry.cpp:104-116, ShapeGeometry.h: axes of a shape, which throw if there are none *)
Definition axis_of (g : geometry) (x : rotation_axis) (s : shape) : option vec :=
  let primary := p <- ge_primary g ;; Some (mvec (sh_rot s) p) in
  let secondary := p <- ge_secondary g ;; Some (mvec (sh_rot s) p) in
  match x with
  | AxisVector v => Some v
  | AxisPrimary => primary
  | AxisSecondary => secondary
  | AxisAuxiliary => p <- primary ;; (q <- secondary ;; Some (vnormalized (vcross p q)))
  | AxisRandom => None
  end.
(** RotationRandomizingTransformer.cpp:30-54; [draw] are numbers from [0, 2 pi), (-1, 1) and [0, 2 pi), of which only the first one is used
    unless the axis is random *)
Definition random_rotation (g : geometry) (x : rotation_axis) (draw : R * R * R) (s : shape) : option mat :=
  let '(u, v, w) := draw in
  match x with
  | AxisVector v => Some (mrot_axis v u)
  | AxisRandom => Some (mrot_xyz u (asin v) w)
  | _ => a <- axis_of g x s ;; Some (mrot_axis (vnormalized a) u)
  end.
(** RotationRandomizingTransformer.cpp:9-28 *)
Definition rotation_randomize (g : geometry) (x : rotation_axis) (draw : idx3 -> nat -> R * R * R) (l : lattice) : option lattice :=
  x' <- make_rotation_axis x ;;
  for_molecules (fun c n s => m <- random_rotation g x' (draw c n) s ;; Some (shape_rotate m s)) l.
