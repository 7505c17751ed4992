(** [src/core/observables/DensityHistogram.cpp], [BinAveragedFunction.cpp] and [shape_functions]. Histograms are those of HistModel; the tracker of
    the origin is external: a snapshot carries the origin which it reports. [None]: a failed precondition. *)
From Coq Require Import Reals List Bool.
From Verif Require Import GeomModel BoxModel HistModel HistSpec.
Import ListNotations.
Local Open Scope R_scope.

(** What is read from a packing: the box, corrections of boundary conditions, the origin found by the tracker, particles (position, orientation) *)
Record frame := Frame { fr_box : box; fr_correction : vec -> vec; fr_origin : vec; fr_shapes : list (vec * mat) }.
Definition shape_at (fr : frame) (i : nat) : vec * mat := nth i (fr_shapes fr) (vzero, mid).

(** shape_functions/ConstantShapeFunction.h:14-26, ShapeAxisCoordinate.cpp:14-28, ShapeAxis.cpp:9-13, ShapeQTensor.cpp:9-21; [ax]: the axis of
    the not rotated particle - getAxis(shape, axis) is the orientation applied to it *)
Inductive shape_function := FConstant (value : R) | FAxisCoordinate (ax : vec) (coord : axis) | FAxis (ax : vec) | FQTensor (ax : vec).
Definition calculate_values (f : shape_function) (orientation : mat) : list R :=
  match f with
  | FConstant v => [v]
  | FAxisCoordinate ax c => [vget (mvec orientation ax) c]
  | FAxis ax => let a := mvec orientation ax in [vx a; vy a; vz a]
  | FQTensor ax => let a := mvec orientation ax in
    [15 / 10 * vx a * vx a - 5 / 10; 15 / 10 * vx a * vy a; 15 / 10 * vx a * vz a;
     15 / 10 * vy a * vy a - 5 / 10; 15 / 10 * vy a * vz a; 15 / 10 * vz a * vz a - 5 / 10]
  end.

(** DensityHistogram.cpp:76-81, BinAveragedFunction.cpp:75-80 *)
Definition normalizeNumBins (n : nat) : nat := if (n =? 0)%nat then 1%nat else n.
Definition bins_grid (nx ny nz : nat) : list dim := [Dim 0 1 (normalizeNumBins nx); Dim 0 1 (normalizeNumBins ny); Dim 0 1 (normalizeNumBins nz)].
(** The first origin, the histogram, and what [getValues] of the shape function would return *)
Record bins := Bins { bn_first : option vec; bn_builder : builder; bn_values : list R }.
(** DensityHistogram.cpp:63-74, BinAveragedFunction.cpp:58-73 *)
Definition bins_create (nx ny nz threads : nat) (values : list R) : option bins :=
  match build (bins_grid nx ny nz) threads 0 with
  | None => None
  | Some b => if existsb (fun n => (1 <? n)%nat) [nx; ny; nz] then Some (Bins None b values) else None
  end.
(** DensityHistogram.cpp:41-44, BinAveragedFunction.cpp:27-34: the position of the i-th particle in the histogram *)
Definition placed (fr : frame) (originDelta : vec) (i : nat) : list R :=
  let pos := vsub (fst (shape_at fr i)) originDelta in
  let pos := vadd pos (fr_correction fr pos) in
  let rel := absoluteToRelative (fr_box fr) pos in [vx rel; vy rel; vz rel].
(** DensityHistogram.cpp:26-36 *)
Inductive normalization := AVG_COUNT | UNIT.
Definition density_value (g : list dim) (n : normalization) (fr : frame) : R :=
  match n with AVG_COUNT => 1 | UNIT => INR (size g) / INR (length (fr_shapes fr)) end.
(** DensityHistogram.cpp:38-45: [order] says which thread adds which particle, in the order of additions *)
Definition density_additions (g : list dim) (n : normalization) (fr : frame) (originDelta : vec) (order : list (nat * nat)) (values : list R) : list addition * list R :=
  (map (fun x => Addition (fst x) (placed fr originDelta (snd x)) (density_value g n fr)) order, values).
(** BinAveragedFunction.cpp:24-36: an iteration calculates values in the shape function, which is shared by threads, and then reads and adds them;
    the order of these steps of all threads. Histograms of arrays of values are modelled as one histogram per component, here the [c]-th one. *)
Inductive event := Calculate (i : nat) | Store (i : nat).
Fixpoint average_additions (f : shape_function) (c : nat) (fr : frame) (originDelta : vec) (events : list (nat * event)) (values : list R) : list addition * list R :=
  match events with
  | [] => ([], values)
  | (_, Calculate i) :: rest => average_additions f c fr originDelta rest (calculate_values f (snd (shape_at fr i)))
  | (t, Store i) :: rest => let (l, v) := average_additions f c fr originDelta rest values in (Addition t (placed fr originDelta i) (nth c values 0) :: l, v)
  end.

Section Commands.
  Context {E : Type} (g : list dim) (loop : frame -> vec -> E -> list R -> list addition * list R).
  (** DensityHistogram.cpp:13-47, BinAveragedFunction.cpp:13-38 *)
  Definition addSnapshot (fr : frame) (e : E) (st : bins) : option bins :=
    let first := match bn_first st with Some o => o | None => fr_origin fr end in
    let originDelta := vsub (fr_origin fr) first in
    let (l, values) := loop fr originDelta e (bn_values st) in
    match adds g l (bn_builder st) with None => None | Some b => Some (Bins (Some first) (nextSnapshot 0 b) values) end.
  (** DensityHistogram.cpp:57-61, BinAveragedFunction.cpp:51-55 *)
  Definition bins_clear (st : bins) : bins := Bins None (clear 0 (bn_builder st)) (bn_values st).
  Inductive command := Snapshot (fr : frame) (e : E) | Clear.
  Fixpoint bins_run (cmds : list command) (st : bins) : option bins :=
    match cmds with
    | [] => Some st
    | Snapshot fr e :: rest => match addSnapshot fr e st with None => None | Some st' => bins_run rest st' end
    | Clear :: rest => bins_run rest (bins_clear st)
    end.
End Commands.
Arguments command : clear implicits.
(** DensityHistogram.cpp:83-85, BinAveragedFunction.cpp:82-84 *)
Definition density_dump (st : bins) : list (option R * nat) := dumpHistogram 0 SUM (bn_builder st).
Definition average_dump (st : bins) : list (option R * nat) := dumpHistogram 0 AVERAGE (bn_builder st).
