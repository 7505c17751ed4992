(** [src/core/observables/correlation/]: enumerators of pairs, pair density correlation, pair averaged correlation and evolution of probability;
    [src/core/observables/correlation_functions/]. Doubles are real numbers. Shapes are given by their positions and orientations, named points and
    axes by their values for a shape which is not rotated (ShapeGeometry); boundary conditions by their [getTranslation]. Formatting of the output is
    not modelled: what is printed are the values here, next to middles of bins (HistModel). *)
From Coq Require Import Reals ZArith List Bool Permutation.
From Verif Require Import GeomModel BoxModel RFloorModel RotModel HistModel HistSpec BondModel.
Import ListNotations.
Local Open Scope R_scope.

(** What is used of Packing. *)
Record snapshot := Snapshot { sn_box : box; sn_translation : vec -> vec -> vec; sn_shapes : list (vec * mat) }.
(** Packing.cpp:1144-1153 *)
Definition dumpNamedPoints (point : vec) (sn : snapshot) : list vec := map (fun s => vadd (fst s) (mvec (snd s) point)) (sn_shapes sn).
(** Packing.cpp:230-232 *)
Definition getNumberDensity (sn : snapshot) : R := INR (length (sn_shapes sn)) / box_volume (sn_box sn).

(** The three classes derived from PairEnumerator; what is enumerated: indices of both shapes and the distance vector. *)
Inductive binning := Radial | Linear (a : axis) | Layerwise (h k l : Z).
Definition item := (nat * nat * vec)%type.
(** The loops in RadialEnumerator.cpp:20-31, LinearEnumerator.cpp:62-74, LayerwiseRadialEnumerator.cpp:33-48; the outer one is parallel. *)
Definition loops (n : nat) (body : nat -> nat -> list item) : list item := flat_map (fun i => flat_map (body i) (seq i (n - i))) (seq 0 n).
(** RadialEnumerator.cpp:23-27 (the same lines in other enumerators) *)
Definition displacement (sn : snapshot) (points : list vec) (i j : nat) : vec :=
  let pos1 := nth i points vzero in let pos2 := nth j points vzero in vsub (vadd pos2 (sn_translation sn pos1 pos2)) pos1.
(** LayerwiseRadialEnumerator.cpp:15-19; [None]: the exception from Matrix::inverse *)
Definition calculateK (sn : snapshot) (h k l : Z) : option vec :=
  match minverse (dims (sn_box sn)) with None => None | Some inverse => Some (kVectorOf inverse (V3 (IZR h) (IZR k) (IZR l))) end.
(** LayerwiseRadialEnumerator.cpp:51-60 *)
Definition calculateTauAngle (k : vec) (points : list vec) : R :=
  let tau := fold_left (fun t p => cadd t (cos (vdot k p), sin (vdot k p))) points (0, 0) in atan2 (snd tau) (fst tau).
(** LayerwiseRadialEnumerator.cpp:39-40 *)
Definition layerOf (k : vec) (tauAngle : R) (p : vec) : Z := Rround ((vdot p k - tauAngle) / (2 * PI)).
(** RadialEnumerator.cpp:12-32, LinearEnumerator.cpp:40-76, LayerwiseRadialEnumerator.cpp:21-49; [None]: not a number or an exception *)
Definition enumeratePairs (b : binning) (point : vec) (sn : snapshot) : option (list item) :=
  let points := dumpNamedPoints point sn in
  match b with
  | Radial => Some (loops (length points) (fun i j => [(i, j, displacement sn points i j)]))
  | Linear a => match normalized (box_face (sn_box sn) a) with None => None | Some direction =>
      Some (loops (length points) (fun i j => let diff := displacement sn points i j in [(i, j, vscale (vdot diff direction) direction)])) end
  | Layerwise h k l => match calculateK sn h k l with None => None | Some kVector =>
      match normalized kVector with None => None | Some kNorm =>
        let tauAngle := calculateTauAngle kVector points in
        Some (loops (length points) (fun i j =>
          let pos1 := nth i points vzero in let pos2 := vadd (nth j points vzero) (sn_translation sn pos1 (nth j points vzero)) in
          if negb (Z.eqb (layerOf kVector tauAngle pos1) (layerOf kVector tauAngle pos2)) then []
          else let diff := vsub pos2 pos1 in [(i, j, vsub diff (vscale (vdot diff kNorm) kNorm))])) end end
  end.
(** std::transform(next(molecules.begin()), ..., molecules.begin(), ..., minus) *)
Definition differences (l : list R) : list R := map (fun x => snd x - fst x) (combine l (tl l)).
Fixpoint is_sorted (l : list R) : bool := match l with [] => true | x :: l' => match l' with [] => true | y :: _ => negb (Rltb y x) && is_sorted l' end end.
(** RadialEnumerator.cpp:34-52, LinearEnumerator.cpp:21-38, LayerwiseRadialEnumerator.cpp:70-93; [None]: failed preconditions *)
Definition getExpectedNumOfMoleculesInShells (b : binning) (sn : snapshot) (radiiBounds : list R) : option (list R) :=
  if negb (2 <=? length radiiBounds)%nat then None else if negb (is_sorted radiiBounds) then None else
  match b with
  | Radial => Some (differences (map (fun r => 4 / 3 * PI * r * r * r * getNumberDensity sn) radiiBounds))
  | Linear a => let area := box_volume (sn_box sn) / box_height (sn_box sn) a in
      Some (map (fun x => (snd x - fst x) * area * getNumberDensity sn) (combine radiiBounds (tl radiiBounds)))
  | Layerwise h k l => match calculateK sn h k l with None => None | Some kVector =>
      let areaDensity := getNumberDensity sn * (2 * PI / vnorm kVector) in
      Some (differences (map (fun r => PI * r * r * areaDensity) radiiBounds)) end
  end.

(** What is added to the histogram: position and value; [None] is not a number. *)
Definition work := list (list R * option R).
(** The parallel loop: additions of [w] are made by threads, in any order; the numbers are threads. *)
Definition schedule := list (nat * (list R * option R)).
Definition scheduled (threads : nat) (w : work) (s : schedule) : Prop := Permutation (map snd s) w /\ Forall (fun a => (fst a < threads)%nat) s.
Definition additions (s : schedule) : list addition := map (fun a => Addition (fst a) (fst (snd a)) (match snd (snd a) with Some v => v | None => 0 end)) s.
(** How many values which are not numbers are added to bins: a sum to which one of them was added is not a number. *)
Definition nans (s : schedule) : list addition := map (fun a => Addition (fst a) (fst (snd a)) (match snd (snd a) with Some _ => 0 | None => 1 end)) s.

(** PairDensityCorrelation.cpp:31-42 *)
Definition density_pair (max : R) (x : item) : work :=
  let '(i, j, distanceVector) := x in
  if (i =? j)%nat then [] else if Rltb max (vnorm distanceVector) then [] else [([vnorm distanceVector], Some 1)].
(** Histogram.tpp:51-59, HistogramBuilder.tpp:100-105; [None]: the failed precondition *)
Definition renormalizeBins (factors : list R) (b : builder) : option builder :=
  if forallb (fun h => (length factors =? length h)%nat) (hb_current b)
  then Some (Builder (hb_total b) (map (fun h => map (fun x => ((fst (fst x) * snd x)%R, snd (fst x))) (combine h factors)) (hb_current b)) (hb_snapshots b)) else None.
(** PairDensityCorrelation.cpp:8-18; [s]: additions in the order in which they are made; [None]: an exception or division by zero *)
Definition density_snapshot (d : dim) (b : binning) (sn : snapshot) (s : schedule) (h : builder) : option builder :=
  match adds [d] (additions s) h with None => None | Some h1 =>
    match getExpectedNumOfMoleculesInShells b sn (getBinDividers d) with None => None | Some expected =>
      if existsb (fun e => Reqb e 0) expected || (length (sn_shapes sn) =? 0)%nat then None else
      match renormalizeBins (map (fun factor => 2 / factor / INR (length (sn_shapes sn))) expected) h1 with None => None | Some h2 =>
        Some (nextSnapshot 0 h2) end end end.
Fixpoint density_run (d : dim) (b : binning) (history : list (snapshot * schedule)) (h : builder) : option builder :=
  match history with [] => Some h | (sn, s) :: history' => match density_snapshot d b sn s h with None => None | Some h' => density_run d b history' h' end end.
(** What the loop adds. *)
Definition density_work (max : R) (b : binning) (point : vec) (sn : snapshot) : option work := option_map (flat_map (density_pair max)) (enumeratePairs b point sn).

(** S110Correlation.h:21-25, S220Correlation.h:22-26, S221Correlation.h:23-27, AxesAngle.h:17-21; [None]: not a number *)
Inductive correlation := S110 | S220 | S221 | AxesAngle.
Definition calculateForAxes (f : correlation) (axis1 axis2 distanceVector : vec) : option R :=
  match f with
  | S110 => Some (vdot axis1 axis2)
  | S220 => Some (3 / 2 * ((vdot axis1 axis2) ^ 2 - 1 / 3))
  | S221 => match normalized distanceVector with None => None | Some r => Some (vdot (vcross axis1 axis2) r * vdot axis1 axis2) end
  | AxesAngle => Some (180 * acos (Rabs (vdot axis1 axis2)) / PI)
  end.
(** AxisCorrelation.cpp:9-31; ShapeGeometry::get*Axis are the axis rotated by the orientation *)
Definition calculate (f : correlation) (ax : vec) (sn : snapshot) (x : item) : option R :=
  let '(i, j, distanceVector) := x in
  calculateForAxes f (mvec (snd (nth i (sn_shapes sn) (vzero, mid))) ax) (mvec (snd (nth j (sn_shapes sn) (vzero, mid))) ax) distanceVector.
(** PairAveragedCorrelation.cpp:27-37 *)
Definition averaged_pair (max : R) (f : correlation) (ax : vec) (sn : snapshot) (x : item) : work :=
  if Rltb max (vnorm (snd x)) then [] else [([vnorm (snd x)], calculate f ax sn x)].
Definition averaged_work (max : R) (f : correlation) (ax : vec) (b : binning) (point : vec) (sn : snapshot) : option work :=
  option_map (flat_map (averaged_pair max f ax sn)) (enumeratePairs b point sn).
(** PairAveragedCorrelation.cpp:8-25: [h] with values, [m] with numbers of those which are not numbers *)
Definition averaged_run (d : dim) (history : list schedule) (h m : builder) : option (builder * builder) :=
  match run [d] 0 (map additions history) h, run [d] 0 (map nans history) m with Some h', Some m' => Some (h', m') | _, _ => None end.
Definition averaged_dump (h m : builder) : list (option R * nat) :=
  map (fun x => ((if Rltb 0 (fst (snd x)) then None else fst (fst x)), snd (fst x))) (combine (dumpHistogram 0 AVERAGE h) (hb_total m)).

(** ProbabilityEvolution.cpp:48-67; the bounds of the 2-dimensional histogram [g] are maxDistance and functionRange. [None]: position which is not a
    number is refused by Histogram::atPos *)
Definition evolution_pair (g : list dim) (f : correlation) (ax : vec) (sn : snapshot) (x : item) : option work :=
  match g with
  | [d1; d2] =>
      if (fst (fst x) =? snd (fst x))%nat then Some [] else if Rltb (d_max d1) (vnorm (snd x)) then Some [] else
      match calculate f ax sn x with None => None | Some value =>
        if Rltb value (d_min d2) || Rltb (d_max d2) value then Some [] else Some [([vnorm (snd x); value], Some 1)] end
  | _ => None
  end.
Fixpoint evolution_pairs (g : list dim) (f : correlation) (ax : vec) (sn : snapshot) (l : list item) : option work :=
  match l with [] => Some [] | x :: l' => match evolution_pair g f ax sn x, evolution_pairs g f ax sn l' with Some w, Some w' => Some (w ++ w') | _, _ => None end end.
Definition evolution_work (g : list dim) (f : correlation) (ax : vec) (b : binning) (point : vec) (sn : snapshot) : option work :=
  match enumeratePairs b point sn with None => None | Some l => evolution_pairs g f ax sn l end.
(** ProbabilityEvolution.h:23-38 *)
Inductive normalization := AVG_COUNT | PDF | UNIT.
(** ProbabilityEvolution.cpp:69-98, for values *)
Definition renormalizeHistogram (g : list dim) (n : normalization) (h : list R) : list R :=
  match g with
  | [d1; d2] =>
      let rows := fold_left (fun h i =>
        let total := fold_left (fun t j => t + nth (flattenIndex g [i; j]) h 0) (seq 0 (d_bins d2)) 0 in
        if Reqb total 0 then h else fold_left (fun h j => update (flattenIndex g [i; j]) (fun v => v / total) h) (seq 0 (d_bins d2)) h) (seq 0 (d_bins d1)) h in
      match n with
      | AVG_COUNT => h
      | PDF => map (fun v => v / (d_max d2 - d_min d2)) (map (fun v => v * INR (d_bins d2)) rows)
      | UNIT => map (fun v => v * INR (d_bins d2)) rows
      end
  | _ => h
  end.
(** ProbabilityEvolution.cpp:30-41; values in the dumped histogram are numbers *)
Definition evolution_dump (g : list dim) (n : normalization) (b : builder) : list R :=
  renormalizeHistogram g n (map (fun x => match fst x with Some v => v | None => 0 end) (dumpHistogram 0 SUM b)).
