(** [src/core/lattice/OrthorhombicArrangingModel.h] and [.cpp].

    Simplifications: [double] is the real numbers; a failed Expects is [None]; std::array indexed by 0, 1, 2 is a function of the axis (or a vector), and
    axes stand for their numbers (getAxisNumber, .cpp:84-91). *)
From Coq Require Import Reals List Arith Bool.
From Verif Require Import GeomModel PbcModel.
Import ListNotations.

(** LatticeTraits::Polarization, LatticeTraits::Clinicity *)
Inductive polarization := Implicit | Ferro | Antiferro.
Inductive clinicity := Unspecified | Synclinic | Anticlinic.
(** OrthorhombicArrangingModel.h:25-30, 46-51 *)
Record arranging := Arranging { polar : polarization; polar_axis : axis; clinic : clinicity; tilt_axis : axis; tilt_angle : R }.
Definition is_antiferro (a : arranging) : bool := match polar a with Antiferro => true | _ => false end.
Definition is_anticlinic (a : arranging) : bool := match clinic a with Anticlinic => true | _ => false end.

Definition index := (nat * nat * nat)%type.
Definition index_at (t : index) (a : axis) : nat := match a with AX => fst (fst t) | AY => snd (fst t) | AZ => snd t end.
(** OrthorhombicArrangingModel.cpp:49-51, three nested loops: the indices in the order in which they are visited *)
Definition visited (lines : axis -> nat) : list index :=
  flat_map (fun i => flat_map (fun j => map (fun k => (i, j, k)) (seq 0 (lines AZ))) (seq 0 (lines AY))) (seq 0 (lines AX)).

(** OrthorhombicArrangingModel.cpp:63-65 and 72-74: an array of angles which are all zero apart from one, and Matrix<3, 3>::rotation *)
Definition rotation_about (a : axis) (angle : R) : mat :=
  match a with AX => mrot_xyz angle 0 0 | AY => mrot_xyz 0 angle 0 | AZ => mrot_xyz 0 0 angle end.
(** OrthorhombicArrangingModel.cpp:55-76 *)
Definition place (a : arranging) (cell offset : vec) (t : index) : shape :=
  let translation := vmake (fun x => (INR (index_at t x) * vget cell x + vget offset x)%R) in
  let rotation := if is_antiferro a && Nat.eqb (index_at t (polar_axis a) mod 2) 1 then rotation_about (polar_axis a) PI else mid in
  let layerTilt := if is_anticlinic a && Nat.eqb (index_at t (polar_axis a) mod 2) 1 then (- tilt_angle a)%R else tilt_angle a in
  Shape translation (mmul (rotation_about (tilt_axis a) layerTilt) rotation).
(** OrthorhombicArrangingModel.cpp:49-82; [result] is the list which is returned, its length is shapeIdx *)
Fixpoint place_all (a : arranging) (n : nat) (cell offset : vec) (ts : list index) (result : list shape) : list shape :=
  match ts with
  | [] => result
  | t :: ts' => if Nat.leb n (List.length result) then result else place_all a n cell offset ts' (result ++ [place a cell offset t])
  end.
Definition all_axes (p : axis -> bool) : bool := p AX && p AY && p AZ.
(** OrthorhombicArrangingModel.cpp:28-82 *)
Definition arrange (a : arranging) (n : nat) (lines : axis -> nat) (cell box : vec) : option (list shape) :=
  if Nat.ltb 0 n && all_axes (fun x => Nat.ltb 0 (lines x)) && all_axes (fun x => Rltb 0 (vget cell x)) && all_axes (fun x => Rltb 0 (vget box x)) then
    if negb (is_antiferro a) || Nat.eqb (lines (polar_axis a) mod 2) 0 then
      let offset := vmake (fun x => ((vget box x - INR (lines x - 1) * vget cell x) / 2)%R) in
      if all_axes (fun x => Rltb 0 (vget offset x)) then Some (place_all a n cell offset (visited lines) []) else None
    else None
  else None.

(** OrthorhombicArrangingModel.cpp:17: std::ceil(std::cbrt(n)) without rounding, the first number whose cube is not less than [n] *)
Definition ceil_cbrt (n : nat) : nat := match List.find (fun k => Nat.leb n (k * k * k)) (seq 0 (S n)) with Some k => k | None => n end.
(** OrthorhombicArrangingModel.cpp:11-26 *)
Definition arrange_default (a : arranging) (n : nat) (dimensions : vec) : option (list shape) :=
  if Nat.ltb 0 n && all_axes (fun x => Rltb 0 (vget dimensions x)) then
    let particlesInLine := ceil_cbrt n in
    let cell := vmake (fun x => (vget dimensions x / INR particlesInLine)%R) in
    arrange a n (fun _ => particlesInLine) cell dimensions
  else None.
