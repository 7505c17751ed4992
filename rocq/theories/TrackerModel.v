(** [src/core/observables/trackers/FourierTracker.cpp]. Closed forms of boundary conditions are those of PbcTotalModel; the solver of polynomial
    equations (RootFinder::solvePolynomial) is external: an argument. [None]: a failed precondition. *)
From Coq Require Import Reals ZArith List Bool.
From Verif Require Import GeomModel BoxModel RFloorModel RotModel PbcTotalModel BinsModel.
Import ListNotations.
Local Open Scope R_scope.

(** What is read from a packing: the box and particles (position, orientation) *)
Record system := System { sy_box : box; sy_shapes : list (vec * mat) }.
Definition axes : list axis := [AX; AY; AZ].
(** Indices of coefficients on three axes: COS = false, SIN = true *)
Definition selection := axis -> bool.
Definition axis_is (a b : axis) : bool := match a, b with AX, AX | AY, AY | AZ, AZ => true | _, _ => false end.
(** FourierTracker.h: AMPLITUDE_EPSILON = 1e-8 *)
Definition epsilon : R := / 100000000.
(** std::fmod(x, 1) *)
Definition fmod1 (x : R) : R := if Rltb x 0 then x + IZR (Rfl (- x)) else x - IZR (Rfl x).

Record tracker := Tracker { tk_k : axis -> nat; tk_function : shape_function; tk_previous : vec }.
(** FourierTracker.cpp:146-150 *)
Definition nonzero (k : axis -> nat) : list axis := filter (fun a => (0 <? k a)%nat) axes.
(** FourierTracker.cpp:143-156; the number of values before any calculation *)
Definition tracker_create (k : axis -> nat) (f : shape_function) : option tracker :=
  match nonzero k with
  | [] => None
  | _ => if (length (calculate_values f mid) =? 1)%nat then Some (Tracker k f vzero) else None
  end.
(** FourierTracker.cpp:158-172 *)
Definition fourier (wavenumber : nat) (sine : bool) (xi : R) : R :=
  if (wavenumber =? 0)%nat then 1
  else let k := 2 * PI * INR wavenumber in if sine then sin (k * xi) else cos (k * xi).
(** FourierTracker.cpp:111-141; coefficients for which there is no function are 0 *)
Definition coefficient (k : axis -> nat) (f : shape_function) (s : system) (idx : selection) : R :=
  if existsb (fun a => idx a && (k a =? 0)%nat) axes then 0
  else fold_left (fun c p => let r := absoluteToRelative (sy_box s) (fst p) in
         c + fourier (k AX) (idx AX) (vx r) * fourier (k AY) (idx AY) (vy r) * fourier (k AZ) (idx AZ) (vz r) * nth 0 (calculate_values f (snd p)) 0)
       (sy_shapes s) 0.
(** FourierTracker.cpp:205-210 *)
Definition guardedAtan2 (y x : R) : R := if Rltb (x * x + y * y) (epsilon * epsilon) then 0 else atan2 y x.
(** FourierTracker.cpp:57-72 *)
Definition origin1 (k : axis -> nat) (co : selection -> R) (a : axis) : vec :=
  let c := co (fun _ => false) in
  let d := co (axis_is a) in
  if Rltb (c * c + d * d) (epsilon * epsilon) then vzero
  else vmake (fun x => if axis_is a x then fmod1 (atan2 d c / INR (k a) / 2 / PI + 1) else 0).
(** FourierTracker.cpp:74-109 *)
Definition origin2 (k : axis -> nat) (co : selection -> R) (i j : axis) : vec :=
  let A := co (fun _ => false) in
  let B := co (axis_is j) in
  let C := co (axis_is i) in
  let D := co (fun x => axis_is i x || axis_is j x) in
  if Rltb (A * A + B * B + C * C + D * D) (epsilon * epsilon) then vzero
  else
    let a := guardedAtan2 (C + B) (A - D) in
    let b := guardedAtan2 (C - B) (A + D) in
    vmake (fun x => if axis_is i x then fmod1 ((a + b) / 2 / INR (k i) / 2 / PI + 1)
                    else if axis_is j x then fmod1 ((a - b) / 2 / INR (k j) / 2 / PI + 1) else 0).
(** FourierTracker.cpp:283-295: coefficients of powers of the tangent, from the lowest one *)
Definition calculateTanZCoefficients (U V W X Y Z : R) : list R :=
  [ V*V*X - U*Y*Y;
    2*V*(W*X + (V-Y)*Y) - 2*U*(V*X + Y*(-X+Z));
    -2*V*V*X + (U-W)*(U-W)*X + 4*V*(-U+W)*Y + 2*U*Y*Y - W*Y*Y + 4*V*Y*(X-Z) - U*(X-Z)*(X-Z) + V*V*Z;
    2*(V*(U-W)*X - 2*V*V*Y + (U-W)*(U-W)*Y + 2*V*Y*Y + W*Y*(X-Z) - V*(X-Z)*(X-Z) + V*(-U+W)*Z + U*Y*(-X+Z));
    V*V*X + 4*V*(U-W)*Y - U*Y*Y + 2*W*Y*Y - W*(X-Z)*(X-Z) - 2*V*V*Z + (U-W)*(U-W)*Z + 4*V*Y*(-X+Z);
    2*(V*V*Y + W*Y*(-X+Z) - V*(Y*Y + (-U+W)*Z));
    -W*Y*Y + V*V*Z ].
(** FourierTracker.cpp:297-317 *)
Definition findBestSinCosZ (roots : list R) (U V W X Y Z : R) : R * R :=
  fst (fold_left (fun best z =>
    let norm := sqrt (1 + z * z) in
    let cz := 1 / norm in
    let sz := z / norm in
    let val := sqrt (U*cz*cz + 2*V*sz*cz + W*sz*sz) + sqrt (X*cz*cz + 2*Y*sz*cz + Z*sz*sz) in
    if Rltb (snd best) val then ((sz, cz), val) else best) roots ((0, 0), 0)).
Definition sel (x y z : bool) : selection := fun a => match a with AX => x | AY => y | AZ => z end.
(** FourierTracker.cpp:229-252: quadratic forms from the eight coefficients *)
Definition quadratics (co : selection -> R) : (R * R * R) * (R * R * R) :=
  let A := co (sel false false false) in let B := co (sel false false true) in
  let C := co (sel false true false) in let D := co (sel false true true) in
  let E := co (sel true false false) in let F := co (sel true false true) in
  let G := co (sel true true false) in let H := co (sel true true true) in
  let K1 := (A + G) / 2 in let K2 := (A - G) / 2 in
  let L1 := (B + H) / 2 in let L2 := (B - H) / 2 in
  let M1 := (C + E) / 2 in let M2 := (C - E) / 2 in
  let N1 := (D + F) / 2 in let N2 := (D - F) / 2 in
  ((K2*K2 + M1*M1, K2*L2 + M1*N1, L2*L2 + N1*N1), (K1*K1 + M2*M2, K1*L1 + M2*N2, L1*L1 + N2*N2)).
(** The equation which is solved, from the highest coefficient *)
Definition tangent_coefficients (co : selection -> R) : list R :=
  let '((U, V, W), (X, Y, Z)) := quadratics co in rev (calculateTanZCoefficients U V W X Y Z).
(** FourierTracker.cpp:212-275; [solve] takes coefficients from the highest one, and gives roots *)
Definition origin3 (solve : list R -> list R) (k : axis -> nat) (co : selection -> R) : vec :=
  let A := co (sel false false false) in let B := co (sel false false true) in
  let C := co (sel false true false) in let D := co (sel false true true) in
  let E := co (sel true false false) in let F := co (sel true false true) in
  let G := co (sel true true false) in let H := co (sel true true true) in
  if Rltb (A*A + B*B + C*C + D*D + E*E + F*F + G*G + H*H) (epsilon * epsilon) then vzero
  else
    let '((U, V, W), (X, Y, Z)) := quadratics co in
    let roots := solve (tangent_coefficients co) in
    let (sz, cz) := findBestSinCosZ roots U V W X Y Z in
    let z0 := guardedAtan2 sz cz in
    let A2D := A*cz + B*sz in
    let B2D := C*cz + D*sz in
    let C2D := E*cz + F*sz in
    let D2D := G*cz + H*sz in
    let a := guardedAtan2 (C2D + B2D) (A2D - D2D) in
    let b := guardedAtan2 (C2D - B2D) (A2D + D2D) in
    let x0 := (a + b) / 2 in
    let y0 := (a - b) / 2 in
    V3 (fmod1 (x0 / INR (k AX) / 2 / PI + 1)) (fmod1 (y0 / INR (k AY) / 2 / PI + 1)) (fmod1 (z0 / INR (k AZ) / 2 / PI + 1)).
(** FourierTracker.cpp:44-55 *)
Definition calculateRelativeOriginPos (solve : list R -> list R) (k : axis -> nat) (co : selection -> R) : option vec :=
  match nonzero k with
  | [a] => Some (origin1 k co a)
  | [a; b] => Some (origin2 k co a b)
  | [_; _; _] => Some (origin3 solve k co)
  | _ => None
  end.
(** FourierTracker.cpp:178-190: moved by multiples of half of the wavelength, the sum of which is even *)
Definition unit_box : box := Box mid mid.
Definition shifts (k : axis -> nat) : list (nat * nat * nat) :=
  flat_map (fun i => flat_map (fun j => flat_map (fun l => if Nat.even (i + j + l) then [(i, j, l)] else [])
    (seq 0 (Nat.max (2 * k AZ) 1))) (seq 0 (Nat.max (2 * k AY) 1))) (seq 0 (Nat.max (2 * k AX) 1)).
Definition shifted (k : axis -> nat) (o : vec) (idx : nat * nat * nat) : vec :=
  let '(i, j, l) := idx in
  let move a x n := if (0 <? k a)%nat then x + INR n / INR (2 * k a) else x in
  let o' := V3 (move AX (vx o) i) (move AY (vy o) j) (move AZ (vz o) l) in
  vadd o' (correction unit_box o').
(** FourierTracker.cpp:174-203 *)
Definition normalizeOriginPos (k : axis -> nat) (previous o : vec) : vec :=
  fst (fold_left (fun best idx =>
    let next := shifted k o idx in
    let newDeltaR2 := distance2 unit_box previous next in
    if Rltb newDeltaR2 (snd best) then (next, newDeltaR2) else best) (shifts k) (o, distance2 unit_box previous o)).
(** FourierTracker.cpp:37-42: the reported origin *)
Definition calculateOrigin (solve : list R -> list R) (s : system) (t : tracker) : option (vec * tracker) :=
  match calculateRelativeOriginPos solve (tk_k t) (coefficient (tk_k t) (tk_function t) s) with
  | None => None
  | Some o => let best := normalizeOriginPos (tk_k t) (tk_previous t) o in
    Some (relativeToAbsolute (sy_box s) best, Tracker (tk_k t) (tk_function t) best)
  end.
(** FourierTracker.cpp:319-321 *)
Definition reset (t : tracker) : tracker := Tracker (tk_k t) (tk_function t) vzero.
(** Origins reported for a sequence of calls *)
Inductive call := Track (s : system) | Reset.
Fixpoint track (solve : list R -> list R) (calls : list call) (t : tracker) : option (list vec) :=
  match calls with
  | [] => Some []
  | Track s :: rest => match calculateOrigin solve s t with None => None | Some (o, t') => match track solve rest t' with None => None | Some l => Some (o :: l) end end
  | Reset :: rest => track solve rest (reset t)
  end.
