(** [src/core/observables/SmecticOrder.cpp]. Doubles are real numbers, complex numbers are pairs of them. *)
From Coq Require Import Reals ZArith List Bool.
From Verif Require Import GeomModel BondModel.
Import ListNotations.
Local Open Scope Z_scope.

Definition triple := (Z * Z * Z)%type.
(** for (int c = from; c <= to; c++) *)
Definition upto (from to : Z) : list Z := map (fun n => from + Z.of_nat n) (seq 0 (Z.to_nat (to - from + 1))).
(** SmecticOrder.cpp:43-52: triples which are visited, in the order of the loops *)
Definition visited (hklRange : triple) : list triple :=
  let '(rx, ry, rz) := hklRange in
  flat_map (fun cx => flat_map (fun cy => flat_map (fun cz =>
    if (cx =? 0) && (cy =? 0) && (cz =? 0) then [] else [(cx, cy, cz)])
    (upto (if (cx =? 0) && (cy =? 0) then 0 else - rz) rz)) (upto (if cx =? 0 then 0 else - ry) ry)) (upto 0 rx).
(** SmecticOrder.cpp:14-33 [calculateTau]; [None]: the failed precondition *)
Definition kTau (inverse : mat) (n : triple) : vec :=
  let '(h, k, l) := n in mvec (mtrans inverse) (V3 (2 * PI * IZR h) (2 * PI * IZR k) (2 * PI * IZR l)).
Definition calculateTau (inverse : mat) (volume : R) (points : list vec) (values : list R) (n : triple) : option ((R * R) * vec) :=
  if negb (Nat.eqb (length points) (length values)) then None
  else let k := kTau inverse n in
    let tau := fold_left (fun t x => let phase := vdot k (fst x) in cadd t ((snd x * cos phase)%R, (snd x * sin phase)%R)) (combine points values) (0%R, 0%R) in
    Some (cdivr tau volume, k).
(** SmecticOrder.cpp:35-64: tau, hkl, kTauVector; the last one is not reset *)
Record state := State { s_tau : R * R; s_hkl : triple; s_k : vec }.
Definition visit (inverse : mat) (volume : R) (points : list vec) (values : list R) (s : option state) (n : triple) : option state :=
  match s with None => None | Some s =>
    match calculateTau inverse volume points values n with None => None | Some (tau, k) =>
      if Rltb (cabs (s_tau s)) (cabs tau) then Some (State tau n k) else Some s end end.
Definition calculate (hklRange : triple) (inverse : mat) (volume : R) (points : list vec) (values : list R) (before : state) : option state :=
  fold_left (visit inverse volume points values) (visited hklRange) (Some (State (0%R, 0%R) (0, 0, 0) (s_k before))).
(** SmecticOrder.cpp:76-80: preconditions of the constructor *)
Definition constructed (hklRange : triple) : bool :=
  let '(rx, ry, rz) := hklRange in negb ((rx =? 0) && (ry =? 0) && (rz =? 0)) && (0 <=? rx) && (0 <=? ry) && (0 <=? rz).
