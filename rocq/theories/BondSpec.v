From Coq Require Import Reals ZArith List Bool Permutation Sorted.
From Verif Require Import GeomModel PackSpec RotModel BondModel.
Import ListNotations.
Local Open Scope nat_scope.

(** The order of distances. *)
Definition dle (a b : dist) : Prop := match a, b with _, None => True | Some x, Some y => (x <= y)%R | None, Some _ => False end.
Definition closer (a b : neighbour) : Prop := dle (snd a) (snd b).
(** [l]: [k] nearest ones among candidates, sorted; lacking candidates are replaced with the particle 0 in infinite distance. *)
Definition nearest (k : nat) (candidates l : list neighbour) : Prop :=
  exists sorted, Permutation sorted candidates /\ StronglySorted closer sorted /\ l = firstn k (sorted ++ repeat (0, None) k).
(** The squared length of the component of the vector in the plane perpendicular to [k]. *)
Definition in_plane2 (k d : vec) : R := vnorm2 (vsub d (vscale (vdot d k / vnorm2 k) k)).
(** All other particles which are in the same layer as [i]. Pairs are always taken in the order of indices. *)
Section Candidates.
  Variable translation : vec -> vec -> vec.
  Variable k : vec.
  Variable tauAngle : R.
  Variables layering points : list vec.
  Definition joined (l : list vec) (i j : nat) : vec := vsub (vadd (nth j l vzero) (translation (nth i l vzero) (nth j l vzero))) (nth i l vzero).
  Definition candidates (i : nat) : list neighbour :=
    map (fun j => (j, Some (in_plane2 k (joined points (min i j) (max i j)))))
        (filter (fun j => negb (j =? i) && sameLayer translation k tauAngle layering (min i j) (max i j)) (seq 0 (length points))).
End Candidates.
(** The order parameter: the mean of exp(i rank angle) over bonds of the particle; real and imaginary parts. *)
Section Order.
  Variable translation : vec -> vec -> vec.
  Variables p1 p2 : vec.
  Variable points : list vec.
  Definition angle (i j : nat) : R :=
    let d := vadd (vsub (nth j points vzero) (nth i points vzero)) (translation (nth i points vzero) (nth j points vzero)) in atan2 (vdot p2 d) (vdot p1 d).
  Definition re (rank i : nat) (l : list nat) : R := (Rsum (fun j => cos (INR rank * angle i j)) l / INR rank)%R.
  Definition im (rank i : nat) (l : list nat) : R := (Rsum (fun j => sin (INR rank * angle i j)) l / INR rank)%R.
  (** Mean over particles: of moduli (local) or the modulus of the mean (global); [nb i]: the neighbours of [i]. *)
  Definition mean (local : bool) (rank : nat) (nb : nat -> list nat) : R :=
    if local then (Rsum (fun i => sqrt (re rank i (nb i) * re rank i (nb i) + im rank i (nb i) * im rank i (nb i))) (seq 0 (length points)) / INR (length points))%R
    else (sqrt (Rsum (fun i => re rank i (nb i)) (seq 0 (length points)) * Rsum (fun i => re rank i (nb i)) (seq 0 (length points)) + Rsum (fun i => im rank i (nb i)) (seq 0 (length points)) * Rsum (fun i => im rank i (nb i)) (seq 0 (length points))) / INR (length points))%R.
End Order.
