From Coq Require Import Reals ZArith List Lia Lra.
From Verif Require Import GeomModel PackSpec BondModel SmecticModel SmecticSpec SmecticProofs.
Import ListNotations.
Local Open Scope Z_scope.

(** For each triple different from zero and in range exactly one of it and the opposite one is visited, once; no other ones are visited. *)
Theorem C47_one_of_two : forall r n, within r n -> n <> (0, 0, 0) -> (In n (visited r) /\ ~ In (opposite n) (visited r)) \/ (~ In n (visited r) /\ In (opposite n) (visited r)).
Proof. exact one_of_two. Qed.
Print Assumptions C47_one_of_two.
Theorem C47_once : forall r, NoDup (visited r) /\ forall n, In n (visited r) -> within r n /\ n <> (0, 0, 0).
Proof. exact (fun r => conj (visited_nodup r) (visited_within r)). Qed.
Print Assumptions C47_once.
(** The greatest order parameter among all triples in range is reported, with the triple and the wave vector which give it; zeros if all of them are zero. *)
Theorem C47_greatest : forall inverse volume points values, length points = length values -> (0 < volume)%R -> forall r before, exists s, calculate r inverse volume points values before = Some s /\
  (forall n, within r n -> n <> (0, 0, 0) -> (order inverse volume points values n <= cabs (s_tau s))%R) /\
  ((within r (s_hkl s) /\ s_hkl s <> (0, 0, 0) /\ cabs (s_tau s) = order inverse volume points values (s_hkl s) /\ s_k s = kTau inverse (s_hkl s) /\ (0 < cabs (s_tau s))%R) \/
   (s_hkl s = (0, 0, 0) /\ s_tau s = (0%R, 0%R) /\ s_k s = s_k before /\ forall n, within r n -> n <> (0, 0, 0) -> order inverse volume points values n = 0%R)).
Proof. exact greatest. Qed.
Print Assumptions C47_greatest.
(** Opposite wave vectors give the same order, so nothing is lost. *)
Theorem C47_opposite : forall inverse norm points values n, order inverse norm points values (opposite n) = order inverse norm points values n.
Proof. exact order_opposite. Qed.
Print Assumptions C47_opposite.
(** It does not depend on the choice of periodic images. *)
Theorem C47_images : forall box inverse norm n shifts points values, mmul inverse box = mid -> length shifts = length points ->
  order inverse norm (map (fun x => vadd (snd x) (mvec box (let '(a, b, c) := fst x in V3 (IZR a) (IZR b) (IZR c)))) (combine shifts points)) values n = order inverse norm points values n.
Proof. exact images. Qed.
Print Assumptions C47_images.
(** The wave vector: scalar product with positions gives the phase. *)
Theorem C47_wave_vector : forall inverse n p, vdot (kTau inverse n) p = phase inverse n p.
Proof. exact phase_dot. Qed.
Print Assumptions C47_wave_vector.
Theorem C47_bound : forall inverse norm points values n, (0 < norm)%R -> (order inverse norm points values n <= Rsum (fun x => Rabs (snd x)) (combine points values) / norm)%R.
Proof. exact order_bound. Qed.
Print Assumptions C47_bound.
(** Finding: sums are divided by the volume and not by the number of particles. The result is the documented mean times the number density ... *)
Theorem C47_density : forall inverse norm points values n, (0 < norm)%R -> points <> [] -> order inverse norm points values n = (order inverse (INR (length points)) points values n * (INR (length points) / norm))%R.
Proof. exact order_mean. Qed.
Print Assumptions C47_density.
(** ... so it may exceed 1. *)
Theorem C47_normalisation_refuted : exists box inverse points values s, mmul inverse box = mid /\ (0 < mdet box)%R /\ length points = length values /\ Forall (fun v => v = 1%R) values /\ calculate (1, 0, 0) inverse (mdet box) points values (State (0%R, 0%R) (0, 0, 0) vzero) = Some s /\ cabs (s_tau s) = 8%R.
Proof. exact normalisation_refuted. Qed.
Print Assumptions C47_normalisation_refuted.
(** Mismatched points and values are refused. *)
Theorem C47_refused : forall inverse volume points values n, length points <> length values -> calculateTau inverse volume points values n = None.
Proof. exact tau_refused. Qed.
Print Assumptions C47_refused.

Example visited_011 : visited (0, 1, 1) = [(0, 0, 1); (0, 1, -1); (0, 1, 0); (0, 1, 1)]. Proof. reflexivity. Qed.
Example range_of_constructor : constructed (0, 1, 1) = true /\ constructed (0, 0, 0) = false /\ constructed (1, -1, 0) = false. Proof. repeat split; reflexivity. Qed.
