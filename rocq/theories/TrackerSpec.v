From Coq Require Import Reals ZArith List Bool.
From Verif Require Import GeomModel BoxModel BoxSpec PackSpec BinsModel BinsSpec TrackerModel.
Import ListNotations.
Local Open Scope R_scope.

(** The modulation with given wavenumbers: each particle contributes a product of cosine waves with a maximum at its position (in relative
    coordinates), multiplied by the function of the particle. *)
Definition place (s : system) (p : vec * mat) : vec := absoluteToRelative (sy_box s) (fst p).
Definition wave_at (k : axis -> nat) (r p : vec) (a : axis) : R := cos (2 * PI * INR (k a) * (vget r a - vget p a)).
Definition modulation (k : axis -> nat) (f : shape_function) (s : system) (r : vec) : R :=
  Rsum (fun p => component f 0 (snd p) * (wave_at k r (place s p) AX * wave_at k r (place s p) AY * wave_at k r (place s p) AZ)) (sy_shapes s).
Definition is_maximum (k : axis -> nat) (f : shape_function) (s : system) (r : vec) : Prop := forall r', modulation k f s r' <= modulation k f s r.
Definition near_maximum (tolerance : R) (k : axis -> nat) (f : shape_function) (s : system) (r : vec) : Prop := forall r', modulation k f s r' <= modulation k f s r + tolerance.
(** All plane waves of which it consists, of wave vectors (+-k, +-k, +-k), are not too small. *)
Definition phase_at (q : axis -> Z) (p : vec) : R := 2 * PI * (IZR (q AX) * vx p + IZR (q AY) * vy p + IZR (q AZ) * vz p).
Definition amplitude2 (f : shape_function) (s : system) (q : axis -> Z) : R :=
  (Rsum (fun p => component f 0 (snd p) * cos (phase_at q (place s p))) (sy_shapes s)) ^ 2 + (Rsum (fun p => component f 0 (snd p) * sin (phase_at q (place s p))) (sy_shapes s)) ^ 2.
Definition pronounced (k : axis -> nat) (f : shape_function) (s : system) : Prop :=
  forall q, (forall a, q a = Z.of_nat (k a) \/ q a = (- Z.of_nat (k a))%Z) -> (/ 10 ^ 8) ^ 2 <= amplitude2 f s q.
(** Vectors of integers; a periodic image of [o] is at least as close to [previous] as all maxima. *)
Definition whole (l : vec) : Prop := forall a, exists z, vget l a = IZR z.
Definition nearest (k : axis -> nat) (f : shape_function) (s : system) (previous o : vec) : Prop :=
  exists l, whole l /\ forall r, is_maximum k f s r -> vnorm2 (vsub (vadd o l) previous) <= vnorm2 (vsub r previous).
Definition in_unit (o : vec) : Prop := forall a, 0 <= vget o a < 1.
(** Points moved by multiples of halves of wavelengths, the number of which is even in total; the closest one. *)
Definition copy (k : axis -> nat) (o r : vec) : Prop :=
  exists u : axis -> Z, Z.Even (u AX + u AY + u AZ) /\ forall a, (k a = 0%nat -> u a = 0%Z /\ vget r a = vget o a) /\ ((0 < k a)%nat -> vget r a = vget o a + IZR (u a) / (2 * INR (k a))).
Definition closest_copy (k : axis -> nat) (previous o : vec) : Prop :=
  exists l, whole l /\ forall r, copy k o r -> vnorm2 (vsub (vadd o l) previous) <= vnorm2 (vsub r previous).
(** Reported origins after a sequence of calls, each of which is good with respect to the previous one. *)
Inductive followed (good : vec -> system -> vec -> Prop) : vec -> list call -> list vec -> Prop :=
| F_none previous : followed good previous [] []
| F_reset previous calls l : followed good vzero calls l -> followed good previous (Reset :: calls) l
| F_track previous s calls o l : in_unit o -> good previous s o -> followed good o calls l -> followed good previous (Track s :: calls) (relativeToAbsolute (sy_box s) o :: l).
Definition good_origin (k : axis -> nat) (f : shape_function) (previous : vec) (s : system) (o : vec) : Prop :=
  near_maximum (2 / 10 ^ 8) k f s o /\ closest_copy k previous o.
Definition best_origin (k : axis -> nat) (f : shape_function) (previous : vec) (s : system) (o : vec) : Prop :=
  good_origin k f previous s o /\ (pronounced k f s -> is_maximum k f s o /\ nearest k f s previous o).
(** A polynomial with coefficients from the highest one, and a solver which finds all of its roots. *)
Definition polynomial (l : list R) (t : R) : R := fold_left (fun v c => v * t + c) l 0.
Definition finds_roots (solve : list R -> list R) (l : list R) : Prop := forall t, polynomial l t = 0 -> In t (solve l).
