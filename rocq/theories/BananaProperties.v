From Coq Require Import ZArith Reals List Bool Arith.
From Verif Require Import TextModel GeomModel PbcModel PackSpec SegSpec ShapesModel XcSpec GeoModel GeoSpec VolSpec BeadsModel BeadsSpec BananaModel BananaSpec BananaProofs BananaShapeProofs BananaLegacyProofs BananaRodProofs BananaExamples.
Import ListNotations.
Local Open Scope R_scope.

(** Spheres on an arc; the letters are the names cm, beg and end. *)
Theorem C75_spheres R A n r :
  ((exists g, banana_geometry R A n r = Some g) <-> 0 < R /\ 0 < A < 2 * PI /\ (2 <= n)%nat /\ 0 < r <= R) /\
  forall g, banana_geometry R A n r = Some g -> exists c, arc_centre R A c /\
    length (g_data g) = n /\ (forall i, (i < n)%nat -> nth_error (g_data g) i = Some (Bead (division R A c (n - 1) i) r)) /\
    g_primary g = Some (V3 0 0 1) /\ g_secondary g = Some (V3 (-1) 0 0) /\ g_origin g = vzero /\
    (A < PI -> vadd (division R A c (n - 1) 0) (division R A c (n - 1) (n - 1)) = vzero /\ forall d, In d (g_data g) -> vnorm (bd_pos d) <= R * sin (A / 2)) /\
    (PI <= A -> forall d, In d (g_data g) -> vnorm (bd_pos d) = R) /\
    (exists v1 v2, (forall i, (S i < n)%nat -> common_volume r (distance (division R A c (n - 1) i) (division R A c (n - 1) (S i))) v1) /\
       (PI < A /\ (2 < n)%nat -> common_volume r (distance (division R A c (n - 1) 0) (division R A c (n - 1) (n - 1))) v2) /\ (~ (PI < A /\ (2 < n)%nat) -> v2 = 0) /\
       g_volume g = INR n * ball_volume r - INR (n - 1) * v1 - v2) /\
    (forall y k m e, y <> c -> number_of (bead_has (g_data g) y) n k -> number_of (fun i => bead_has (g_data g) y i /\ bead_has (g_data g) y (S i)) (n - 1) m ->
       (PI < A /\ (2 < n)%nat /\ bead_has (g_data g) y 0 /\ bead_has (g_data g) y (n - 1) -> e = 1%nat) -> (~ (PI < A /\ (2 < n)%nat /\ bead_has (g_data g) y 0 /\ bead_has (g_data g) y (n - 1)) -> e = 0%nat) ->
       (beads_body (g_data g) y -> k = (m + e + 1)%nat) /\ (~ beads_body (g_data g) y -> k = 0%nat)) /\
    exists b, (r ^ 2 <= distance (division R A c (n - 1) 0) (division R A c (n - 1) 1) ^ 2 + (/ 10 ^ 12) ^ 2 -> exists m, middle (g_data g) m /\ b = [([99; 109]%Z, m)]) /\
      (distance (division R A c (n - 1) 0) (division R A c (n - 1) 1) ^ 2 + (/ 10 ^ 12) ^ 2 < r ^ 2 -> b = []) /\
      forall name v, getNamedPoint g name = Some v <->
        point_called (bead_point (g_data g)) vzero (([98; 101; 103]%Z, division R A c (n - 1) 0) :: ([101; 110; 100]%Z, division R A c (n - 1) (n - 1)) :: b) name v.
Proof. exact (banana_spec R A n r). Qed.
Print Assumptions C75_spheres.
Example C75_spheres_ex : exists g, banana_geometry 3 (PI / 2) 6 1 = Some g. Proof. exact short_sphere_banana. Qed.

(** Spherocylinders on an arc *)
Theorem C75_rods R A n r s :
  ((exists g, rod_banana_geometry R A n r s = Some g) <->
   0 < R /\ 0 < A < 2 * PI /\ (2 <= n)%nat /\ 0 < r /\ (0 < s)%nat /\
   ((2 < n)%nat -> forall i t, (i < n)%nat -> 0 <= t <= 1 -> r <= (1 + / 10 ^ 12) * distance (vadd (division R A vzero n i) (vscale t (vsub (division R A vzero n (S i)) (division R A vzero n i)))) vzero) /\
   (A <= PI \/ 2 * r <= (1 + / 10 ^ 12) * distance (division R A vzero n 0) (division R A vzero n n))) /\
  forall g, rod_banana_geometry R A n r s = Some g -> exists c, arc_centre R A c /\
    length (g_data g) = (n * s)%nat /\
    (forall i j, (i < n)%nat -> (j < s)%nat -> exists d, nth_error (g_data g) (i * s + j) = Some d /\
       rod_between (part (division R A c n i) (division R A c n (S i)) s j) (part (division R A c n i) (division R A c n (S i)) s (S j)) r d) /\
    g_primary g = Some (V3 0 0 1) /\ g_secondary g = Some (V3 (-1) 0 0) /\ g_origin g = vzero /\
    (exists vb vc vw, volume (in_ball vzero r) vb /\ (forall i, (i < n)%nat -> volume (cylinder_body r (distance (division R A c n i) (division R A c n (S i)))) vc) /\ volume (cut_body r (A / INR n)) vw /\
       g_volume g = INR n * vc + vb + INR (n - 1) * (A / INR n / (2 * PI) * vb - vw)) /\
    ((2 < n)%nat -> r * tan (A / INR n / 2) <= (1 + / 10 ^ 12) * (distance (division R A c n 0) (division R A c n 1) / 2)) /\
    forall name v, getNamedPoint g name = Some v <->
      point_called (rod_point (g_data g)) vzero [([98; 101; 103]%Z, division R A c n 0); ([101; 110; 100]%Z, division R A c n n)] name v.
Proof. exact (rod_banana_spec R A n r s). Qed.
Print Assumptions C75_rods.
Example C75_rods_ex : exists g, rod_banana_geometry 2 (3 * PI / 2) 3 1 2 = Some g. Proof. exact long_rod_banana. Qed.

(** The two checks of an arc, as functions for the user *)
Theorem C75_origin_outside R A n r : 0 < R -> 0 < A < 2 * PI -> (2 <= n)%nat -> 0 < r -> exists b, isArcOriginOutside R A n r = Some b /\
  (b = true <-> forall i t, (i < n)%nat -> 0 <= t <= 1 -> r <= (1 + / 10 ^ 12) * distance (vadd (division R A vzero n i) (vscale t (vsub (division R A vzero n (S i)) (division R A vzero n i)))) vzero).
Proof. exact (outside_spec R A n r). Qed.
Print Assumptions C75_origin_outside.

Theorem C75_open R A n r : 0 < R -> 0 < A < 2 * PI -> (2 <= n)%nat -> 0 < r -> exists b, isArcOpen R A n r = Some b /\
  (b = true <-> A <= PI \/ 2 * r <= (1 + / 10 ^ 12) * distance (division R A vzero n 0) (division R A vzero n n)).
Proof. exact (open_spec R A n r). Qed.
Print Assumptions C75_open.

Theorem C75_checks_refused R A n r : ~ (0 < R /\ 0 < A < 2 * PI /\ (2 <= n)%nat /\ 0 < r) -> isArcOriginOutside R A n r = None /\ isArcOpen R A n r = None.
Proof. exact (refused_spec R A n r). Qed.
Print Assumptions C75_checks_refused.

(** The version of files older than 0.2.0 *)
Theorem C75_legacy R A n r :
  ((exists g, legacy_banana_geometry R A n r = Some g) <-> 0 < R /\ 0 < A /\ (2 <= n)%nat /\ 0 < r) /\
  forall g, legacy_banana_geometry R A n r = Some g -> exists c,
    length (g_data g) = n /\ (forall i, (i < n)%nat -> nth_error (g_data g) i = Some (Bead (on_flat_arc R c ((INR i - INR (n / 2)) * (A / INR (n - 1)))) r)) /\
    middle (g_data g) vzero /\ g_primary g = Some (V3 0 1 0) /\ g_secondary g = Some (V3 (-1) 0 0) /\ g_origin g = vzero /\ g_volume g = INR n * ball_volume r /\
    (Nat.Odd n -> forall i d1 d2, (i < n)%nat -> nth_error (g_data g) i = Some d1 -> nth_error (g_data g) (n - 1 - i) = Some d2 -> bd_pos d2 = V3 (vx (bd_pos d1)) (- vy (bd_pos d1)) (vz (bd_pos d1))) /\
    exists e, ends (g_data g) [98; 101; 103]%Z [101; 110; 100]%Z e /\
      forall name v, getNamedPoint g name = Some v <-> point_called (bead_point (g_data g)) vzero (([99; 109]%Z, vzero) :: e) name v.
Proof. exact (legacy_spec R A n r). Qed.
Print Assumptions C75_legacy.
Example C75_legacy_ex : exists g, legacy_banana_geometry 3 (PI / 2) 5 1 = Some g. Proof. exact legacy_example. Qed.

(** The mass centre is not defined only for spheres which do not overlap. *)
Theorem C75_mass_centre_refuted : exists g d1 d2 v, banana_geometry 1 PI 3 1 = Some g /\ nth_error (g_data g) 0 = Some d1 /\ nth_error (g_data g) 1 = Some d2 /\
  distance (bd_pos d1) (bd_pos d2) < bd_radius d1 + bd_radius d2 /\ getNamedPoint g [99; 109]%Z = Some v.
Proof. exact (overlapping_centre). Qed.
Print Assumptions C75_mass_centre_refuted.

(** The documented mass centre of the banana of spherocylinders is not defined. *)
Theorem C75_no_mass_centre_refuted R A n r s g : rod_banana_geometry R A n r s = Some g -> getNamedPoint g [99; 109]%Z = None.
Proof. exact (no_mass_centre R A n r s g). Qed.
Print Assumptions C75_no_mass_centre_refuted.

(** The reported volume may be less than that of a ball contained in the shape. *)
Theorem C75_volume_refuted : exists g p w, rod_banana_geometry 1 PI 2 100 1 = Some g /\ (forall y, in_ball p 100 y -> rods_body (g_data g) y) /\ volume (in_ball vzero 100) w /\ g_volume g < w.
Proof. exact (thick_banana). Qed.
Print Assumptions C75_volume_refuted.

(** The legacy shape is not symmetric with respect to the x axis for an even number of spheres. *)
Theorem C75_legacy_symmetry_refuted : exists g d1 d2, legacy_banana_geometry 1 (PI / 2) 2 1 = Some g /\ nth_error (g_data g) 0 = Some d1 /\ nth_error (g_data g) 1 = Some d2 /\ vx (bd_pos d1) <> vx (bd_pos d2).
Proof. exact (legacy_even). Qed.
Print Assumptions C75_legacy_symmetry_refuted.

