From Coq Require Import Reals ZArith List Bool Arith Lia Lra Psatz.
From Verif Require Import TextModel GeomModel GeomProofs PbcModel SegSpec ShapesModel XcSpec GeoModel GeoSpec BeadsModel BeadsSpec BananaModel BananaSpec BananaShapeProofs BananaLegacyProofs BananaRodProofs.
Import ListNotations.
Open Scope R_scope.

(** Overlapping spheres with a mass centre *)
Lemma overlapping_centre : exists g d1 d2 v, banana_geometry 1 PI 3 1 = Some g /\ nth_error (g_data g) 0 = Some d1 /\ nth_error (g_data g) 1 = Some d2 /\
  distance (bd_pos d1) (bd_pos d2) < bd_radius d1 + bd_radius d2 /\ getNamedPoint g [99; 109]%Z = Some v.
Proof.
  pose proof PI_RGT_0 as P0. destruct (banana_spec 1 PI 3 1) as (X&Y). destruct (proj2 X) as (g&G); [repeat split; lra || lia|]. destruct (Y g G) as (c&_&_&DN&_&_&_&_&_&_&_&(b&B1&_&NP)).
  assert (D : distance (division 1 PI c 2 0) (division 1 PI c 2 1) = 2 * 1 * sin (PI / 4)). { unfold distance, division. cbn [INR]. rewrite arc_distance; [f_equal; f_equal; lra|lra|lra]. }
  cbn [Nat.sub] in *. assert (S4 : sin (PI / 4) ^ 2 = 1 / 2). { rewrite sin_PI4. unfold Rdiv. rewrite Rpow_mult_distr, pow1, pow_inv, pow2_sqrt by lra. lra. } assert (S0 : 0 < sin (PI / 4)) by (apply sin_gt_0; lra).
  rewrite D in B1. destruct B1 as (m&_&->). { pose proof eps_pos. nra. }
  exists g. do 3 eexists. split; [exact G|]. split; [apply (DN 0%nat); lia|]. split; [apply (DN 1%nat); lia|]. cbn [bd_pos bd_radius]. rewrite D. split; [nra|]. apply NP. right. split; [discriminate|]. right. right. right. left. reflexivity.
Qed.
(** An arc of more than a half of the circle *)
Lemma long_rod_banana : exists g, rod_banana_geometry 2 (3 * PI / 2) 3 1 2 = Some g.
Proof.
  pose proof PI_RGT_0 as P0. apply (proj1 (rod_banana_spec 2 (3 * PI / 2) 3 1 2)). split; [lra|]. split; [lra|]. split; [lia|]. split; [lra|]. split; [lia|]. pose proof eps_pos as EP. assert (S4 : sin (PI / 4) ^ 2 = 1 / 2). { rewrite sin_PI4. unfold Rdiv. rewrite Rpow_mult_distr, pow1, pow_inv, pow2_sqrt by lra. lra. } assert (S0 : 0 < sin (PI / 4)) by (apply sin_gt_0; lra). split.
  - intros _ i t LI T. pose proof (chord_distance 2 (3 * PI / 2) 3 i t ltac:(lra) ltac:(lia)) as D. set (d := distance _ vzero) in *. assert (0 <= d) by apply sqrt_pos. replace (3 * PI / 2 / INR 3 / 2) with (PI / 4) in D by (cbn [INR]; lra). assert (0 <= (1 - 2 * t) ^ 2 * sin (PI / 4) ^ 2) by (apply Rmult_le_pos; apply pow2_ge_0). rewrite cos_PI4, <- sin_PI4 in D. nra.
  - right. rewrite ends_apart by (lra || lia). replace (3 * PI / 2 / 2) with (PI / 2 + PI / 4) by lra. replace (sin (PI / 2 + PI / 4)) with (cos (PI / 4)) by (rewrite sin_plus, sin_PI2, cos_PI2; ring). rewrite cos_PI4, <- sin_PI4. nra.
Qed.
Lemma short_sphere_banana : exists g, banana_geometry 3 (PI / 2) 6 1 = Some g.
Proof. pose proof PI_RGT_0. apply (proj1 (banana_spec 3 (PI / 2) 6 1)). repeat split; lra || lia. Qed.
Lemma legacy_example : exists g, legacy_banana_geometry 3 (PI / 2) 5 1 = Some g.
Proof. pose proof PI_RGT_0. apply (proj1 (legacy_spec 3 (PI / 2) 5 1)). repeat split; lra || lia. Qed.
