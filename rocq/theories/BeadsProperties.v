(** C65: shapes made of spheres on a line *)
From Coq Require Import Reals ZArith List Bool Arith Lia Lra.
From Verif Require Import TextModel GeomModel ShapesModel XcSpec GeoModel GeoSpec VolSpec BeadsModel BeadsSpec BeadsProofs BeadsChainProofs BeadsTipProofs.
Import ListNotations.
Open Scope R_scope.

Theorem C65_cap : forall r h,
  (0 < r -> 0 <= h <= 2 * r -> exists v, sphericalCap r h = Some v /\ volume (fun y => in_ball vzero r y /\ r - h <= vz y) v) /\
  (sphericalCap r h = None <-> ~ (0 <= r /\ h <= 2 * r)).
Proof. intros r h. split; [exact (cap_spec r h)|exact (cap_refused r h)]. Qed.
Theorem C65_intersection : forall r1 r2 d,
  (0 < r1 -> 0 < r2 -> 0 < d -> Rabs (r1 - r2) <= d <= r1 + r2 ->
   exists v, sphereIntersection r1 r2 d = Some v /\ volume (fun y => in_ball vzero r1 y /\ in_ball (V3 0 0 d) r2 y) v) /\
  (sphereIntersection r1 r2 d = None <-> ~ (0 < r1 /\ 0 < r2 /\ 0 < d /\ d <= r1 + r2)).
Proof. intros r1 r2 d. split; [exact (intersection_spec r1 r2 d)|exact (intersection_refused r1 r2 d)]. Qed.
(** A ball inside the other one: the answer is negative. *)
Theorem C65_intersection_refuted : exists v w, sphereIntersection 3 1 1 = Some v /\ volume (fun y => in_ball vzero 3 y /\ in_ball (V3 0 0 1) 1 y) w /\ v < 0 < w.
Proof. exact nested_balls. Qed.
Theorem C65_kmer : forall n r d,
  ((exists g, kmer_geometry n r d = Some g) <-> (2 <= n)%nat /\ 0 < r /\ 0 < d) /\
  forall g, kmer_geometry n r d = Some g ->
    length (g_data g) = n /\ (forall b, In b (g_data g) -> bd_radius b = r) /\ along_z (g_data g) /\ spaced (g_data g) (fun _ _ _ => d) /\ centred (g_data g) /\
    g_primary g = Some (V3 0 0 1) /\ g_secondary g = Some (V3 1 0 0) /\ middle (g_data g) (g_origin g) /\ g_origin g = vzero /\
    volume (beads_body (g_data g)) (g_volume g) /\
    exists e, ends (g_data g) [98; 101; 103]%Z [101; 110; 100]%Z e /\
      forall name v, getNamedPoint g name = Some v <-> point_called (bead_point (g_data g)) vzero (([99; 109]%Z, vzero) :: e) name v.
Proof. exact kmer_spec. Qed.
Theorem C65_wedge : forall n rb rt p,
  ((exists g, wedge_geometry n rb rt p = Some g) <-> (2 <= n)%nat /\ 0 < rb /\ 0 < rt /\ p < 2 * rb /\ p < 2 * rt) /\
  forall g, wedge_geometry n rb rt p = Some g ->
    length (g_data g) = n /\ (forall i b, nth_error (g_data g) i = Some b -> bd_radius b = rb + INR i / INR (n - 1) * (rt - rb)) /\ along_z (g_data g) /\
    spaced (g_data g) (fun _ d1 d2 => bd_radius d1 + bd_radius d2 - p) /\ centred (g_data g) /\ g_primary g = Some (V3 0 0 1) /\ g_secondary g = None /\ g_origin g = vzero /\
    volume (beads_body (g_data g)) (g_volume g) /\
    exists e c, ends (g_data g) [98; 101; 103]%Z [101; 110; 100]%Z e /\ (p = 0 -> exists m, middle (g_data g) m /\ c = [([99; 109]%Z, m)]) /\ (p <> 0 -> c = []) /\
      forall name v, getNamedPoint g name = Some v <-> point_called (bead_point (g_data g)) vzero (e ++ c) name v.
Proof. exact wedge_spec. Qed.
Theorem C65_lollipop : forall n rs rt ps pt,
  ((exists g, lollipop_geometry n rs rt ps pt = Some g) <-> (2 <= n)%nat /\ 0 < rs /\ 0 < rt /\ ps < 2 * rs /\ pt < 2 * rs /\ pt < 2 * rt) /\
  forall g, lollipop_geometry n rs rt ps pt = Some g ->
    length (g_data g) = n /\ (forall i b, nth_error (g_data g) i = Some b -> bd_radius b = if Nat.eqb (S i) n then rt else rs) /\ along_z (g_data g) /\
    spaced (g_data g) (fun i _ _ => if Nat.eqb (S (S i)) n then rs + rt - pt else 2 * rs - ps) /\ centred (g_data g) /\ g_primary g = Some (V3 0 0 1) /\ g_secondary g = None /\ g_origin g = vzero /\
    (tip_clear (g_data g) -> volume (beads_body (g_data g)) (g_volume g)) /\
    (n = 2%nat \/ pt <= 2 * rs - ps / 2 -> tip_clear (g_data g)) /\
    exists e c, ends (g_data g) [115; 115]%Z [115; 116]%Z e /\ (ps = 0 /\ pt = 0 -> exists m, middle (g_data g) m /\ c = [([99; 109]%Z, m)]) /\ (~ (ps = 0 /\ pt = 0) -> c = []) /\
      forall name v, getNamedPoint g name = Some v <-> point_called (bead_point (g_data g)) vzero (e ++ c) name v.
Proof. exact lollipop_spec. Qed.
(** The tip reaches deep into the stick: the volume is wrong. *)
Theorem C65_lollipop_refuted : exists g, lollipop_geometry 3 1 3 1 (7 / 4) = Some g /\ ~ volume (beads_body (g_data g)) (g_volume g).
Proof. exact lollipop_refuted_at. Qed.

Example C65_cap_ex : exists v, sphericalCap 2 1 = Some v /\ volume (fun y => in_ball vzero 2 y /\ 2 - 1 <= vz y) v.
Proof. apply (proj1 (C65_cap 2 1)); lra. Qed.
Example C65_intersection_ex : exists v, sphereIntersection 2 1 2 = Some v /\ volume (fun y => in_ball vzero 2 y /\ in_ball (V3 0 0 2) 1 y) v.
Proof. apply (proj1 (C65_intersection 2 1 2)); try lra. rewrite Rabs_pos_eq; lra. Qed.
Example C65_kmer_ex : exists g, kmer_geometry 4 1 (3 / 2) = Some g. Proof. apply (proj1 (C65_kmer 4 1 (3 / 2))). repeat split; try lra; lia. Qed.
Example C65_wedge_ex : exists g, wedge_geometry 5 2 1 (1 / 2) = Some g. Proof. apply (proj1 (C65_wedge 5 2 1 (1 / 2))). repeat split; try lra; lia. Qed.
Example C65_lollipop_ex : exists g, lollipop_geometry 5 1 2 (1 / 2) 1 = Some g /\ volume (beads_body (g_data g)) (g_volume g).
Proof.
  destruct (proj2 (proj1 (C65_lollipop 5 1 2 (1 / 2) 1))) as (g&G); [repeat split; try lra; lia|]. exists g. split; [exact G|]. destruct (proj2 (C65_lollipop 5 1 2 (1 / 2) 1) g G) as (_&_&_&_&_&_&_&_&V&T&_). apply V, T. right. lra.
Qed.

Print Assumptions C65_cap.
Print Assumptions C65_intersection.
Print Assumptions C65_intersection_refuted.
Print Assumptions C65_kmer.
Print Assumptions C65_wedge.
Print Assumptions C65_lollipop.
Print Assumptions C65_lollipop_refuted.
