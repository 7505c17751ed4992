(** C80: shapes as text for Mathematica and as Wavefront OBJ. *)
From Coq Require Import Reals ZArith List Bool String.
From Verif Require Import TextModel GeomModel PbcModel GeoModel ShapesModel MeshModel MeshSpec XyzModel XyzSpec PrintModel PrintSpec PrintProofs PrintObjProofs PrintExamples OptModel.
Import ListNotations.
Local Open Scope list_scope.
Open Scope Z_scope.

(** The standard text is one expression: the list of all shapes in order, each as the solid it is, where it is. *)
Theorem C80_standard : forall plain fixed, readable fixed -> forall pr shapes, nonempty pr -> readable (notation plain fixed pr) ->
  exists t, storeStandard plain fixed pr shapes = Some t /\ read t = Some (graphics (Braces (map (picture (notation plain fixed pr) pr) shapes))).
Proof. exact standard_reads. Qed.
Print Assumptions C80_standard.
Example C80_standard_case : readable halves /\ nonempty (MeshP [(corner, V3 0 0 1); (corner, V3 0 0 0)]) /\ nonempty (PolysphereP [Bead (V3 1 0 0) 1]) /\
  readable (notation tiny halves (MeshP [(corner, V3 0 0 1)])) /\ readable (notation halves halves (SphereP 1)).
Proof. split; [exact halves_readable|]. split; [discriminate|]. split; [discriminate|]. split; exact halves_readable. Qed.

(** The text with affine transforms is one expression: the shape at the origin, and the list of the rotations and positions in order. *)
Theorem C80_affine : forall plain fixed, readable fixed -> forall pr shapes, nonempty pr -> readable (notation plain fixed pr) ->
  exists t, storeAffineTransform plain fixed pr shapes = Some t /\
    read t = Some (graphics (MapOver (Call (tx "GeometricTransformation") [picture (notation plain fixed pr) pr default_shape; ToSlot (tx "AffineTransform")])
                                     (Braces (map (placement_expr fixed) shapes)))).
Proof. exact affine_reads. Qed.
Print Assumptions C80_affine.
Example C80_affine_case : readable halves /\ nonempty (SpherocylinderP 2 1) /\ readable (notation halves halves (SpherocylinderP 2 1)).
Proof. split; [exact halves_readable|]. split; [exact Logic.I|exact halves_readable]. Qed.

(** Not so for spheres whose coordinates need an exponent: their printer does not ask for the fixed notation, all others do. *)
Theorem C80_exponent_refuted : forall plain fixed r s, plain (vx (sh_pos s)) = tx "1e-05" -> exists t, storeStandard plain fixed (SphereP r) [s] = Some t /\ read t = None.
Proof. exact exponent_unreadable. Qed.
Print Assumptions C80_exponent_refuted.
Example C80_exponent_refuted_case : readable halves /\ (forall x, numeral (tiny x)) /\ tiny (vx (sh_pos default_shape)) = tx "1e-05".
Proof. split; [exact halves_readable|]. split; [exact tiny_numeral|reflexivity]. Qed.

(** A reader of Wavefront OBJ gets the points of all meshes where the shape is, and exactly their triangles: every index, in any mesh, leads to the right point. *)
Theorem C80_obj : forall plain, (forall x, numeral (plain x)) -> forall s scene, List.Forall (fun e => faces (fst e) (snd e)) scene ->
  let points := obj_points (List.map fst scene) s in
  Z.of_nat (List.length points) < 2 ^ 64 ->
  exists triangles, read_obj (print_obj plain (List.map fst scene) 0 s) = Some (List.map (point_text plain) points, triangles) /\
    Forall2 (resolved points) triangles (flat_map (fun e => List.map (placed_face s (snd (fst e))) (snd e)) scene).
Proof. exact (fun plain N s scene F => obj_reads plain N s scene F []). Qed.
Print Assumptions C80_obj.
Example C80_obj_case : (forall x, numeral (tiny x)) /\ List.Forall (fun e => faces (fst e) (snd e)) [((corner, V3 0 0 1), corner_faces); ((corner, V3 1 0 0), corner_faces)] /\
  Z.of_nat (List.length (obj_points [(corner, V3 0 0 1); (corner, V3 1 0 0)] default_shape)) < 2 ^ 64.
Proof. split; [exact tiny_numeral|]. split; [repeat apply Forall_cons; try apply corner_ok; apply Forall_nil|reflexivity]. Qed.
