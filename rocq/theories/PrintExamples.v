(** Concrete cases for C80. *)
From Coq Require Import Reals ZArith List Bool String.
From Verif Require Import TextModel GeomModel PbcModel GeoModel ShapesModel MeshModel MeshSpec XyzModel XyzSpec PrintModel PrintSpec PrintProofs OptModel.
Import ListNotations.
Local Open Scope list_scope.
Open Scope Z_scope.

(** A way to print numbers: all negative ones as -0.5, the others as 1.25. *)
Definition halves (x : R) : list Z := if Rlt_dec x 0 then tx "-0.5" else tx "1.25".
Lemma halves_readable : readable halves.
Proof. intros x. unfold halves. destruct (Rlt_dec x 0); reflexivity. Qed.
(** The same with an exponent: what operator<< gives for small numbers. *)
Definition tiny (x : R) : list Z := tx "1e-05".
Lemma tiny_numeral x : numeral (tiny x).
Proof. split; [discriminate|]. repeat (constructor; [first [left; reflexivity | right; cbn; tauto]|]); constructor. Qed.
Definition corner : polyhedron := Poly (V3 0 0 0) [V3 0 0 0; V3 1 0 0; V3 0 1 0; V3 0 0 1] [(0, 2, 1); (0, 1, 3); (1, 2, 3); (0, 3, 2)]%nat.
Definition corner_faces : list (vec * vec * vec) :=
  [(V3 0 0 0, V3 0 1 0, V3 1 0 0); (V3 0 0 0, V3 1 0 0, V3 0 0 1); (V3 1 0 0, V3 0 1 0, V3 0 0 1); (V3 0 0 0, V3 0 0 1, V3 0 1 0)].
Lemma corner_ok c : faces (corner, c) corner_faces.
Proof. unfold faces. repeat constructor. Qed.
Lemma exponent_unreadable plain fixed r s : plain (vx (sh_pos s)) = tx "1e-05" -> exists t, storeStandard plain fixed (SphereP r) [s] = Some t /\ read t = None.
Proof. intros H. eexists. split; [reflexivity|]. unfold separated, print_sphere, show_vec. rewrite H. reflexivity. Qed.
