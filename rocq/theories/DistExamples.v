From Coq Require Import Reals List Bool Lia Lra.
From Verif Require Import GeomModel GeomProofs PbcModel PbcSpec PackModel InterModel ShapesModel PackSpec WallShapesProofs DistModel DistSpec DistProofs.
Import ListNotations.
Open Scope R_scope.

(** Two unit spheres and a diagonal direction *)
Lemma diagonal_accepted i c s1 s2 : sphere 1 = Some i -> ~ refused (WInter i c) s1 s2 (V3 1 1 0).
Proof.
  intros E. assert (N : 0 < vnorm2 (V3 1 1 0)) by (unfold vnorm2, vdot; cbn; lra). intros [X|[X|[X|X]]].
  - pose proof precision_small. unfold vnorm2, vdot in X. cbn in X. lra.
  - destruct (sphere_made 1 i E) as (_&->). cbn in X. discriminate.
  - apply X, (sphere_touch 1 i); auto; lra.
  - specialize (X 1%nat ltac:(lia)). apply (sphere_touch 1 i) in X; auto; cbn in *; lra.
Qed.
Lemma diagonal_distance i c s1 s2 : sphere 1 = Some i -> exists d, terminates_with (fun fuel => minimizeForDirection fuel (WInter i c) s1 s2 (V3 1 1 0)) (Value d) /\ 2 <= d <= 2 + precision.
Proof.
  intros E. destruct (minimize_spec (WInter i c) s1 s2 (V3 1 1 0)) as (r&T&S). destruct r as [d|].
  - exists d. split; [exact T|]. destruct S as (_&S). assert (N : 0 < vnorm2 (V3 1 1 0)) by (unfold vnorm2, vdot; cbn; lra). pose proof (sphere_tangent 1 i c s1 s2 _ d E N S). lra.
  - destruct (diagonal_accepted i c s1 s2 E S).
Qed.
