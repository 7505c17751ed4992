From Coq Require Import ZArith Reals List Bool Arith Permutation Sorting.Sorted Lra Lia.
From Verif Require Import GeomModel GeomProofs BoxModel BoxSpec PbcModel PbcSpec LatticeModel LatticeSpec LatticeProofs LatticeNormProofs LatticeExamples RotModel RotSpec RotProofs TransModel TransSpec.
Import ListNotations.
Local Open Scope nat_scope.

(** Three molecules in two layers and two columns along z, 2 x 2 x 3 cells *)
Definition three : list shape := [Shape (V3 0 0 (1/2)) mid; Shape (V3 (1/2) (1/2) 0) mid; Shape (V3 (1/2) (1/2) (1/2)) mid].
Definition dims223 : idx3 := I3 2 2 3.
Lemma three_unit s : In s three -> in_unit s.
Proof. intros [<-|[<-|[<-|[]]]] []; cbn; lra. Qed.
Lemma three_far : (/ 10 ^ 10 <= Rabs (1/2 - 0))%R /\ (/ 10 ^ 10 <= Rabs (0 - 1/2))%R.
Proof.
  assert (H : (/ 10 ^ 10 <= 1/2)%R) by (replace (1/2)%R with (/2)%R by lra; apply Rinv_le_contravar; [lra|]; replace 2%R with (2 ^ 1)%R by ring; apply Rle_trans with (10 ^ 1)%R; [lra|apply Rle_pow; [lra|lia]]).
  split; [rewrite Rabs_pos_eq by lra; lra|]. rewrite Rabs_left by lra. lra.
Qed.
Lemma three_layers : distinct_layers AZ three /\ layer_coordinates AZ three [0%R; (1/2)%R].
Proof.
  pose proof three_far as [F1 F2]. split.
  - intros s s' [<-|[<-|[<-|[]]]] [<-|[<-|[<-|[]]]]; cbn [vget sh_pos vx vy vz]; auto.
  - split; [repeat constructor; lra|]. intros z. split.
    + intros [<-|[<-|[]]]; [exists (Shape (V3 (1/2) (1/2) 0) mid)|exists (Shape (V3 0 0 (1/2)) mid)]; (split; [cbn; auto|reflexivity]).
    + intros (s&[<-|[<-|[<-|[]]]]&<-); cbn; auto.
Qed.
Lemma three_columns : distinct_columns AZ three.
Proof.
  pose proof three_far as [F1 F2]. intros s s' I J.
  assert (S : forall t, same_column AZ t t) by (intros t a _; reflexivity).
  destruct I as [<-|[<-|[<-|[]]]], J as [<-|[<-|[<-|[]]]];
    first [left; intros a N; destruct a; try reflexivity; congruence | right; exists AX; split; [discriminate|cbn [vget sh_pos vx]; assumption]].
Qed.
Lemma three_lattice : exists l b, built l b dims223 (fun _ => three) /\ lat_regular l = true.
Proof.
  destruct unit_box as [b C]. exists (Lattice b [three] dims223 true), b. split; [|reflexivity]. apply (built_new b three dims223); [exact C|reflexivity].
Qed.
Lemma rotation_mid : rotation mid.
Proof. split; intros; rewrite ?mvec_id; reflexivity. Qed.
Lemma three_rotations s : In s three -> rotation (sh_rot s).
Proof. intros [<-|[<-|[<-|[]]]]; exact rotation_mid. Qed.
(** A rod along z with the geometric origin outside of its axis *)
Definition off_rod : geometry := Geometry (Some (V3 0 0 1)) None (V3 1 0 0).
Lemma off_rod_proper : proper_geometry off_rod.
Proof. split; [intros p E; injection E as <-; unfold vnorm2, vdot; cbn; lra|intros p s _ E; discriminate]. Qed.
Lemma off_rod_axis s : In s three -> exists u, turning_axis off_rod AxisPrimary s = Some u /\ u <> vzero.
Proof.
  intros [<-|[<-|[<-|[]]]]; (eexists; split; [reflexivity|]); intros E; apply (f_equal vz) in E; cbn in E; lra.
Qed.
