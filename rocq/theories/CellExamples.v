From Coq Require Import ZArith Reals List Bool Arith Permutation Sorting.Sorted Lra Lia.
From Verif Require Import TextModel GeomModel GeomProofs BoxModel BoxSpec BoxProofs RotSpec PbcModel PbcSpec LatticeModel LatticeSpec LatticeProofs LatticeNormProofs DimsModel DimsSpec OptModel CellModel CellSpec CellProofs CellKindProofs CellLatticeProofs CellArrangeProofs.
Import ListNotations.
Local Open Scope R_scope.

Lemma vectors_example : exists x, match_dim (InVectors (V3 2 0 0) (V3 1 3 0) (V3 0 1 4)) = Some x.
Proof.
  destruct (match_dim (InVectors (V3 2 0 0) (V3 1 3 0) (V3 0 1 4))) as [x|] eqn:E; [eauto|]. exfalso. apply (proj2 (input_matched (InVectors (V3 2 0 0) (V3 1 3 0) (V3 0 1 4)))); [|exact E].
  unfold acceptable. replace (vdot _ _) with 24 by (unfold vdot, vcross; cbn; ring). rewrite Rabs_pos_eq by lra. apply Rlt_trans with 1; [|lra]. rewrite <- Rinv_1. apply Rinv_lt_contravar; [|apply Rlt_pow_R1; [lra|lia]]. rewrite Rmult_1_l. apply pow_lt. lra.
Qed.
Lemma case_example : exists t x b ms, create_cell t x = Some (b, ms) /\ constructed b /\ positive (I3 2 3 1) /\ (1 < length ms)%nat /\ exists l, built l b (I3 2 3 1) (fun _ => ms).
Proof.
  destruct (cell_neighbours (CellHcp AX) 1 Logic.I ltac:(lra)) as (b&ms&E&C&_). exists (CellHcp AX), (DimNumber 1), b, ms. split; [exact E|]. split; [exact C|].
  assert (P : positive (I3 2 3 1)) by (repeat split; cbn; lia). split; [exact P|].
  destruct (cell_positions _ _ _ _ E) as [M _]. apply (f_equal (@length vec)) in M. rewrite map_length in M. cbn in M. split; [lia|]. destruct (make_some b ms _ P) as [l ML]. exists l. constructor; assumption.
Qed.
Lemma unit_heights b : is_box b (given_sides (InFloat 1)) -> forall a, box_height b a = 1.
Proof.
  intros IB.
  assert (N1 : vnorm (V3 1 0 0) = 1 /\ vnorm (V3 0 1 0) = 1 /\ vnorm (V3 0 0 1) = 1) by (unfold vnorm, vnorm2, vdot; cbn; rewrite !Rmult_0_r, !Rmult_1_r, ?Rplus_0_r, ?Rplus_0_l, sqrt_1; auto).
  destruct N1 as (NX&NY&NZ). destruct IB as (_&X&Y&W). intros a. unfold box_height, box_volume, box_face.
  assert (CX : vcross (box_side b AY) (box_side b AZ) = V3 1 0 0) by (rewrite Y, W; apply vec_ext; cbn; ring).
  assert (CY : vcross (box_side b AZ) (box_side b AX) = V3 0 1 0) by (rewrite X, W; apply vec_ext; cbn; ring).
  assert (CZ : vcross (box_side b AX) (box_side b AY) = V3 0 0 1) by (rewrite X, Y; apply vec_ext; cbn; ring).
  assert (V : Rabs (vdot (vcross (box_side b AX) (box_side b AY)) (box_side b AZ)) = 1) by (rewrite CZ, W; unfold vdot; cbn; rewrite Rabs_pos_eq; lra).
  rewrite V. destruct a; rewrite ?CX, ?CY, ?CZ, ?NX, ?NY, ?NZ; field.
Qed.
Lemma unit_cube_example : exists b, match_dim (InFloat 1) = Some (DimNumber 1) /\ is_box b (given_sides (InFloat 1)) /\ cells_needed 1 (length (documented_positions CellBcc)) 1 /\ cube_side b 1 1 /\ (forall a, 1 <= 2 * box_height b a).
Proof.
  assert (M : match_dim (InFloat 1) = Some (DimNumber 1)) by (cbn; destruct (Rltb 0 1) eqn:E; [reflexivity|apply Rltb_false in E; lra]).
  destruct (input_box _ _ M) as (b&EB&IB). pose proof (unit_heights b IB) as HH. exists b. split; [exact M|]. split; [exact IB|]. split; [split; [cbn; lia|intros m; cbn; lia]|].
  split; [split; [lra|]; rewrite !HH; cbn; ring|]. intros a. rewrite HH. lra.
Qed.
