From Coq Require Import ZArith Reals List Bool Arith Lra Lia Psatz.
From Verif Require Import GeomModel GeomProofs BoxModel BoxSpec BoxProofs PbcModel LatticeModel LatticeSpec LatticeProofs CellModel CellSpec CellProofs.
Import ListNotations.
Local Open Scope R_scope.

Lemma cuboid_some x y z : x <> 0 -> y <> 0 -> z <> 0 -> exists b, box_cuboid x y z = Some b /\ dims b = M33 x 0 0 0 y 0 0 0 z.
Proof.
  intros X Y W. unfold box_cuboid, box_of_matrix, minverse. destruct (Reqb (mdet (M33 x 0 0 0 y 0 0 0 z)) 0) eqn:Q; [|eexists; split; reflexivity].
  exfalso. apply Reqb_true in Q. unfold mdet in Q. cbn in Q. apply (Rmult_integral_contrapositive_currified (x * y) z); [apply Rmult_integral_contrapositive_currified; assumption|assumption|]. lra.
Qed.
Lemma cuboid_sides x y z : matrix_of_sides (V3 x 0 0) (V3 0 y 0) (V3 0 0 z) = M33 x 0 0 0 y 0 0 0 z.
Proof. reflexivity. Qed.
Lemma cuboid_has_sides x y z b : box_cuboid x y z = Some b -> has_sides b (V3 x 0 0) (V3 0 y 0) (V3 0 0 z).
Proof.
  intros E. assert (E' : box_of_sides (V3 x 0 0) (V3 0 y 0) (V3 0 0 z) = Some b) by exact E. split; [do 3 eexists; exact E'|]. exact (box_sides_given _ _ _ _ E').
Qed.
Lemma sqrt_positive x : 0 < x -> 0 < sqrt x /\ sqrt x * sqrt x = x.
Proof. intros P. split; [apply sqrt_lt_R0, P|apply sqrt_sqrt; lra]. Qed.

Ltac positions := let n := fresh in let s := fresh in let E := fresh in
  intros n s E; repeat (destruct n as [|n]; [cbn in E; injection E as <-; cbn; repeat split; lra|]); destruct n; discriminate E.
Definition sc_crystal : crystal := Crystal (1, 1, 1)%Z (1, 1, 1)%Z 1 [(0, 0, 0)%Z].
Definition bcc_crystal : crystal := Crystal (2, 2, 2)%Z (1, 1, 1)%Z 3 [(0, 0, 0)%Z; (1, 1, 1)%Z].
Definition fcc_crystal : crystal := Crystal (2, 2, 2)%Z (1, 1, 1)%Z 2 [(0, 0, 0)%Z; (0, 1, 1)%Z; (1, 0, 1)%Z; (1, 1, 0)%Z].
Definition turn3 (a : axis) (p : Z * Z * Z) : Z * Z * Z := match a with AX => (dz p, dx p, dy p) | AY => (dy p, dz p, dx p) | AZ => p end.
Definition hcp_crystal (a : axis) : crystal := Crystal (turn3 a (2, 6, 2)%Z) (turn3 a (3, 1, 8)%Z) 12 (map (turn3 a) [(0, 0, 0)%Z; (1, 3, 0)%Z; (0, 2, 1)%Z; (1, 5, 1)%Z]).
Definition hex_crystal (a : axis) : crystal := Crystal (turn3 a (2, 2, 1)%Z) (turn3 a (1, 3, 4)%Z) 4 (map (turn3 a) [(0, 0, 0)%Z; (1, 1, 0)%Z]).
Definition halves := V3 (1/2) (1/2) (1/2).
Section Cells.
Variables (d : R) (D : 0 < d).
Lemma sc_represents : exists b, create_cell CellSc (DimNumber d) = Some (b, sc_molecules) /\ represents sc_crystal b sc_molecules d (V3 d d d) halves.
Proof.
  destruct (cuboid_some d d d) as (b&E&DB); try lra. exists b. split; [cbn; unfold box_cube; rewrite E; reflexivity|]. constructor; [reflexivity|exact D|reflexivity| |cbn; repeat split; ring|positions].
  rewrite DB. cbn. f_equal; ring.
Qed.
Lemma bcc_represents : exists b, create_cell CellBcc (DimNumber d) = Some (b, bcc_molecules) /\ represents bcc_crystal b bcc_molecules d (vscale (d / sqrt 3) (V3 1 1 1)) halves.
Proof.
  destruct (sqrt_positive 3 ltac:(lra)) as [P Q]. assert (S0 : bcc_side d <> 0) by (unfold bcc_side; apply Rgt_not_eq; apply Rdiv_lt_0_compat; lra).
  destruct (cuboid_some (bcc_side d) (bcc_side d) (bcc_side d)) as (b&E&DB); auto. exists b. split; [cbn; unfold box_cube; rewrite E; reflexivity|]. constructor; [reflexivity|exact D|reflexivity| | |positions].
  - rewrite DB. unfold bcc_side. cbn. f_equal; field; lra.
  - assert (F : d / sqrt 3 * (d / sqrt 3) * 3 = d * d) by (unfold Rdiv; rewrite <- Q at 3; field; lra). cbn. rewrite !Rmult_1_r. repeat split; exact F.
Qed.
Lemma fcc_represents : exists b, create_cell CellFcc (DimNumber d) = Some (b, fcc_molecules) /\ represents fcc_crystal b fcc_molecules d (vscale (sqrt 2 * d / 2) (V3 1 1 1)) halves.
Proof.
  destruct (sqrt_positive 2 ltac:(lra)) as [P Q]. assert (S0 : fcc_side d <> 0) by (unfold fcc_side; apply Rgt_not_eq, Rmult_lt_0_compat; lra).
  destruct (cuboid_some (fcc_side d) (fcc_side d) (fcc_side d)) as (b&E&DB); auto. exists b. split; [cbn; unfold box_cube; rewrite E; reflexivity|]. constructor; [reflexivity|exact D|reflexivity| | |positions].
  - rewrite DB. unfold fcc_side. cbn. f_equal; field.
  - assert (F : sqrt 2 * d / 2 * (sqrt 2 * d / 2) * 2 = d * d) by (replace (sqrt 2 * d / 2 * (sqrt 2 * d / 2) * 2) with (sqrt 2 * sqrt 2 * (d * d) / 2) by field; rewrite Q; field). cbn. rewrite !Rmult_1_r. repeat split; exact F.
Qed.
Lemma hcp_represents a : exists b, create_cell (CellHcp a) (DimNumber d) = Some (b, hcp_molecules a) /\
  represents (hcp_crystal a) b (hcp_molecules a) d (cycled a (V3 (d / 2) (sqrt 3 * d / 6) (sqrt 6 * d / 3))) halves.
Proof.
  destruct (sqrt_positive 3 ltac:(lra)) as [P3 Q3]. destruct (sqrt_positive 6 ltac:(lra)) as [P6 Q6].
  assert (S1 : sqrt 3 * d <> 0) by (apply Rgt_not_eq, Rmult_lt_0_compat; lra). assert (S2 : 2 * sqrt 6 * d / 3 <> 0) by (apply Rgt_not_eq; assert (0 < sqrt 6 * d) by (apply Rmult_lt_0_compat; lra); lra).
  destruct (cuboid_some (vx (hcp_sides d a)) (vy (hcp_sides d a)) (vz (hcp_sides d a))) as (b&E&DB); try (destruct a; cbn; lra).
  exists b. split; [cbn; rewrite E; reflexivity|].
  assert (Fx : d / 2 * (d / 2) * 12 = d * d * 3) by field.
  assert (Fy : sqrt 3 * d / 6 * (sqrt 3 * d / 6) * 12 = d * d * 1) by (replace (sqrt 3 * d / 6 * (sqrt 3 * d / 6) * 12) with (sqrt 3 * sqrt 3 * (d * d) / 3) by field; rewrite Q3; field).
  assert (Fz : sqrt 6 * d / 3 * (sqrt 6 * d / 3) * 12 = d * d * 8) by (replace (sqrt 6 * d / 3 * (sqrt 6 * d / 3) * 12) with (sqrt 6 * sqrt 6 * (d * d) * 4 / 3) by field; rewrite Q6; field).
  constructor.
  - destruct a; vm_compute; reflexivity.
  - exact D.
  - destruct a; reflexivity.
  - rewrite DB. destruct a; cbn; f_equal; field.
  - destruct a; cbn; auto.
  - destruct a; positions.
Qed.
Lemma hex_represents a : exists b, create_cell (CellHexagonal a) (DimNumber d) = Some (b, hexagonal_molecules a) /\
  represents (hex_crystal a) b (hexagonal_molecules a) d (cycled a (V3 (d / 2) (sqrt 3 * d / 2) d)) halves.
Proof.
  destruct (sqrt_positive 3 ltac:(lra)) as [P3 Q3]. assert (S1 : sqrt 3 * d <> 0) by (apply Rgt_not_eq, Rmult_lt_0_compat; lra).
  destruct (cuboid_some (vx (hexagonal_sides d a)) (vy (hexagonal_sides d a)) (vz (hexagonal_sides d a))) as (b&E&DB); try (destruct a; cbn; lra).
  exists b. split; [cbn; rewrite E; reflexivity|].
  assert (Fx : d / 2 * (d / 2) * 4 = d * d * 1) by field.
  assert (Fy : sqrt 3 * d / 2 * (sqrt 3 * d / 2) * 4 = d * d * 3) by (replace (sqrt 3 * d / 2 * (sqrt 3 * d / 2) * 4) with (sqrt 3 * sqrt 3 * (d * d)) by field; rewrite Q3; field).
  constructor.
  - destruct a; vm_compute; reflexivity.
  - exact D.
  - destruct a; reflexivity.
  - rewrite DB. destruct a; cbn; f_equal; field.
  - destruct a; cbn; auto.
  - destruct a; positions.
Qed.
End Cells.
Lemma cell_neighbours t d : builtin t -> 0 < d -> exists b ms, create_cell t (DimNumber d) = Some (b, ms) /\ constructed b /\ nearest_neighbours b ms d (coordination t).
Proof.
  intros B D.
  assert (C : forall t b ms, create_cell t (DimNumber d) = Some (b, ms) -> constructed b).
  { clear. intros t b ms E. unfold create_cell in E.
    assert (W : forall x y z ms', with_molecules ms' (box_cuboid x y z) = Some (b, ms) -> constructed b).
    { intros x y z ms' Q. unfold with_molecules in Q. destruct (box_cuboid x y z) as [b'|] eqn:U; [|discriminate]. injection Q as -> _. exact (proj1 (cuboid_has_sides _ _ _ _ U)). }
    destruct t; eapply W; exact E. }
  destruct t as [| | |a|a|shapes]; try contradiction.
  - destruct (sc_represents d D) as (b&E&R). exists b, sc_molecules. split; [exact E|]. split; [exact (C _ _ _ E)|]. apply (neighbours_are _ _ _ _ _ _ R). vm_compute; reflexivity.
  - destruct (bcc_represents d D) as (b&E&R). exists b, bcc_molecules. split; [exact E|]. split; [exact (C _ _ _ E)|]. apply (neighbours_are _ _ _ _ _ _ R). vm_compute; reflexivity.
  - destruct (fcc_represents d D) as (b&E&R). exists b, fcc_molecules. split; [exact E|]. split; [exact (C _ _ _ E)|]. apply (neighbours_are _ _ _ _ _ _ R). vm_compute; reflexivity.
  - destruct (hcp_represents d D a) as (b&E&R). exists b, (hcp_molecules a). split; [exact E|]. split; [exact (C _ _ _ E)|]. apply (neighbours_are _ _ _ _ _ _ R). destruct a; vm_compute; reflexivity.
  - destruct (hex_represents d D a) as (b&E&R). exists b, (hexagonal_molecules a). split; [exact E|]. split; [exact (C _ _ _ E)|]. apply (neighbours_are _ _ _ _ _ _ R). destruct a; vm_compute; reflexivity.
Qed.
Lemma above_with b ms d a h h' n : h' = h -> neighbours_above b ms d a h n -> neighbours_above b ms d a h' n.
Proof. intros ->. auto. Qed.
Lemma hcp_layers a d : 0 < d -> exists b ms, create_cell (CellHcp a) (DimNumber d) = Some (b, ms) /\
  neighbours_above b ms d a 0 6 /\ neighbours_above b ms d a (sqrt 6 / 3 * d) 3 /\ neighbours_above b ms d a (- (sqrt 6 / 3 * d)) 3.
Proof.
  intros D. destruct (hcp_represents d D a) as (b&E&R). exists b, (hcp_molecules a). split; [exact E|].
  assert (H : vget (cycled a (V3 (d / 2) (sqrt 3 * d / 6) (sqrt 6 * d / 3))) a = sqrt 6 / 3 * d) by (destruct a; cbn; field).
  assert (P : 0 < vget (cycled a (V3 (d / 2) (sqrt 3 * d / 6) (sqrt 6 * d / 3))) a) by (rewrite H; destruct (sqrt_positive 6 ltac:(lra)); assert (0 < sqrt 6 * d) by (apply Rmult_lt_0_compat; lra); lra).
  split; [|split].
  - eapply above_with; [|apply (above_are _ _ _ _ _ _ R a 0 6 P); destruct a; vm_compute; reflexivity]. rewrite H. ring.
  - eapply above_with; [|apply (above_are _ _ _ _ _ _ R a 1 3 P); destruct a; vm_compute; reflexivity]. rewrite H. ring.
  - eapply above_with; [|apply (above_are _ _ _ _ _ _ R a (-1) 3 P); destruct a; vm_compute; reflexivity]. rewrite H. ring.
Qed.
Lemma hex_layers a d : 0 < d -> exists b ms, create_cell (CellHexagonal a) (DimNumber d) = Some (b, ms) /\
  neighbours_above b ms d a 0 6 /\ neighbours_above b ms d a d 1 /\ neighbours_above b ms d a (- d) 1.
Proof.
  intros D. destruct (hex_represents d D a) as (b&E&R). exists b, (hexagonal_molecules a). split; [exact E|].
  assert (H : vget (cycled a (V3 (d / 2) (sqrt 3 * d / 2) d)) a = d) by (destruct a; reflexivity).
  assert (P : 0 < vget (cycled a (V3 (d / 2) (sqrt 3 * d / 2) d)) a) by (rewrite H; exact D).
  split; [|split].
  - eapply above_with; [|apply (above_are _ _ _ _ _ _ R a 0 6 P); destruct a; vm_compute; reflexivity]. rewrite H. ring.
  - eapply above_with; [|apply (above_are _ _ _ _ _ _ R a 1 1 P); destruct a; vm_compute; reflexivity]. rewrite H. ring.
  - eapply above_with; [|apply (above_are _ _ _ _ _ _ R a (-1) 1 P); destruct a; vm_compute; reflexivity]. rewrite H. ring.
Qed.
