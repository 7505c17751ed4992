From Coq Require Import ZArith Reals List Bool Arith Permutation Sorting.Sorted Lra Lia.
From Verif Require Import OptModel TextModel TextProofs GeomModel BoxModel BoxSpec BoxProofs PbcModel PbcSpec RFloorModel LatticeModel LatticeSpec LatticeProofs LatticeNormProofs.
Import ListNotations.
Local Open Scope nat_scope.

Lemma built_cells l b d k : built l b d k ->
  lat_box l = b /\ lat_dims l = d /\ (forall c, in_range c d -> getSpecificCell l c = Some (k c)) /\
  (forall c f, modifySpecificCellMolecules l c f <> None <-> in_range c d) /\
  (forall f, modifyUnitCellMolecules l f <> None <-> lat_regular l = true).
Proof.
  intros B. apply built_valid in B as V. split; [apply V|]. split; [apply V|]. split; [apply V|]. split.
  - intros c f. split; [|apply (modify_succeeds _ _ _ _ _ _ V)]. intros N. destruct (modifySpecificCellMolecules l c f) as [l'|] eqn:M; [|congruence].
    apply (modify_valid _ _ _ _ _ _ _ V M).
  - intros f. unfold modifyUnitCellMolecules. destruct (lat_regular l); split; congruence.
Qed.
Lemma built_box l b d k : built l b d k ->
  exists lb, getLatticeBox l = Some lb /\ constructed lb /\ forall a, box_side lb a = vscale (INR (iget d a)) (box_side b a).
Proof. intros B. exact (lattice_box_valid _ _ _ _ (built_valid _ _ _ _ B)). Qed.
Lemma built_generated l b d k : built l b d k ->
  exists cells, traversal AX AY AZ d cells /\ generateMolecules l = Some (flat_map (fun c => map (placed b c) (k c)) cells).
Proof.
  intros B. exists (loop3 AX AY AZ d). split; [apply loop3_traversal; repeat split; discriminate|]. exact (generate_valid _ _ _ _ (built_valid _ _ _ _ B)).
Qed.
Lemma built_size l b d k : built l b d k -> exists molecules, generateMolecules l = Some molecules /\ lattice_size l = Some (length molecules).
Proof. intros B. apply built_valid in B. eexists. split; [apply (generate_valid _ _ _ _ B)|apply (size_valid _ _ _ _ B)]. Qed.
Lemma built_serial l b d k a0 a1 a2 n : built l b d k -> a0 <> a1 /\ a0 <> a2 /\ a1 <> a2 ->
  exists cells size, traversal a0 a1 a2 d cells /\ lattice_size l = Some size /\
    serial_populate [axis_letter a0; axis_letter a1; axis_letter a2] l n =
    if Nat.leb n size then Some (firstn n (flat_map (fun c => map (placed b c) (k c)) cells)) else None.
Proof. intros B D. apply built_valid in B. exact (serial_valid l b d k a0 a1 a2 n B D). Qed.
Lemma order_refused s l n : serial_populate s l n <> None -> exists a0 a1 a2, (a0 <> a1 /\ a0 <> a2 /\ a1 <> a2) /\ s = [axis_letter a0; axis_letter a1; axis_letter a2].
Proof.
  unfold serial_populate. destruct (parseAxisOrder s) as [[[a0 a1] a2]|] eqn:P; [|cbn; congruence]. intros _. exists a0, a1, a2. exact (proj1 (parse_order s a0 a1 a2) P).
Qed.
Lemma built_random l b d k shuffled size n : built l b d k -> lattice_size l = Some size -> Permutation shuffled (seq 0 size) ->
  (n <= size -> exists molecules shapes, generateMolecules l = Some molecules /\ random_populate shuffled l n = Some shapes /\ length shapes = n /\ subsequence shapes molecules) /\
  (size < n -> random_populate shuffled l n = None).
Proof.
  intros B S P. apply built_valid in B. split; [exact (random_valid l b d k shuffled size n B S P)|].
  intros L. unfold random_populate. rewrite S. cbn [OptModel.obind]. destruct (Nat.leb_spec n size); [lia|reflexivity].
Qed.
Lemma normalized_untouched l b d k fuel : built l b d k -> (forall c s, in_range c d -> In s (k c) -> in_unit s) -> normalize fuel l = Some l.
Proof. intros B U. apply built_valid in B. apply (proj2 (normalized_iff _ _ _ _ B)) in U. unfold normalize. rewrite U. reflexivity. Qed.

Lemma unit_box : exists b, constructed b.
Proof.
  destruct (proj1 (box_constructible (V3 1 0 0) (V3 0 1 0) (V3 0 0 1))) as [b E].
  - intros a c e H. unfold vadd, vscale in H. cbn in H. injection H as H1 H2 H3. lra.
  - exists b, (V3 1 0 0), (V3 0 1 0), (V3 0 0 1). exact E.
Qed.
Lemma irregular_example : exists l b k, built l b (I3 2 1 1) k /\ lat_regular l = false /\ isNormalized l = false /\ lattice_size l = Some 3.
Proof.
  destruct unit_box as [b C].
  set (s := Shape (V3 (1/2) (1/2) (1/2)) mid). set (s' := Shape (V3 (-7/2) (1/2) (1/2)) mid).
  set (l0 := Lattice b [[s]] (I3 2 1 1) true). set (l := Lattice b [[s]; [s; s']] (I3 2 1 1) false).
  assert (B0 : built l0 b (I3 2 1 1) (fun _ => [s])) by (apply (built_new b [s] (I3 2 1 1) l0); [exact C|reflexivity]).
  assert (M : modifySpecificCellMolecules l0 (I3 1 0 0) (fun ms => ms ++ [s']) = Some l) by reflexivity.
  pose proof (built_cell _ _ _ _ _ _ _ B0 M) as B. exists l, b, (fun c' => if idx3_dec c' (I3 1 0 0) then [s] ++ [s'] else [s]).
  split; [exact B|]. split; [reflexivity|]. split; [|reflexivity].
  destruct (isNormalized l) eqn:N; [|reflexivity]. exfalso. apply (normalized_iff _ _ _ _ (built_valid _ _ _ _ B)) with (c := I3 1 0 0) (s := s') in N.
  - specialize (N AX). cbn in N. lra.
  - repeat split; cbn; lia.
  - cbn. tauto.
Qed.
