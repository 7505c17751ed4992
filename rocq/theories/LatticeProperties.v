From Coq Require Import ZArith Reals List Bool Arith Permutation Sorting.Sorted Lra Lia.
From Verif Require Import TextModel GeomModel BoxModel BoxSpec PbcModel PbcSpec LatticeModel LatticeSpec LatticeProofs LatticeNormProofs LatticeExamples.
Import ListNotations.
Local Open Scope nat_scope.

Theorem C52_cells l b d k : built l b d k ->
  lat_box l = b /\ lat_dims l = d /\ (forall c, in_range c d -> getSpecificCell l c = Some (k c)) /\
  (forall c f, modifySpecificCellMolecules l c f <> None <-> in_range c d) /\
  (forall f, modifyUnitCellMolecules l f <> None <-> lat_regular l = true).
Proof. exact (built_cells l b d k). Qed.
Print Assumptions C52_cells.

Theorem C52_box l b d k : built l b d k ->
  exists lb, getLatticeBox l = Some lb /\ constructed lb /\ forall a, box_side lb a = vscale (INR (iget d a)) (box_side b a).
Proof. exact (built_box l b d k). Qed.
Print Assumptions C52_box.

Theorem C52_generated l b d k : built l b d k ->
  exists cells, traversal AX AY AZ d cells /\ generateMolecules l = Some (flat_map (fun c => map (placed b c) (k c)) cells).
Proof. exact (built_generated l b d k). Qed.
Print Assumptions C52_generated.

Theorem C52_size l b d k : built l b d k -> exists molecules, generateMolecules l = Some molecules /\ lattice_size l = Some (length molecules).
Proof. exact (built_size l b d k). Qed.
Print Assumptions C52_size.

Theorem C52_serial l b d k a0 a1 a2 n : built l b d k -> a0 <> a1 /\ a0 <> a2 /\ a1 <> a2 ->
  exists cells size, traversal a0 a1 a2 d cells /\ lattice_size l = Some size /\
    serial_populate [axis_letter a0; axis_letter a1; axis_letter a2] l n =
    if Nat.leb n size then Some (firstn n (flat_map (fun c => map (placed b c) (k c)) cells)) else None.
Proof. exact (built_serial l b d k a0 a1 a2 n). Qed.
Print Assumptions C52_serial.

Theorem C52_axis_order s l n : serial_populate s l n <> None -> exists a0 a1 a2, (a0 <> a1 /\ a0 <> a2 /\ a1 <> a2) /\ s = [axis_letter a0; axis_letter a1; axis_letter a2].
Proof. exact (order_refused s l n). Qed.
Print Assumptions C52_axis_order.

Theorem C52_random l b d k shuffled size n : built l b d k -> lattice_size l = Some size -> Permutation shuffled (seq 0 size) ->
  (n <= size -> exists molecules shapes, generateMolecules l = Some molecules /\ random_populate shuffled l n = Some shapes /\ length shapes = n /\ subsequence shapes molecules) /\
  (size < n -> random_populate shuffled l n = None).
Proof. exact (built_random l b d k shuffled size n). Qed.
Print Assumptions C52_random.

Theorem C52_is_normalized l b d k : built l b d k -> (isNormalized l = true <-> forall c s, in_range c d -> In s (k c) -> in_unit s).
Proof. exact (fun B => normalized_iff l b d k (built_valid l b d k B)). Qed.
Print Assumptions C52_is_normalized.

Theorem C52_normalized l b d k : built l b d k -> exists lb l' k', getLatticeBox l = Some lb /\ terminates_with (fun fuel => normalize fuel l) l' /\ built l' b d k' /\
  lat_regular l' = lat_regular l /\ (forall c s, in_range c d -> In s (k' c) -> in_unit s) /\
  exists molecules molecules' images, generateMolecules l = Some molecules /\ generateMolecules l' = Some molecules' /\
    Forall2 (same_modulo lb) molecules images /\ Permutation images molecules'.
Proof. exact (normalize_built l b d k). Qed.
Print Assumptions C52_normalized.

Theorem C52_untouched l b d k fuel : built l b d k -> (forall c s, in_range c d -> In s (k c) -> in_unit s) -> normalize fuel l = Some l.
Proof. exact (normalized_untouched l b d k fuel). Qed.
Print Assumptions C52_untouched.

(* An irregular 2 x 1 x 1 lattice with a molecule outside of its cell *)
Example C52_example : exists l b k, built l b (I3 2 1 1) k /\ lat_regular l = false /\ isNormalized l = false /\ lattice_size l = Some 3.
Proof. exact irregular_example. Qed.
