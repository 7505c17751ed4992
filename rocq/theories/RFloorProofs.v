From Coq Require Import Reals ZArith Lra Lia.
From Verif Require Import RFloorModel.
Open Scope R_scope.

Lemma Rfl_spec r : IZR (Rfl r) <= r < IZR (Rfl r) + 1.
Proof. unfold Rfl. destruct (archimed r). rewrite minus_IZR. lra. Qed.

Lemma Rfl_unique r z : IZR z <= r < IZR z + 1 -> Rfl r = z.
Proof.
  intros H. pose proof (Rfl_spec r) as Hs.
  assert (IZR (Rfl r) < IZR z + 1) as H1 by lra.
  assert (IZR z < IZR (Rfl r) + 1) as H2 by lra.
  rewrite <- plus_IZR in H1, H2. apply lt_IZR in H1. apply lt_IZR in H2. lia.
Qed.

Lemma Rfl_le r z : IZR z <= r <-> (z <= Rfl r)%Z.
Proof.
  pose proof (Rfl_spec r) as Hs. split; intros H.
  - assert (IZR z < IZR (Rfl r) + 1) by lra. rewrite <- plus_IZR in H0. apply lt_IZR in H0. lia.
  - apply IZR_le in H. lra.
Qed.
Lemma Rfl_lt r z : r < IZR z <-> (Rfl r < z)%Z.
Proof.
  pose proof (Rfl_spec r) as Hs. split; intros H.
  - apply lt_IZR. lra.
  - assert (Rfl r + 1 <= z)%Z by lia. apply IZR_le in H0. rewrite plus_IZR in H0. lra.
Qed.
Lemma Rfl_IZR z : Rfl (IZR z) = z.
Proof. apply Rfl_unique. lra. Qed.
Lemma Rfl_add_Z r z : Rfl (r + IZR z) = (Rfl r + z)%Z.
Proof. apply Rfl_unique. pose proof (Rfl_spec r). rewrite plus_IZR. lra. Qed.
Lemma Rfl_mono r s : r <= s -> (Rfl r <= Rfl s)%Z.
Proof. intros H. apply Rfl_le. pose proof (Rfl_spec r). lra. Qed.

Lemma Rce_spec r : IZR (Rce r) - 1 < r <= IZR (Rce r).
Proof. unfold Rce. rewrite opp_IZR. pose proof (Rfl_spec (-r)). lra. Qed.

Lemma Rround_spec r : Rabs (IZR (Rround r) - r) <= /2.
Proof.
  unfold Rround. destruct (Rle_dec 0 r).
  - pose proof (Rfl_spec (r + /2)). apply Rabs_le. lra.
  - rewrite opp_IZR. pose proof (Rfl_spec (-r + /2)). apply Rabs_le. lra.
Qed.
