From Coq Require Import Reals List Lra.
From Verif Require Import GeomModel PackSpec NematicModel NematicSpec NematicProofs.
Import ListNotations.
Local Open Scope R_scope.

(** For each symmetric matrix which is not a multiple of identity no assertion fails, and the three numbers are the roots of the characteristic polynomial, with multiplicities. *)
Theorem C48_eigenvalues : forall m, symmetric m -> (forall t, m <> mscale t mid) -> exists e1 e2 e3, calculateEigenvalues m = Some (e1, e2, e3) /\ forall x, charpoly m x = (x - e1) * (x - e2) * (x - e3).
Proof. exact eigenvalues. Qed.
Print Assumptions C48_eigenvalues.
(** The tensor is (3 <a_i a_j> - delta_ij) / 2; it is symmetric, and traceless for unit axes. *)
Theorem C48_tensor : forall axes, QTensor axes = mmake (fun i j => (3 * meanOf axes (fun a => vget a i * vget a j) - mget mid i j) / 2) /\ symmetric (QTensor axes) /\ (axes <> [] -> Forall (fun a => vnorm2 a = 1) axes -> mtr (QTensor axes) = 0).
Proof. exact (fun axes => conj (tensor axes) (conj (tensor_symmetric axes) (tensor_trace axes))). Qed.
Print Assumptions C48_tensor.
(** The order parameter is its eigenvalue of the greatest magnitude, and is between -1/2 and 1. *)
Theorem C48_P2 : forall axes, axes <> [] -> Forall (fun a => vnorm2 a = 1) axes -> QTensor axes <> mscale 0 mid ->
  exists g, P2 axes = Some g /\ charpoly (QTensor axes) g = 0 /\ (forall x, charpoly (QTensor axes) x = 0 -> Rabs x <= Rabs g) /\ - / 2 <= g <= 1.
Proof. exact P2_value. Qed.
Print Assumptions C48_P2.
(** It is 1 if all axes are parallel, whatever their signs. *)
Theorem C48_perfect : forall axes a, axes <> [] -> vnorm2 a = 1 -> Forall (fun b => b = a \/ b = vneg a) axes -> P2 axes = Some 1.
Proof. exact P2_perfect. Qed.
Print Assumptions C48_perfect.
(** Finding: for an isotropic sample, instead of 0, an assertion fails. *)
Theorem C48_isotropic_refuted : forall axes, QTensor axes = mscale 0 mid -> P2 axes = None.
Proof. exact P2_zero. Qed.
Print Assumptions C48_isotropic_refuted.

Example isotropic_sample : QTensor [V3 1 0 0; V3 0 1 0; V3 0 0 1] = mscale 0 mid.
Proof. rewrite tensor. unfold meanOf, mscale, mid, mmake, mget, vget. cbn. f_equal; field. Qed.
Example anisotropic_sample : QTensor [V3 1 0 0; V3 0 1 0] <> mscale 0 mid.
Proof. rewrite tensor. unfold meanOf, mscale, mid, mmake, mget, vget. cbn. intros E. injection E. intros. lra. Qed.
