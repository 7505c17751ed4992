(** C83: orthorhombic arrangements. *)
From Coq Require Import Reals List Arith ZArith.
From Verif Require Import GeomModel PbcModel RotSpec OrthoModel OrthoSpec OrthoProofs OrthoFinalProofs OrthoExamples.
Import ListNotations.
Open Scope nat_scope.

(** Exactly which arrangements are accepted, and what they are. *)
Theorem C83_arranged : forall a n lines cell box l,
  arrange a n lines cell box = Some l <-> 0 < n /\ fits lines cell box /\ layers_match a lines /\ arranged a n lines cell box l.
Proof. exact arrange_whole. Qed.
Print Assumptions C83_arranged.
Example C83_arranged_example : exists l, arrange layers 5 two_three (V3 2 3 1) (V3 5 3 4) = Some l /\ List.length l = 5 /\
  exists s, nth_error l 4 = Some s /\ sh_pos s = V3 (7 / 2) (3 / 2) 2 /\ sh_rot s = mmul (rotation_about AY (- (PI / 6))) (rotation_about AX PI).
Proof. exact layers_arranged. Qed.

(** Every lattice which fits is accepted (layers of opposite polarisation: if there is an even number of them). *)
Theorem C83_accepted : forall a n lines cell box, 0 < n -> fits lines cell box -> layers_match a lines -> exists l, arrange a n lines cell box = Some l.
Proof. exact arrange_accepts. Qed.
Print Assumptions C83_accepted.
Example C83_accepted_example : fits two_three (V3 2 3 1) (V3 5 3 4) /\ layers_match layers two_three.
Proof. exact (conj layers_fit layers_even). Qed.

(** All shapes are inside the box. *)
Theorem C83_inside : forall a n lines cell box l, arrange a n lines cell box = Some l ->
  forall m s x, nth_error l m = Some s -> (0 < vget (sh_pos s) x < vget box x)%R.
Proof. exact inside. Qed.
Print Assumptions C83_inside.

(** Two shapes, and all their periodic images, are along some axis at least a cell apart, or as far apart as the lattice and its next image are. *)
Theorem C83_apart : forall a n lines cell box l, arrange a n lines cell box = Some l ->
  forall m m' s s', nth_error l m = Some s -> nth_error l m' = Some s' -> m <> m' ->
  exists x, forall k : Z,
    (Rmin (vget cell x) (vget box x - (INR (lines x) - 1) * vget cell x) <= Rabs (vget (sh_pos s) x - vget (sh_pos s') x + IZR k * vget box x))%R.
Proof. exact apart. Qed.
Print Assumptions C83_apart.

(** A full lattice is symmetric about the middle of the box. *)
Theorem C83_mirrored : forall a n lines cell box l, arrange a n lines cell box = Some l ->
  forall m s s' x, n = sites lines -> nth_error l m = Some s -> nth_error l (n - 1 - m) = Some s' -> (vget (sh_pos s) x + vget (sh_pos s') x = vget box x)%R.
Proof. exact mirrored. Qed.
Print Assumptions C83_mirrored.

(** The default lattice is the smallest cubic one with enough sites, and it fills the box. *)
Theorem C83_default : forall a n box l,
  arrange_default a n box = Some l <->
  0 < n /\ (forall x, 0 < vget box x)%R /\
  exists k, n <= k * k * k /\ (forall j, n <= j * j * j -> k <= j) /\ (polar a = Antiferro -> Nat.Even k) /\
    arranged a n (fun _ => k) (vmake (fun x => (vget box x / INR k)%R)) box l.
Proof. exact default_whole. Qed.
Print Assumptions C83_default.

(** Unless polarisations of layers are opposite, there is a default lattice for every number of shapes and every box, with all the shapes. *)
Theorem C83_default_accepted : forall a n box, 0 < n -> (forall x, 0 < vget box x)%R -> polar a <> Antiferro ->
  exists l, arrange_default a n box = Some l /\ List.length l = n.
Proof. exact default_accepts. Qed.
Print Assumptions C83_default_accepted.

(** For opposite polarisations there may be none. *)
Theorem C83_default_refuted : arrange_default layers 27 (V3 9 9 9) = None.
Proof. exact no_default_layers. Qed.
Print Assumptions C83_default_refuted.

(** Layers need not be tilted alternately: with an odd number of layers the first and the last one, which are neighbours, are tilted the same way. *)
Theorem C83_alternate_refuted :
  exists a lines cell box l s s', arrange a (sites lines) lines cell box = Some l /\ clinic a = Anticlinic /\ tilt_angle a = (PI / 6)%R /\
    nth_error l 0 = Some s /\ nth_error l (sites lines - 1) = Some s' /\ row lines 0 (polar_axis a) = 0 /\ row lines (sites lines - 1) (polar_axis a) = lines (polar_axis a) - 1 /\
    0 < lines (polar_axis a) - 1 /\ sh_rot s = sh_rot s'.
Proof. exact odd_layers_accepted. Qed.
Print Assumptions C83_alternate_refuted.
