(** Examples and counterexamples for orthorhombic arrangements. *)
From Coq Require Import Reals List Arith ZArith Lia Lra.
From Verif Require Import GeomModel PbcModel RotSpec OrthoModel OrthoSpec OrthoProofs OrthoFinalProofs.
Import ListNotations.
Open Scope nat_scope.

Lemma arrange_accepts a n lines cell box : 0 < n -> fits lines cell box -> layers_match a lines -> exists l, arrange a n lines cell box = Some l.
Proof. intros H F M. eexists. apply arrange_whole. repeat (split; [assumption|]). apply placed_arranged. intros x. apply F. Qed.

(** Two layers along x, of opposite polarisation and tilted both ways; three rows along z; 5 shapes in a lattice of 6 sites *)
Definition layers : arranging := Arranging Antiferro AX Anticlinic AY (PI / 6).
Definition two_three (x : axis) : nat := match x with AX => 2 | AY => 1 | AZ => 3 end.
Lemma layers_fit : fits two_three (V3 2 3 1) (V3 5 3 4).
Proof. intros []; cbn; repeat split; try lia; lra. Qed.
Lemma layers_even : layers_match layers two_three. Proof. intros _. exists 1. reflexivity. Qed.
Lemma layers_arranged : exists l, arrange layers 5 two_three (V3 2 3 1) (V3 5 3 4) = Some l /\ List.length l = 5 /\
  exists s, nth_error l 4 = Some s /\ sh_pos s = V3 (7 / 2) (3 / 2) 2 /\ sh_rot s = mmul (rotation_about AY (- (PI / 6))) (rotation_about AX PI).
Proof.
  destruct (arrange_accepts layers 5 two_three (V3 2 3 1) (V3 5 3 4) ltac:(lia) layers_fit layers_even) as (l & E). exists l. split; [exact E|].
  pose proof (proj1 (arrange_whole _ _ _ _ _ _) E) as (_ & _ & _ & L & A). split; [exact L|].
  destruct (nth_error l 4) as [s|] eqn:N; [|apply nth_error_None in N; rewrite L in N; cbn in N; lia]. exists s. split; [reflexivity|].
  destruct (A _ _ N) as (P & O). split.
  - pose proof (P AX) as X. pose proof (P AY) as Y. pose proof (P AZ) as Z. destruct (sh_pos s) as [p q r]. cbn in X, Y, Z. f_equal; lra.
  - apply (orient_unique layers 1); [exact O|]. exists (rotation_about AY (- (PI / 6))), (rotation_about AX PI). split; [reflexivity|].
    assert (NE : ~ Nat.Even 1) by (intros (k & K); lia). split; [|split; [|split]].
    + intros [K|K]; [destruct (NE K)|destruct (K eq_refl)].
    + intros _ _. apply (about_axis AY).
    + intros [K|K]; [destruct (NE K)|destruct (K eq_refl)].
    + intros _ _. apply (about_axis AX).
Qed.

(** Opposite clinicity with an odd number of layers: the first and the last layer, which are neighbours through the wall, are tilted the same way *)
Definition three_layers : arranging := Arranging Ferro AX Anticlinic AY (PI / 6).
Definition three_one (x : axis) : nat := match x with AX => 3 | _ => 1 end.
Lemma odd_layers_accepted :
  exists a lines cell box l s s', arrange a (sites lines) lines cell box = Some l /\ clinic a = Anticlinic /\ tilt_angle a = (PI / 6)%R /\
    nth_error l 0 = Some s /\ nth_error l (sites lines - 1) = Some s' /\ row lines 0 (polar_axis a) = 0 /\ row lines (sites lines - 1) (polar_axis a) = lines (polar_axis a) - 1 /\
    0 < lines (polar_axis a) - 1 /\ sh_rot s = sh_rot s'.
Proof.
  exists three_layers, three_one, (V3 1 1 1), (V3 3 1 1).
  destruct (arrange_accepts three_layers (sites three_one) three_one (V3 1 1 1) (V3 3 1 1)) as (l & E); [cbn; lia|intros []; cbn; repeat split; try lia; lra|intros D; discriminate|].
  pose proof (proj1 (arrange_whole _ _ _ _ _ _) E) as (_ & _ & _ & L & A). change (Nat.min (sites three_one) (sites three_one)) with 3 in L.
  destruct l as [|s [|t [|s' [|]]]]; try discriminate. exists [s; t; s'], s, s'. repeat (split; [first [reflexivity|exact E|cbn; lia]|]).
  destruct (A 0 s eq_refl) as (_ & O). destruct (A 2 s' eq_refl) as (_ & O'). cbn in O, O'. apply (orient_unique three_layers 0); [exact O|].
  destruct O' as (t1 & h & Q & B & C & D & F). exists t1, h. split; [exact Q|].
  assert (E2 : Nat.Even 2) by (exists 1; reflexivity). split; [|split; [|split]].
  - intros _. apply B. left. exact E2.
  - intros (k & K). lia.
  - intros _. apply D. left. exact E2.
  - intros (k & K). lia.
Qed.
(** No default lattice of 27 shapes with layers of opposite polarisation *)
Lemma no_default_layers : arrange_default layers 27 (V3 9 9 9) = None.
Proof.
  destruct (arrange_default layers 27 (V3 9 9 9)) as [l|] eqn:E; [|reflexivity]. apply default_whole in E. destruct E as (_ & _ & k & K1 & K2 & K3 & _).
  specialize (K2 3 ltac:(cbn; lia)). destruct (K3 eq_refl) as (j & J). assert (k <= 2) by lia. assert (k * k * k <= 2 * 2 * 2) by (apply Nat.mul_le_mono; [apply Nat.mul_le_mono|]; auto). lia.
Qed.
Lemma default_accepts a n box : 0 < n -> (forall x, 0 < vget box x)%R -> polar a <> Antiferro -> exists l, arrange_default a n box = Some l /\ List.length l = n.
Proof.
  intros H B N. destruct (ceil_cbrt_spec n) as (C1 & C2). set (k := ceil_cbrt n) in *.
  exists (place_all a n (vmake (fun x => (vget box x / INR k)%R)) (middle (fun _ => k) (vmake (fun x => (vget box x / INR k)%R)) box) (visited (fun _ => k)) []).
  assert (KP : 0 < k) by (destruct k; lia).
  pose proof (placed_arranged a n (fun _ => k) (vmake (fun x => (vget box x / INR k)%R)) box (fun _ => KP)) as P. split.
  - apply default_whole. split; [exact H|]. split; [exact B|]. exists k. split; [exact C1|]. split; [exact C2|]. split; [intros D; destruct (N D)|exact P].
  - destruct P as (L & _). rewrite L. unfold sites. apply Nat.min_l. exact C1.
Qed.
