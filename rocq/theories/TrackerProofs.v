From Coq Require Import Reals ZArith List Bool Lia Lra Permutation.
From Verif Require Import GeomModel GeomProofs BoxModel BoxSpec BoxProofs RFloorModel RFloorProofs RotModel PbcTotalModel PackSpec PackSumProofs BondOrderProofs SmecticProofs CorrProofs BinsModel BinsSpec BinsAverageProofs TrackerModel TrackerSpec.
Import ListNotations.
Local Open Scope R_scope.

(** Coefficients. *)
Lemma fold_sum {A} (h : A -> R) l : forall v, fold_left (fun c p => c + h p) l v = v + Rsum h l.
Proof. induction l as [|x l IH]; intros v; cbn [fold_left]; [change (Rsum h []) with 0; ring|]. rewrite IH. change (Rsum h (x :: l)) with (h x + Rsum h l). ring. Qed.
Definition part (k : axis -> nat) (idx : selection) (p : vec) : R := fourier (k AX) (idx AX) (vx p) * fourier (k AY) (idx AY) (vy p) * fourier (k AZ) (idx AZ) (vz p).
Lemma coefficient_sum k f s idx : number_of_values f = 1%nat -> (forall a, k a = 0%nat -> idx a = false) -> coefficient k f s idx = Rsum (fun p => component f 0 (snd p) * part k idx (place s p)) (sy_shapes s).
Proof.
  intros Hf H. unfold coefficient. assert (E : existsb (fun a => idx a && (k a =? 0)%nat) axes = false).
  { cbn [axes existsb]. rewrite orb_false_r. repeat (apply orb_false_iff; split); (destruct (k _) eqn:K; [rewrite (H _ K)|]; cbn; auto using andb_false_r). }
  rewrite E. rewrite (fold_sum (fun p => fourier (k AX) (idx AX) (vx (absoluteToRelative (sy_box s) (fst p))) * fourier (k AY) (idx AY) (vy (absoluteToRelative (sy_box s) (fst p))) * fourier (k AZ) (idx AZ) (vz (absoluteToRelative (sy_box s) (fst p))) * nth 0 (calculate_values f (snd p)) 0)), Rplus_0_l. apply Rsum_ext. intros p _. rewrite (values_component f 0) by lia. unfold part, place. ring.
Qed.
(** Angles. *)
Lemma cos_whole x z : cos (x + 2 * PI * IZR z) = cos x /\ sin (x + 2 * PI * IZR z) = sin x.
Proof.
  apply cos_periods.
Qed.
Lemma cos_one x : cos x = 1 -> exists z, x = 2 * PI * IZR z.
Proof.
  intros H. replace x with (2 * (x / 2)) in H by field. rewrite cos_2a_sin in H. assert (S : sin (x / 2) = 0) by nra. apply sin_eq_0_0 in S. destruct S as [z S]. exists z. lra.
Qed.
Lemma guarded y x : exists r, 0 <= r /\ r * r = x * x + y * y /\ - PI < guardedAtan2 y x <= PI /\ (epsilon <= r -> forall t, x * cos t + y * sin t = r * cos (t - guardedAtan2 y x)) /\ forall t, - r <= x * cos t + y * sin t <= r.
Proof.
  destruct (atan2_arg y x) as (Rg & r & R0 & _ & Ex & Ey). exists r. split; [exact R0|]. set (u := atan2 y x) in *. pose proof (sin2_cos2 u) as S. unfold Rsqr in S. assert (Rr : r * r = x * x + y * y) by (rewrite Ex, Ey; nra). split; [exact Rr|].
  assert (All : forall t, x * cos t + y * sin t = r * cos (t - u)) by (intros t; rewrite cos_minus, Ex, Ey; ring). assert (Ep : 0 < epsilon) by (unfold epsilon; lra). unfold guardedAtan2. fold u. split; [|split].
  - destruct (Rltb _ _); [pose proof PI_RGT_0; lra|exact Rg].
  - intros H. rewrite (proj2 (Rltb_false _ _)) by nra. exact All.
  - intros t. rewrite All. pose proof (COS_bound (t - u)). nra.
Qed.
Lemma fmod_whole x : 0 <= x -> exists z, fmod1 x = x + IZR z /\ 0 <= fmod1 x < 1.
Proof. intros H. unfold fmod1. rewrite (proj2 (Rltb_false _ _)) by lra. exists (- Rfl x)%Z. rewrite opp_IZR. pose proof (Rfl_spec x). lra. Qed.
(** The coordinate of a given phase. *)
Lemma phase_coordinate (n : nat) t : (0 < n)%nat -> - PI < t <= PI -> exists z, 2 * PI * INR n * fmod1 (t / INR n / 2 / PI + 1) = t + 2 * PI * IZR z /\ 0 <= fmod1 (t / INR n / 2 / PI + 1) < 1.
Proof.
  intros Hn T. pose proof PI_RGT_0 as P. assert (N : 1 <= INR n) by (change 1 with (INR 1); apply le_INR; lia).
  assert (B : -1 <= t / INR n / 2 / PI). { assert (t / INR n / 2 / PI = t / PI * / (2 * INR n)) as -> by (field; lra). assert (-1 <= t / PI) by (apply (Rmult_le_reg_r PI); [exact P|]; replace (t / PI * PI) with t by (field; lra); lra). assert (0 < / (2 * INR n) <= 1) by (split; [apply Rinv_0_lt_compat; lra|rewrite <- Rinv_1; apply Rinv_le_contravar; lra]). nra. }
  destruct (fmod_whole (t / INR n / 2 / PI + 1)) as (z & E & Bd); [lra|]. exists (Z.of_nat n * (1 + z))%Z. split; [|exact Bd]. rewrite E, mult_IZR, plus_IZR, <- INR_IZR_INZ. field. lra.
Qed.
(** The modulation by coefficients. *)
Definition ang (k : axis -> nat) (r : vec) (a : axis) : R := 2 * PI * INR (k a) * vget r a.
Lemma wave_split k r p a : wave_at k r p a = cos (ang k r a) * fourier (k a) false (vget p a) + (if (k a =? 0)%nat then 0 else sin (ang k r a) * fourier (k a) true (vget p a)).
Proof.
  unfold wave_at, ang, fourier. destruct (k a =? 0)%nat eqn:E.
  - apply Nat.eqb_eq in E. rewrite E. cbn [INR]. rewrite Rmult_0_r, !Rmult_0_l, cos_0. ring.
  - cbv zeta. replace (2 * PI * INR (k a) * (vget r a - vget p a)) with (2 * PI * INR (k a) * vget r a - 2 * PI * INR (k a) * vget p a) by ring. apply cos_minus.
Qed.
Lemma ang_zero k r a : k a = 0%nat -> ang k r a = 0. Proof. intros E. unfold ang. rewrite E. cbn [INR]. ring. Qed.
Ltac splitting := rewrite <- ?Rsum_scaled, <- ?Rsum_plus; apply Rsum_ext; intros p _; rewrite !wave_split; unfold part; cbn [vget axis_is sel orb].
Lemma modulation1 k f s r a : number_of_values f = 1%nat -> (0 < k a)%nat -> (forall b, b <> a -> k b = 0%nat) -> modulation k f s r = coefficient k f s (fun _ => false) * cos (ang k r a) + coefficient k f s (axis_is a) * sin (ang k r a).
Proof.
  intros Hf Ha Hb. rewrite !coefficient_sum; try exact Hf; [|intros b B; destruct (axis_is a b) eqn:Q; [|reflexivity]; exfalso; assert (a = b) by (destruct a, b; try discriminate; reflexivity); subst; lia|reflexivity].
  unfold modulation. destruct a.
  - assert (K1 : k AY = 0%nat) by (apply Hb; discriminate). assert (K2 : k AZ = 0%nat) by (apply Hb; discriminate). splitting. rewrite (proj2 (Nat.eqb_neq (k AX) 0)) by lia. rewrite !(ang_zero k r AY K1), !(ang_zero k r AZ K2), K1, K2, cos_0. unfold fourier. cbn [Nat.eqb]. ring.
  - assert (K1 : k AX = 0%nat) by (apply Hb; discriminate). assert (K2 : k AZ = 0%nat) by (apply Hb; discriminate). splitting. rewrite (proj2 (Nat.eqb_neq (k AY) 0)) by lia. rewrite !(ang_zero k r AX K1), !(ang_zero k r AZ K2), K1, K2, cos_0. unfold fourier. cbn [Nat.eqb]. ring.
  - assert (K1 : k AX = 0%nat) by (apply Hb; discriminate). assert (K2 : k AY = 0%nat) by (apply Hb; discriminate). splitting. rewrite (proj2 (Nat.eqb_neq (k AZ) 0)) by lia. rewrite !(ang_zero k r AX K1), !(ang_zero k r AY K2), K1, K2, cos_0. unfold fourier. cbn [Nat.eqb]. ring.
Qed.
Definition ordered_axes (i j : axis) : Prop := match i, j with AX, AY | AX, AZ | AY, AZ => True | _, _ => False end.
Lemma modulation2 k f s r i j : number_of_values f = 1%nat -> ordered_axes i j -> (0 < k i)%nat -> (0 < k j)%nat -> (forall b, b <> i -> b <> j -> k b = 0%nat) ->
  modulation k f s r = coefficient k f s (fun _ => false) * cos (ang k r i) * cos (ang k r j) + coefficient k f s (axis_is j) * cos (ang k r i) * sin (ang k r j) +
    coefficient k f s (axis_is i) * sin (ang k r i) * cos (ang k r j) + coefficient k f s (fun x => axis_is i x || axis_is j x) * sin (ang k r i) * sin (ang k r j).
Proof.
  intros Hf Ho Hi Hj Hb. assert (Q : forall a b, axis_is a b = true -> a = b) by (intros a b; destruct a, b; cbn; congruence).
  rewrite !coefficient_sum; try exact Hf; try reflexivity;
    try (intros b B; destruct (axis_is i b) eqn:Q1; [apply Q in Q1; subst; lia|]; destruct (axis_is j b) eqn:Q2; [apply Q in Q2; subst; lia|]; reflexivity);
    try (intros b B; destruct (axis_is i b) eqn:Q1; [apply Q in Q1; subst; lia|]; reflexivity); try (intros b B; destruct (axis_is j b) eqn:Q1; [apply Q in Q1; subst; lia|]; reflexivity).
  unfold modulation. destruct i, j; try contradiction.
  - assert (K : k AZ = 0%nat) by (apply Hb; discriminate). splitting. rewrite (proj2 (Nat.eqb_neq (k AX) 0)), (proj2 (Nat.eqb_neq (k AY) 0)) by lia. rewrite !(ang_zero k r AZ K), K, cos_0. unfold fourier. cbn [Nat.eqb]. ring.
  - assert (K : k AY = 0%nat) by (apply Hb; discriminate). splitting. rewrite (proj2 (Nat.eqb_neq (k AX) 0)), (proj2 (Nat.eqb_neq (k AZ) 0)) by lia. rewrite !(ang_zero k r AY K), K, cos_0. unfold fourier. cbn [Nat.eqb]. ring.
  - assert (K : k AX = 0%nat) by (apply Hb; discriminate). splitting. rewrite (proj2 (Nat.eqb_neq (k AY) 0)), (proj2 (Nat.eqb_neq (k AZ) 0)) by lia. rewrite !(ang_zero k r AX K), K, cos_0. unfold fourier. cbn [Nat.eqb]. ring.
Qed.
