From Coq Require Import Reals ZArith List Bool Lia Lra Permutation.
From Verif Require Import GeomModel GeomProofs BoxModel BoxSpec BoxProofs RFloorModel RFloorProofs RotModel PbcTotalModel PbcModel PbcSpec PbcProofs PackSpec PackSumProofs CorrProofs CorrExamples BinsModel BinsSpec TrackerModel TrackerSpec TrackerProofs.
Import ListNotations.
Local Open Scope R_scope.

Lemma unit_cube : unit_box = cube. Proof. reflexivity. Qed.
Lemma cube_absolute p : relativeToAbsolute cube p = p. Proof. destruct p as [a b c]. unfold relativeToAbsolute, cube, mvec, mid. apply vec_ext; cbn; ring. Qed.
Lemma cube_orthogonal : orthogonal_sides cube. Proof. unfold orthogonal_sides, cube, mid. cbn. repeat split; intros; repeat match goal with a : axis |- _ => destruct a end; try congruence; unfold vdot; cbn; ring. Qed.
Lemma cube_lattice l : is_lattice_vector cube l <-> whole l.
Proof.
  split.
  - intros (i & j & m & ->). rewrite <- r2a_lattice, cube_absolute. intros a. destruct a; eexists; reflexivity.
  - intros H. destruct (H AX) as [i I1], (H AY) as [j J1], (H AZ) as [m M1]. exists i, j, m. rewrite <- r2a_lattice, cube_absolute. destruct l as [x y z]. cbn in *. congruence.
Qed.
Lemma cube_in o : in_box cube o <-> in_unit o. Proof. unfold in_box, in_unit. rewrite cube_relative. reflexivity. Qed.
(** Half of a wavelength changes the sign of the wave. *)
Definition sign (n : Z) : R := if Z.even n then 1 else -1.
Lemma sign_add m n : sign (m + n) = sign m * sign n.
Proof. unfold sign. rewrite Z.even_add. destruct (Z.even m), (Z.even n); cbn; lra. Qed.
Lemma cos_half x z : cos (x + PI * IZR z) = sign z * cos x.
Proof.
  unfold sign. destruct (Z.even z) eqn:E.
  - apply Z.even_spec in E. destruct E as [m ->]. rewrite mult_IZR. replace (x + PI * (2 * IZR m)) with (x + 2 * PI * IZR m) by ring. rewrite (proj1 (cos_whole x m)). ring.
  - rewrite <- Z.negb_odd in E. apply negb_false_iff in E. apply Z.odd_spec in E. destruct E as [m ->]. rewrite plus_IZR, mult_IZR. replace (x + PI * (2 * IZR m + 1)) with (x + PI + 2 * PI * IZR m) by ring. rewrite (proj1 (cos_whole (x + PI) m)), neg_cos. ring.
Qed.
(** Points which differ by multiples of halves of wavelengths, the sum of which is even. *)
Definition step (k : axis -> nat) (o r : vec) (u : axis -> Z) : Prop := Z.even (u AX + u AY + u AZ) = true /\ forall a, (0 < k a)%nat -> 2 * INR (k a) * (vget r a - vget o a) = IZR (u a).
Definition related (k : axis -> nat) (o r : vec) : Prop := exists u, (forall a, k a = 0%nat -> u a = 0%Z) /\ step k o r u.
Lemma related_modulation k f s o r : related k o r -> modulation k f s r = modulation k f s o.
Proof.
  intros (u & U0 & Ue & U). unfold modulation. apply Rsum_ext. intros p _.
  assert (W : forall a, wave_at k r (place s p) a = sign (u a) * wave_at k o (place s p) a).
  { intros a. unfold wave_at. destruct (k a) eqn:E.
    - rewrite (U0 a E). cbn [INR]. rewrite !Rmult_0_r, !Rmult_0_l, cos_0. unfold sign. cbn. ring.
    - rewrite <- E. rewrite <- cos_half. f_equal. rewrite <- (U a) by lia. ring. }
  rewrite !W. assert (S1 : sign (u AX) * sign (u AY) * sign (u AZ) = 1) by (rewrite <- !sign_add; unfold sign; rewrite Ue; reflexivity).
  transitivity (sign (u AX) * sign (u AY) * sign (u AZ) * (component f 0 (snd p) * (wave_at k o (place s p) AX * wave_at k o (place s p) AY * wave_at k o (place s p) AZ))); [ring|]. rewrite S1. ring.
Qed.
Lemma related_refl k o : related k o o. Proof. exists (fun _ => 0%Z). split; [reflexivity|]. split; [reflexivity|]. intros a _. ring. Qed.
Lemma in_shifts k i j l : In (i, j, l) (shifts k) <-> (i < Nat.max (2 * k AX) 1)%nat /\ (j < Nat.max (2 * k AY) 1)%nat /\ (l < Nat.max (2 * k AZ) 1)%nat /\ Nat.even (i + j + l) = true.
Proof.
  unfold shifts. rewrite in_flat_map. split.
  - intros (i' & I1 & H). apply in_flat_map in H. destruct H as (j' & J1 & H). apply in_flat_map in H. destruct H as (l' & L1 & H). apply in_seq in I1, J1, L1. destruct (Nat.even (i' + j' + l')) eqn:E; [|contradiction]. destruct H as [H|[]]. inversion H; subst. repeat split; (exact E || lia).
  - intros (I1 & J1 & L1 & E). exists i. split; [apply in_seq; lia|]. apply in_flat_map. exists j. split; [apply in_seq; lia|]. apply in_flat_map. exists l. split; [apply in_seq; lia|]. rewrite E. left. reflexivity.
Qed.
Definition pick (idx : nat * nat * nat) (a : axis) : nat := match a with AX => fst (fst idx) | AY => snd (fst idx) | AZ => snd idx end.
Lemma shifted_spec k o idx : exists c, whole c /\ in_unit (shifted k o idx) /\ forall a, vget (shifted k o idx) a = vget o a + (if (0 <? k a)%nat then INR (pick idx a) / INR (2 * k a) else 0) + vget c a.
Proof.
  destruct idx as [[i j] l]. unfold shifted. cbv zeta. rewrite unit_cube. set (o' := V3 _ _ _).
  assert (O : forall a, vget o' a = vget o a + (if (0 <? k a)%nat then INR (pick (i, j, l) a) / INR (2 * k a) else 0)) by (intros a; destruct a; unfold o'; cbn [vget pick fst snd vx vy vz]; match goal with |- context [(0 <? ?x)%nat] => destruct (0 <? x)%nat end; ring). exists (correction cube o'). split; [apply cube_lattice, correction_lattice|]. split; [apply cube_in, correction_in_box, cube_valid|].
  intros a. rewrite vget_vadd, O. reflexivity.
Qed.
Lemma IZR_even_double n m : Z.even (n + 2 * m) = Z.even n. Proof. rewrite Z.even_add, Z.even_mul. cbn. destruct (Z.even n); reflexivity. Qed.
Lemma shifted_related k o idx : in_unit o -> In idx (shifts k) -> related k o (shifted k o idx) /\ in_unit (shifted k o idx) /\ forall a, k a = 0%nat -> vget (shifted k o idx) a = vget o a.
Proof.
  intros Ho Hi. destruct (shifted_spec k o idx) as (c & Wc & Iu & E). split; [|split; [exact Iu|]].
  - destruct (Wc AX) as [cx CX], (Wc AY) as [cy CY], (Wc AZ) as [cz CZ]. set (cc := fun a => match a with AX => cx | AY => cy | AZ => cz end). assert (CC : forall a, vget c a = IZR (cc a)) by (intros []; assumption).
    exists (fun a => if (k a =? 0)%nat then 0%Z else (Z.of_nat (pick idx a) + 2 * (Z.of_nat (k a) * cc a))%Z). split; [intros a ->; reflexivity|]. split.
    + destruct idx as [[i j] l]. apply in_shifts in Hi. destruct Hi as (I1 & J1 & L1 & Ev). cbn [pick fst snd].
      assert (R0 : forall a n, (n < Nat.max (2 * k a) 1)%nat -> exists m, (if (k a =? 0)%nat then 0%Z else (Z.of_nat n + 2 * (Z.of_nat (k a) * cc a))%Z) = (Z.of_nat n + 2 * m)%Z).
      { intros a n Hn. destruct (k a =? 0)%nat eqn:E0; [apply Nat.eqb_eq in E0; exists 0%Z; lia|eexists; reflexivity]. }
      destruct (R0 AX i I1) as [m1 ->], (R0 AY j J1) as [m2 ->], (R0 AZ l L1) as [m3 ->]. replace (Z.of_nat i + 2 * m1 + (Z.of_nat j + 2 * m2) + (Z.of_nat l + 2 * m3))%Z with (Z.of_nat (i + j + l) + 2 * (m1 + m2 + m3))%Z by lia. rewrite IZR_even_double. apply Nat.even_spec in Ev. destruct Ev as [q ->]. apply Z.even_spec. exists (Z.of_nat q). lia.
    + intros a Ha. rewrite (proj2 (Nat.eqb_neq _ 0)) by lia. rewrite E. rewrite (proj2 (Nat.ltb_lt _ _)) by exact Ha. rewrite CC, plus_IZR, !mult_IZR, <- !INR_IZR_INZ, mult_INR. change (INR 2) with 2. field. apply not_0_INR. lia.
  - intros a Ka. specialize (E a). rewrite Ka in E. cbn [Nat.ltb Nat.leb] in E. destruct (Wc a) as [z Z1]. specialize (Iu a). specialize (Ho a). rewrite E, Z1 in Iu. assert (-1 < IZR z < 1) as [z1 z2] by lra. assert (z = 0%Z). { apply (lt_IZR (-1)) in z1. apply (lt_IZR _ 1) in z2. lia. } subst z. rewrite E, Z1. ring.
Qed.
(** All related points are shifted ones, up to whole vectors. *)
Lemma related_shifted k o r : related k o r -> (forall a, k a = 0%nat -> vget r a = vget o a) -> exists idx c, In idx (shifts k) /\ whole c /\ shifted k o idx = vadd r c.
Proof.
  intros (u & U0 & Ue & U) R0. set (n := fun a => Z.to_nat (if (k a =? 0)%nat then 0 else u a mod (2 * Z.of_nat (k a)))). exists (n AX, n AY, n AZ).
  assert (N : forall a, exists q, u a = (Z.of_nat (n a) + 2 * (Z.of_nat (k a) * q))%Z /\ (n a < Nat.max (2 * k a) 1)%nat).
  { intros a. unfold n. destruct (k a =? 0)%nat eqn:E.
    - apply Nat.eqb_eq in E. exists 0%Z. rewrite (U0 a E). change (Z.to_nat 0) with 0%nat. split; lia.
    - apply Nat.eqb_neq in E. exists (u a / (2 * Z.of_nat (k a)))%Z. pose proof (Z.div_mod (u a) (2 * Z.of_nat (k a)) ltac:(lia)). pose proof (Z.mod_pos_bound (u a) (2 * Z.of_nat (k a)) ltac:(lia)). rewrite Z2Nat.id by lia. split; lia. }
  destruct (shifted_spec k o (n AX, n AY, n AZ)) as (c & Wc & _ & E). exists (vsub (shifted k o (n AX, n AY, n AZ)) r). split; [|split].
  - apply in_shifts. destruct (N AX) as (q1 & Q1 & L1), (N AY) as (q2 & Q2 & L2), (N AZ) as (q3 & Q3 & L3). repeat split; try assumption. rewrite Q1, Q2, Q3 in Ue.
    replace (Z.of_nat (n AX) + 2 * (Z.of_nat (k AX) * q1) + (Z.of_nat (n AY) + 2 * (Z.of_nat (k AY) * q2)) + (Z.of_nat (n AZ) + 2 * (Z.of_nat (k AZ) * q3)))%Z with (Z.of_nat (n AX + n AY + n AZ) + 2 * (Z.of_nat (k AX) * q1 + Z.of_nat (k AY) * q2 + Z.of_nat (k AZ) * q3))%Z in Ue by lia. rewrite IZR_even_double in Ue. apply Z.even_spec in Ue. destruct Ue as [m Hm]. apply Nat.even_spec. exists (Z.to_nat m). lia.
  - intros a. rewrite vget_vsub, E. assert (P : pick (n AX, n AY, n AZ) a = n a) by (destruct a; reflexivity). rewrite P. destruct (Wc a) as [z Z1]. rewrite Z1. destruct (Nat.eq_dec (k a) 0) as [K|K].
    + rewrite K, (R0 a K). cbn [Nat.ltb Nat.leb]. exists z. ring.
    + rewrite (proj2 (Nat.ltb_lt 0 (k a))) by lia. destruct (N a) as (q & Q & _). exists (z - q)%Z. assert (K1 : 0 < INR (k a)) by (apply lt_0_INR; lia). specialize (U a ltac:(lia)). rewrite Q, plus_IZR, !mult_IZR, <- !INR_IZR_INZ in U. rewrite minus_IZR, mult_INR. change (INR 2) with 2. apply (Rmult_eq_reg_l (2 * INR (k a))); [|lra]. transitivity (2 * INR (k a) * (vget o a - vget r a) + INR (n a) + 2 * INR (k a) * IZR z); [field; lra|]. nra.
  - apply vec_ext; unfold vadd, vsub; cbn; ring.
Qed.
(** The closest candidate. *)
Lemma fold_closest {A} (g : A -> vec) (d : vec -> R) l : forall o, exists best, fold_left (fun b i => if Rltb (d (g i)) (snd b) then (g i, d (g i)) else b) l (o, d o) = (best, d best) /\ (best = o \/ exists i, In i l /\ best = g i) /\ d best <= d o /\ forall i, In i l -> d best <= d (g i).
Proof.
  induction l as [|x l IH]; intros o; cbn [fold_left snd].
  - exists o. repeat split; auto; [lra|intros i []].
  - destruct (Rltb (d (g x)) (d o)) eqn:E; [apply Rltb_true in E|apply Rltb_false in E].
    + destruct (IH (g x)) as (b & -> & B1 & B2 & B3). exists b. split; [reflexivity|]. split; [right; destruct B1 as [-> |(i & I1 & ->)]; [exists x|exists i]; split; auto; [left|right]; auto|]. split; [lra|]. intros i [<- |Hi]; [exact B2|auto].
    + destruct (IH o) as (b & -> & B1 & B2 & B3). exists b. split; [reflexivity|]. split; [destruct B1 as [-> |(i & I1 & ->)]; [left; reflexivity|right; exists i; split; [right|]; auto]|]. split; [lra|]. intros i [<- |Hi]; [lra|auto].
Qed.
Lemma normalized k previous o : in_unit o -> let b := normalizeOriginPos k previous o in
  in_unit b /\ related k o b /\ (forall a, k a = 0%nat -> vget b a = vget o a) /\
  exists l, whole l /\ forall r, related k o r -> (forall a, k a = 0%nat -> vget r a = vget o a) -> vnorm2 (vsub (vadd b l) previous) <= vnorm2 (vsub r previous).
Proof.
  intros Ho b. unfold b, normalizeOriginPos. destruct (fold_closest (shifted k o) (distance2 unit_box previous) (shifts k) o) as (best & -> & B1 & B2 & B3). cbn [fst].
  assert (G : related k o best /\ in_unit best /\ forall a, k a = 0%nat -> vget best a = vget o a) by (destruct B1 as [-> |(i & I1 & ->)]; [split; [apply related_refl|auto]|apply shifted_related; assumption]).
  destruct G as (G1 & G2 & G3). repeat split; try assumption; try apply G2. rewrite unit_cube in *. exists (translation cube previous best). split.
  - apply cube_lattice. unfold translation. rewrite cube_absolute. apply cube_lattice. intros a. rewrite vget_vmake. eexists; reflexivity.
  - intros r R1 R2. rewrite <- distance2_orthogonal by (exact cube_valid || exact cube_orthogonal). destruct (related_shifted k o r R1 R2) as (idx & c & I1 & Wc & E).
    eapply Rle_trans; [apply (B3 idx I1)|]. rewrite E. replace r with (vadd (vadd r c) (vneg c)) at 2 by (apply vec_ext; unfold vadd, vneg; cbn; ring). apply distance2_minimal; [exact cube_valid|exact cube_orthogonal|]. apply cube_lattice. intros a. destruct (Wc a) as [z Z1]. exists (- z)%Z. rewrite opp_IZR, <- Z1. destruct a; reflexivity.
Qed.
Lemma related_trans k o b r : related k o b -> related k b r -> related k o r.
Proof.
  intros (u & U0 & Ue & U) (v & V0 & Ve & V). exists (fun a => (u a + v a)%Z). split; [intros a Ka; rewrite U0, V0 by exact Ka; reflexivity|]. split.
  - replace (u AX + v AX + (u AY + v AY) + (u AZ + v AZ))%Z with ((u AX + u AY + u AZ) + (v AX + v AY + v AZ))%Z by lia. rewrite Z.even_add, Ue, Ve. reflexivity.
  - intros a Ka. rewrite plus_IZR, <- (U a Ka), <- (V a Ka). ring.
Qed.
Lemma copy_related k o r : copy k o r -> related k o r /\ forall a, k a = 0%nat -> vget r a = vget o a.
Proof.
  intros (u & Ue & U). split; [|intros a Ka; apply (U a), Ka]. exists u. split; [intros a Ka; apply (U a), Ka|]. split; [apply Z.even_spec; exact Ue|]. intros a Ka. rewrite (proj2 (U a) Ka). field. apply not_0_INR. lia.
Qed.
Lemma normalized_copy k previous o : in_unit o -> closest_copy k previous (normalizeOriginPos k previous o).
Proof.
  intros Ho. destruct (normalized k previous o Ho) as (_ & Rb & Zb & l & Wl & Near). exists l. split; [exact Wl|]. intros r Hr. apply copy_related in Hr. destruct Hr as [H1 H2]. apply Near; [exact (related_trans _ _ _ _ Rb H1)|]. intros a Ka. rewrite H2, Zb by exact Ka. reflexivity.
Qed.
