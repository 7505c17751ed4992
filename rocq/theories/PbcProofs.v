From Coq Require Import Reals ZArith Lra Lia Psatz.
From Verif Require Import GeomModel BoxModel PbcModel PbcTotalModel BoxSpec PbcSpec RFloorModel GeomProofs BoxProofs RFloorProofs.
Open Scope R_scope.

(** Generic facts about loops. *)
Lemma while_add_mono fuel fuel' cond d c r :
  while_add fuel cond d c = Some r -> (fuel <= fuel')%nat -> while_add fuel' cond d c = Some r.
Proof.
  revert fuel' c. induction fuel as [|fuel IH]; intros fuel' c H Hle.
  - simpl in H. destruct (cond c) eqn:E; [discriminate|]. destruct fuel'; simpl; rewrite E; auto.
  - simpl in H. destruct fuel' as [|fuel']; [lia|]. simpl. destruct (cond c) eqn:E; auto.
    apply IH; auto. lia.
Qed.

Lemma while_add_step n cond d c :
  (forall k, (k < n)%nat -> cond (c + INR k * d) = true) -> cond (c + INR n * d) = false ->
  while_add n cond d c = Some (c + INR n * d).
Proof.
  revert c. induction n as [|n IH]; intros c Ht Hf.
  - simpl in *. replace (c + 0 * d) with c in * by ring. rewrite Hf. reflexivity.
  - cbn [while_add]. pose proof (Ht O ltac:(lia)) as H0. simpl INR in H0.
    replace (c + 0 * d) with c in H0 by ring. rewrite H0.
    rewrite IH.
    + f_equal. rewrite S_INR. ring.
    + intros k Hk. rewrite <- (Ht (S k)) by lia. f_equal. rewrite S_INR. ring.
    + rewrite <- Hf. f_equal. rewrite S_INR. ring.
Qed.

Lemma terminates_fun {A} (prog : nat -> option A) r r' :
  terminates_with prog r -> terminates_with prog r' -> r = r'.
Proof.
  intros [n Hn] [m Hm]. specialize (Hn (Nat.max n m) ltac:(lia)). specialize (Hm (Nat.max n m) ltac:(lia)). congruence.
Qed.

Lemma while_terminates cond d c n :
  (forall k, (k < n)%nat -> cond (c + INR k * d) = true) -> cond (c + INR n * d) = false ->
  terminates_with (fun fuel => while_add fuel cond d c) (c + INR n * d).
Proof.
  intros Ht Hf. exists n. intros fuel Hle.
  eapply while_add_mono; [apply while_add_step; auto|auto].
Qed.

Lemma while_terminates' cond d c r n : r = c + INR n * d ->
  (forall k, (k < n)%nat -> cond (c + INR k * d) = true) -> cond (c + INR n * d) = false ->
  terminates_with (fun fuel => while_add fuel cond d c) r.
Proof. intros ->. apply while_terminates. Qed.

Lemma terminates_bind {A B} (p : nat -> option A) (q : nat -> A -> option B) x y :
  terminates_with p x -> terminates_with (fun fuel => q fuel x) y ->
  terminates_with (fun fuel => obind (p fuel) (q fuel)) y.
Proof.
  intros [n Hn] [m Hm]. exists (Nat.max n m). intros fuel Hle.
  rewrite Hn by lia. simpl. apply Hm; lia.
Qed.
Lemma terminates_ret {A} (x : A) : terminates_with (fun _ => Some x) x.
Proof. exists O; auto. Qed.
Lemma terminates_for (f : nat -> axis -> option R) v :
  (forall a, terminates_with (fun fuel => f fuel a) (vget v a)) ->
  terminates_with (fun fuel => for_axes (f fuel)) v.
Proof.
  intros H. destruct v as [x y z]. unfold for_axes.
  apply (terminates_bind _ (fun fuel x => obind (f fuel AY) (fun y => obind (f fuel AZ) (fun z => Some (V3 x y z)))) x _ (H AX)).
  apply (terminates_bind _ (fun fuel y => obind (f fuel AZ) (fun z => Some (V3 x y z))) y _ (H AY)).
  apply (terminates_bind _ (fun fuel z => Some (V3 x y z)) z _ (H AZ)).
  apply terminates_ret.
Qed.

(** The correction loop computes [- floor]. *)
Lemma INR_Zabs z : (0 <= z)%Z -> INR (Z.to_nat z) = IZR z.
Proof. intros H. rewrite INR_IZR_INZ, Z2Nat.id; auto. Qed.

Lemma correction_axis_floor p :
  terminates_with (fun fuel => correction_axis fuel p) (IZR (- Rfl p)).
Proof.
  pose proof (Rfl_spec p) as Hp. unfold correction_axis.
  destruct (Z_lt_le_dec (Rfl p) 0) as [Hn|Hn].
  - set (n := Z.to_nat (- Rfl p)).
    assert (HI : INR n = IZR (- Rfl p)) by (apply INR_Zabs; lia).
    rewrite opp_IZR in *.
    apply (terminates_bind _ (fun fuel c => while_add fuel (fun c => Rleb 1 (p + c)) (-1) c) (0 + INR n * 1)).
    + apply while_terminates.
      * intros k Hk. apply Rltb_true. assert (INR k + 1 <= INR n) by (rewrite <- S_INR; apply le_INR; lia). lra.
      * apply Rltb_false. lra.
    + replace (- IZR (Rfl p)) with ((0 + INR n * 1) + INR 0 * -1) by (simpl INR; lra).
      apply while_terminates; [intros; lia|]. apply Rleb_false. simpl INR; lra.
  - set (n := Z.to_nat (Rfl p)).
    assert (HI : INR n = IZR (Rfl p)) by (apply INR_Zabs; lia).
    rewrite opp_IZR in *.
    apply IZR_le in Hn.
    apply (terminates_bind _ (fun fuel c => while_add fuel (fun c => Rleb 1 (p + c)) (-1) c) (0 + INR 0 * 1)).
    + apply while_terminates; [intros; lia|]. apply Rltb_false. simpl INR. lra.
    + replace (- IZR (Rfl p)) with ((0 + INR 0 * 1) + INR n * -1) by (simpl INR; lra).
      apply while_terminates.
      * intros k Hk. apply Rleb_true. simpl INR.
        assert (INR k + 1 <= INR n) by (rewrite <- S_INR; apply le_INR; lia). lra.
      * apply Rleb_false. simpl INR. lra.
Qed.

(** Total versions used by the other models. *)

Lemma getCorrection_terminates b p : terminates_with (fun fuel => getCorrection fuel b p) (correction b p).
Proof.
  unfold getCorrection.
  apply (terminates_bind _ (fun _ c => Some (relativeToAbsolute b c)) (correction_rel (absoluteToRelative b p))).
  - apply terminates_for. intros a. unfold correction_rel. rewrite vget_vmake. apply correction_axis_floor.
  - apply terminates_ret.
Qed.

Lemma r2a_lattice b i j k : relativeToAbsolute b (V3 (IZR i) (IZR j) (IZR k)) = lattice_vector b i j k.
Proof. unfold lattice_vector. rewrite !side_col. unfold relativeToAbsolute. vec_ring. Qed.
Lemma a2r_lattice b i j k : valid_box b -> absoluteToRelative b (lattice_vector b i j k) = V3 (IZR i) (IZR j) (IZR k).
Proof. intros H. rewrite <- r2a_lattice. apply rel_abs, H. Qed.

Lemma correction_lattice b p : is_lattice_vector b (correction b p).
Proof. unfold correction, correction_rel, vmake. do 3 eexists. apply r2a_lattice. Qed.

Lemma correction_in_box b p : valid_box b -> in_box b (vadd p (correction b p)).
Proof.
  intros H a. rewrite a2r_add. unfold correction. rewrite rel_abs by auto.
  rewrite vget_vadd. unfold correction_rel. rewrite vget_vmake, opp_IZR.
  pose proof (Rfl_spec (vget (absoluteToRelative b p) a)). lra.
Qed.

Lemma in_box_correction_zero b p : valid_box b -> in_box b p -> correction b p = vzero.
Proof.
  intros H Hin. unfold correction.
  replace (correction_rel (absoluteToRelative b p)) with vzero.
  - unfold relativeToAbsolute. apply mvec_zero.
  - symmetry. apply vec_ext_axis. intros a. unfold correction_rel. rewrite vget_vmake.
    rewrite (Rfl_unique _ 0%Z). 
    + destruct a; reflexivity.
    + specialize (Hin a). lra.
Qed.

Lemma in_box_lattice_unique b p l1 l2 : valid_box b ->
  is_lattice_vector b l1 -> is_lattice_vector b l2 ->
  in_box b (vadd p l1) -> in_box b (vadd p l2) -> l1 = l2.
Proof.
  intros H (i1&j1&k1&->) (i2&j2&k2&->) H1 H2.
  assert (Hz : forall (x : R) (z1 z2 : Z), 0 <= x + IZR z1 < 1 -> 0 <= x + IZR z2 < 1 -> z1 = z2).
  { intros x z1 z2 A B. assert (IZR z1 < IZR z2 + 1) as A1 by lra. assert (IZR z2 < IZR z1 + 1) as A2 by lra.
    rewrite <- plus_IZR in A1, A2. apply lt_IZR in A1. apply lt_IZR in A2. lia. }
  assert (forall a, vget (V3 (IZR i1) (IZR j1) (IZR k1)) a = vget (V3 (IZR i2) (IZR j2) (IZR k2)) a) as Ha.
  { intros a. specialize (H1 a). specialize (H2 a). rewrite a2r_add, a2r_lattice, vget_vadd in H1, H2 by auto.
    destruct a; simpl in *; f_equal; eapply Hz; eauto. }
  pose proof (Ha AX) as E1. pose proof (Ha AY) as E2. pose proof (Ha AZ) as E3. simpl in *.
  unfold lattice_vector. rewrite E1, E2, E3. reflexivity.
Qed.

(** Translation loop. *)

Lemma translation_axis_spec p1 p2 :
  terminates_with (fun fuel => translation_axis fuel p1 p2) (IZR (trans_z (p2 - p1))).
Proof.
  unfold translation_axis, trans_z. set (d := p2 - p1).
  assert (Hd : forall t, p2 + t - p1 = d + t) by (intros; unfold d; ring).
  destruct (Rlt_dec (1/2) d) as [H1|H1].
  - pose proof (Rce_spec (d - 1/2)) as Hc. set (n := Rce (d - 1/2)) in *.
    assert (0 < n)%Z by (apply lt_IZR; lra).
    assert (HI : INR (Z.to_nat n) = IZR n) by (apply INR_Zabs; lia).
    apply (terminates_bind _ (fun fuel c => while_add fuel (fun t => Rltb (p2 + t - p1) (-1/2)) 1 c)
             (0 + INR (Z.to_nat n) * -1)).
    + apply while_terminates.
      * intros k Hk. apply Rltb_true. rewrite Hd.
        assert (INR k + 1 <= INR (Z.to_nat n)) by (rewrite <- S_INR; apply le_INR; lia). lra.
      * apply Rltb_false. rewrite Hd. lra.
    + rewrite opp_IZR. replace (- IZR n) with (0 + INR (Z.to_nat n) * -1 + INR 0 * 1) by (simpl INR; lra).
      apply while_terminates; [intros; lia|]. apply Rltb_false. rewrite Hd. simpl INR. lra.
  - apply (terminates_bind _ (fun fuel c => while_add fuel (fun t => Rltb (p2 + t - p1) (-1/2)) 1 c)
             (0 + INR 0 * -1)).
    + apply while_terminates; [intros; lia|]. apply Rltb_false. rewrite Hd. simpl INR. lra.
    + destruct (Rlt_dec d (-1/2)) as [H2|H2].
      * pose proof (Rce_spec (- d - 1/2)) as Hc. set (n := Rce (- d - 1/2)) in *.
        assert (0 < n)%Z by (apply lt_IZR; lra).
        assert (HI : INR (Z.to_nat n) = IZR n) by (apply INR_Zabs; lia).
        replace (IZR n) with (0 + INR 0 * -1 + INR (Z.to_nat n) * 1) by (simpl INR; lra).
        apply while_terminates.
        -- intros k Hk. apply Rltb_true. rewrite Hd. simpl INR.
           assert (INR k + 1 <= INR (Z.to_nat n)) by (rewrite <- S_INR; apply le_INR; lia). lra.
        -- apply Rltb_false. rewrite Hd. simpl INR. lra.
      * apply (while_terminates' _ _ _ _ O); [simpl INR; ring|intros; lia|].
        apply Rltb_false. rewrite Hd. simpl INR. lra.
Qed.

Lemma trans_z_half d : -1/2 <= d + IZR (trans_z d) <= 1/2.
Proof.
  unfold trans_z. destruct (Rlt_dec (1/2) d); [|destruct (Rlt_dec d (-1/2))].
  - rewrite opp_IZR. pose proof (Rce_spec (d - 1/2)). lra.
  - pose proof (Rce_spec (- d - 1/2)). lra.
  - simpl. lra.
Qed.


Lemma getTranslation_terminates b p1 p2 :
  terminates_with (fun fuel => getTranslation fuel b p1 p2) (translation b p1 p2).
Proof.
  unfold getTranslation.
  apply (terminates_bind _ (fun _ c => Some (relativeToAbsolute b c))
    (vmake (fun a => IZR (trans_z (vget (absoluteToRelative b p2) a - vget (absoluteToRelative b p1) a))))).
  - apply terminates_for. intros a. rewrite vget_vmake. apply translation_axis_spec.
  - apply terminates_ret.
Qed.

Lemma translation_lattice b p1 p2 : is_lattice_vector b (translation b p1 p2).
Proof. unfold translation, vmake. do 3 eexists. apply r2a_lattice. Qed.

Lemma translation_half b p1 p2 a : valid_box b ->
  Rabs (vget (absoluteToRelative b (vsub (vadd p2 (translation b p1 p2)) p1)) a) <= 1/2.
Proof.
  intros H. rewrite a2r_sub, a2r_add. unfold translation. rewrite rel_abs by auto.
  rewrite vget_vsub, vget_vadd, vget_vmake.
  pose proof (trans_z_half (vget (absoluteToRelative b p2) a - vget (absoluteToRelative b p1) a)).
  apply Rabs_le. lra.
Qed.

Lemma half_minimal x z : Rabs x <= 1/2 -> Rabs x <= Rabs (x + IZR z).
Proof.
  intros H. destruct (Z.eq_dec z 0) as [->|Hz].
  - rewrite Rplus_0_r. lra.
  - assert (1 <= Rabs (IZR z)).
    { rewrite <- abs_IZR. apply IZR_le. lia. }
    pose proof (Rabs_triang (x + IZR z) (- x)) as Ht.
    replace (x + IZR z + - x) with (IZR z) in Ht by ring. rewrite Rabs_Ropp in Ht. lra.
Qed.

Lemma translation_minimal b p1 p2 l a : valid_box b -> is_lattice_vector b l ->
  Rabs (vget (absoluteToRelative b (vsub (vadd p2 (translation b p1 p2)) p1)) a) <=
  Rabs (vget (absoluteToRelative b (vsub (vadd p2 l) p1)) a).
Proof.
  intros H Hl.
  pose proof (translation_half b p1 p2 a H) as Hh.
  destruct (translation_lattice b p1 p2) as (i1&j1&k1&E1). destruct Hl as (i2&j2&k2&E2).
  set (x := vget (absoluteToRelative b (vsub (vadd p2 (translation b p1 p2)) p1)) a) in *.
  assert (exists z, vget (absoluteToRelative b (vsub (vadd p2 l) p1)) a = x + IZR z) as [z ->].
  { unfold x. rewrite E1, E2, !a2r_sub, !a2r_add, !a2r_lattice by auto.
    exists (match a with AX => i2 - i1 | AY => j2 - j1 | AZ => k2 - k1 end)%Z.
    destruct a; simpl; rewrite minus_IZR; ring. }
  apply half_minimal, Hh.
Qed.

Lemma translation_shift b p1 p2 d : translation b (vadd p1 d) (vadd p2 d) = translation b p1 p2.
Proof.
  unfold translation. f_equal. apply vec_ext_axis. intros a. rewrite !vget_vmake, !a2r_add, !vget_vadd.
  f_equal. f_equal. ring.
Qed.

(** Distance loop. *)
Lemma distance_axis_spec p1 p2 :
  terminates_with (fun fuel => distance_axis fuel p1 p2) (Rabs (p2 - p1) - IZR (dist_z (Rabs (p2 - p1)))).
Proof.
  unfold distance_axis, dist_z. set (d := Rabs (p2 - p1)).
  destruct (Rlt_dec (1/2) d) as [H1|H1].
  - pose proof (Rce_spec (d - 1/2)) as Hc. set (n := Rce (d - 1/2)) in *.
    assert (0 < n)%Z by (apply lt_IZR; lra).
    assert (HI : INR (Z.to_nat n) = IZR n) by (apply INR_Zabs; lia).
    replace (d - IZR n) with (d + INR (Z.to_nat n) * -1) by lra.
    apply while_terminates.
    + intros k Hk. apply Rltb_true.
      assert (INR k + 1 <= INR (Z.to_nat n)) by (rewrite <- S_INR; apply le_INR; lia). lra.
    + apply Rltb_false. lra.
  - apply (while_terminates' _ _ _ _ O); [simpl INR; ring|intros; lia|]. apply Rltb_false. simpl INR. lra.
Qed.


Lemma getDistance2_terminates b p1 p2 :
  terminates_with (fun fuel => getDistance2 fuel b p1 p2) (distance2 b p1 p2).
Proof.
  unfold getDistance2.
  apply (terminates_bind _ (fun _ c => Some (vnorm2 (relativeToAbsolute b c)))
           (dist_rel (absoluteToRelative b p1) (absoluteToRelative b p2))).
  - apply terminates_for. intros a. unfold dist_rel. rewrite vget_vmake. apply distance_axis_spec.
  - apply terminates_ret.
Qed.

(** Up to sign the relative distance is the relative displacement to the chosen image. *)
Lemma dist_trans_sq d :
  (Rabs d - IZR (dist_z (Rabs d))) * (Rabs d - IZR (dist_z (Rabs d))) =
  (d + IZR (trans_z d)) * (d + IZR (trans_z d)).
Proof.
  unfold dist_z, trans_z. destruct (Rle_lt_dec 0 d) as [Hd|Hd].
  - rewrite Rabs_pos_eq by auto. destruct (Rlt_dec (1/2) d).
    + rewrite opp_IZR. reflexivity.
    + destruct (Rlt_dec d (-1/2)); [lra|]. simpl. ring.
  - rewrite Rabs_left by auto. destruct (Rlt_dec (1/2) d); [lra|].
    destruct (Rlt_dec (1/2) (-d)), (Rlt_dec d (-1/2)); lra.
Qed.

Lemma norm2_orthogonal b r : orthogonal_sides b ->
  vnorm2 (relativeToAbsolute b r) =
  vx r * vx r * vnorm2 (box_side b AX) + vy r * vy r * vnorm2 (box_side b AY) + vz r * vz r * vnorm2 (box_side b AZ).
Proof.
  unfold orthogonal_sides. rewrite !side_col. intros (H1&H2&H3).
  unfold vdot in H1, H2, H3. simpl in H1, H2, H3. unfold vnorm2, vdot, relativeToAbsolute; simpl.
  set (D := dims b) in *.
  transitivity (vx r * vx r * (m00 D * m00 D + m10 D * m10 D + m20 D * m20 D) +
     vy r * vy r * (m01 D * m01 D + m11 D * m11 D + m21 D * m21 D) +
     vz r * vz r * (m02 D * m02 D + m12 D * m12 D + m22 D * m22 D)
     + 2 * (vx r * vy r) * (m00 D * m01 D + m10 D * m11 D + m20 D * m21 D)
     + 2 * (vy r * vz r) * (m01 D * m02 D + m11 D * m12 D + m21 D * m22 D)
     + 2 * (vz r * vx r) * (m02 D * m00 D + m12 D * m10 D + m22 D * m20 D)); [ring|].
  rewrite H1, H2, H3. ring.
Qed.

Lemma distance2_orthogonal b p1 p2 : valid_box b -> orthogonal_sides b ->
  distance2 b p1 p2 = vnorm2 (vsub (vadd p2 (translation b p1 p2)) p1).
Proof.
  intros Hv Ho. unfold distance2. rewrite norm2_orthogonal by auto.
  rewrite <- (abs_rel b (vsub (vadd p2 (translation b p1 p2)) p1)) by auto.
  rewrite norm2_orthogonal by auto.
  rewrite a2r_sub, a2r_add. unfold translation. rewrite rel_abs by auto.
  set (r1 := absoluteToRelative b p1). set (r2 := absoluteToRelative b p2).
  pose proof (dist_trans_sq (vx r2 - vx r1)) as Ex.
  pose proof (dist_trans_sq (vy r2 - vy r1)) as Ey.
  pose proof (dist_trans_sq (vz r2 - vz r1)) as Ez.
  unfold dist_rel. cbn [vx vy vz vmake vget vadd vsub].
  rewrite Ex, Ey, Ez. ring.
Qed.

(** In an orthogonal box the distance is the least over all images. *)
Lemma distance2_minimal b p1 p2 l : valid_box b -> orthogonal_sides b -> is_lattice_vector b l ->
  distance2 b p1 p2 <= vnorm2 (vsub (vadd p2 l) p1).
Proof.
  intros Hv Ho Hl. rewrite distance2_orthogonal by auto.
  rewrite <- (abs_rel b (vsub (vadd p2 (translation b p1 p2)) p1)) by auto.
  rewrite <- (abs_rel b (vsub (vadd p2 l) p1)) by auto.
  rewrite !norm2_orthogonal by auto.
  pose proof (fun a => translation_minimal b p1 p2 l a Hv Hl) as Hm.
  set (u := absoluteToRelative b (vsub (vadd p2 (translation b p1 p2)) p1)) in *.
  set (w := absoluteToRelative b (vsub (vadd p2 l) p1)) in *.
  assert (Hs : forall a, vget u a * vget u a <= vget w a * vget w a).
  { intros a. apply Rsqr_le_abs_1. apply Hm. }
  pose proof (Hs AX) as Hx. pose proof (Hs AY) as Hy. pose proof (Hs AZ) as Hz. simpl in Hx, Hy, Hz.
  repeat apply Rplus_le_compat; apply Rmult_le_compat_r; auto; apply vnorm2_nonneg.
Qed.

(** A triclinic box for which the distance is wrong. *)
Definition skew_matrix : mat := M33 1 (1/2) 0  0 1 0  0 0 1.
Definition skew_inv : mat := M33 1 (-1/2) 0  0 1 0  0 0 1.
Definition skew_box : box := Box skew_matrix skew_inv.
Lemma skew_valid : valid_box skew_box.
Proof.
  unfold valid_box, skew_box, minverse; cbn [dims invdims].
  replace (mdet skew_matrix) with 1 by (unfold mdet, skew_matrix; simpl; lra).
  destruct (Reqb 1 0) eqn:E; [apply Reqb_true in E; lra|].
  f_equal. unfold mmake, mminor, skew_matrix, skew_inv; simpl. f_equal; field.
Qed.

Lemma getDistance2_triclinic_wrong :
  exists b p1 p2 d, valid_box b /\ in_box b p1 /\ in_box b p2 /\
    terminates_with (fun fuel => getDistance2 fuel b p1 p2) d /\
    d > vnorm2 (vsub (vadd p2 (translation b p1 p2)) p1).
Proof.
  (* relative positions (0.4, 0, 0) and (0, 0.4, 0): displacement (-0.4, 0.4, 0) but distance uses (0.4, 0.4, 0) *)
  exists skew_box, (V3 (2/5) 0 0), (V3 (1/5) (2/5) 0), (distance2 skew_box (V3 (2/5) 0 0) (V3 (1/5) (2/5) 0)).
  split; [exact skew_valid|].
  split. { intros []; simpl; lra. }
  split. { intros []; simpl; lra. }
  split. { apply getDistance2_terminates. }
  unfold distance2, translation, dist_rel, absoluteToRelative, relativeToAbsolute, skew_box, skew_inv, skew_matrix.
  unfold vnorm2, vdot. simpl.
  replace (1 * (1 / 5) + -1 / 2 * (2 / 5) + 0 * 0 - (1 * (2 / 5) + -1 / 2 * 0 + 0 * 0)) with (-2/5) by field.
  replace (0 * (1 / 5) + 1 * (2 / 5) + 0 * 0 - (0 * (2 / 5) + 1 * 0 + 0 * 0)) with (2/5) by field.
  replace (0 * (1 / 5) + 0 * (2 / 5) + 1 * 0 - (0 * (2 / 5) + 0 * 0 + 1 * 0)) with 0 by field.
  rewrite Rabs_R0, (Rabs_left (-2/5)), (Rabs_pos_eq (2/5)) by lra.
  unfold dist_z, trans_z.
  repeat match goal with |- context[Rlt_dec ?a ?b] => destruct (Rlt_dec a b); try lra end.
Qed.

Lemma shape_translate_terminates b t s :
  terminates_with (fun fuel => shape_translate fuel b t s)
    (Shape (vadd (vadd (sh_pos s) t) (correction b (vadd (sh_pos s) t))) (sh_rot s)).
Proof.
  unfold shape_translate.
  apply (terminates_bind _ (fun _ c => Some (Shape (vadd (vadd (sh_pos s) t) c) (sh_rot s)))
           (correction b (vadd (sh_pos s) t))).
  - apply getCorrection_terminates.
  - apply terminates_ret.
Qed.

(** Statements as used in the property file. *)
Lemma correction_property b p : constructed b ->
  exists c, terminates_with (fun fuel => getCorrection fuel b p) c /\ is_lattice_vector b c /\
            in_box b (vadd p c) /\ (in_box b p -> c = vzero).
Proof.
  intros H. apply constructed_valid in H. exists (correction b p). repeat split.
  - apply getCorrection_terminates.
  - apply correction_lattice.
  - apply correction_in_box; auto.
  - apply correction_in_box; auto.
  - apply in_box_correction_zero, H.
Qed.

Lemma correction_unique b p l1 l2 : constructed b -> is_lattice_vector b l1 -> is_lattice_vector b l2 ->
  in_box b (vadd p l1) -> in_box b (vadd p l2) -> l1 = l2.
Proof. intros H. apply in_box_lattice_unique, constructed_valid, H. Qed.

Lemma translation_zero b p1 p2 : valid_box b ->
  (forall a, Rabs (vget (absoluteToRelative b (vsub p2 p1)) a) <= 1/2) -> translation b p1 p2 = vzero.
Proof.
  intros H Ha. unfold translation.
  replace (vmake (fun a => IZR (trans_z (vget (absoluteToRelative b p2) a - vget (absoluteToRelative b p1) a))))
    with vzero; [apply mvec_zero|].
  apply vec_ext_axis. intros a. rewrite vget_vmake. specialize (Ha a). rewrite a2r_sub, vget_vsub in Ha.
  unfold trans_z.
  assert (-1/2 <= vget (absoluteToRelative b p2) a - vget (absoluteToRelative b p1) a <= 1/2) as Hb.
  { unfold Rabs in Ha. destruct (Rcase_abs _); lra. }
  destruct (Rlt_dec _ _); [lra|]. destruct (Rlt_dec _ _); [lra|]. destruct a; reflexivity.
Qed.

Lemma translation_property b p1 p2 : constructed b ->
  exists t, terminates_with (fun fuel => getTranslation fuel b p1 p2) t /\ is_lattice_vector b t /\
    (forall a, Rabs (vget (absoluteToRelative b (vsub (vadd p2 t) p1)) a) <= 1/2) /\
    (forall a l, is_lattice_vector b l ->
       Rabs (vget (absoluteToRelative b (vsub (vadd p2 t) p1)) a) <=
       Rabs (vget (absoluteToRelative b (vsub (vadd p2 l) p1)) a)) /\
    (forall d, terminates_with (fun fuel => getTranslation fuel b (vadd p1 d) (vadd p2 d)) t) /\
    ((forall a, Rabs (vget (absoluteToRelative b (vsub p2 p1)) a) <= 1/2) -> t = vzero).
Proof.
  intros H. apply constructed_valid in H. exists (translation b p1 p2). repeat split.
  - apply getTranslation_terminates.
  - apply translation_lattice.
  - intros; apply translation_half, H.
  - intros; apply translation_minimal; auto.
  - intros d. rewrite <- (translation_shift b p1 p2 d). apply getTranslation_terminates.
  - apply translation_zero, H.
Qed.

Lemma distance_property_orthogonal b p1 p2 : constructed b -> orthogonal_sides b ->
  exists d t, terminates_with (fun fuel => getDistance2 fuel b p1 p2) d /\
    terminates_with (fun fuel => getTranslation fuel b p1 p2) t /\
    d = vnorm2 (vsub (vadd p2 t) p1) /\
    (forall l, is_lattice_vector b l -> d <= vnorm2 (vsub (vadd p2 l) p1)).
Proof.
  intros H Ho. apply constructed_valid in H. exists (distance2 b p1 p2), (translation b p1 p2).
  split; [apply getDistance2_terminates|]. split; [apply getTranslation_terminates|].
  split; [apply distance2_orthogonal; auto|]. intros; apply distance2_minimal; auto.
Qed.

Lemma distance_refuted :
  exists b p1 p2 d t, constructed b /\ in_box b p1 /\ in_box b p2 /\
    terminates_with (fun fuel => getDistance2 fuel b p1 p2) d /\
    terminates_with (fun fuel => getTranslation fuel b p1 p2) t /\
    vnorm2 (vsub (vadd p2 t) p1) < d.
Proof.
  destruct getDistance2_triclinic_wrong as (b&p1&p2&d&Hv&H1&H2&Hd&Hl).
  exists b, p1, p2, d, (translation b p1 p2). split; [apply constructed_valid, Hv|].
  repeat split; auto; try apply H1; try apply H2. apply getTranslation_terminates.
Qed.

Lemma translate_property b t s : constructed b ->
  exists s', terminates_with (fun fuel => shape_translate fuel b t s) s' /\ in_box b (sh_pos s') /\
    is_lattice_vector b (vsub (sh_pos s') (vadd (sh_pos s) t)) /\ sh_rot s' = sh_rot s.
Proof.
  intros H. apply constructed_valid in H. eexists. split; [apply shape_translate_terminates|]. simpl.
  split; [apply correction_in_box, H|]. split; auto.
  destruct (correction_lattice b (vadd (sh_pos s) t)) as (i&j&k&E). exists i, j, k. rewrite <- E. vec_ring.
Qed.
