From Coq Require Import Reals ZArith List Bool Arith Lia Lra Psatz Permutation.
From Verif Require Import TextModel TextProofs GeomModel GeomProofs PbcModel PackSpec SegSpec ShapesModel XcSpec GeoModel GeoSpec GeoProofs GeoShapesProofs VolSpec BeadsModel BeadsSpec BeadsProofs BeadsChainProofs BananaModel BananaSpec BananaProofs BananaShapeProofs OptModel.
Import ListNotations.
Open Scope R_scope.

Lemma indices_length n : (2 <= n)%nat -> length (legacy_indices n) = n.
Proof.
  intros N. unfold legacy_indices. rewrite map_length, seq_length. rewrite Z.quot_opp_l by lia. rewrite Z.quot_div_nonneg by lia. pose proof (Nat.div_mod n 2 ltac:(lia)) as D. pose proof (Nat.mod_upper_bound n 2 ltac:(lia)). change 2%Z with (Z.of_nat 2). rewrite <- Nat2Z.inj_div.
  destruct (Nat.even n) eqn:E; [apply Nat.even_spec in E; destruct E as (k&->)|assert (O : Nat.odd n = true) by (unfold Nat.odd; rewrite E; reflexivity); apply Nat.odd_spec in O; destruct O as (k&->)].
  - rewrite Nat.mul_comm, Nat.div_mul by lia. lia.
  - replace (2 * k + 1)%nat with (1 + k * 2)%nat by lia. rewrite Nat.div_add by lia. change (1 / 2)%nat with 0%nat. lia.
Qed.
Lemma indices_nth n i : (2 <= n)%nat -> (i < n)%nat -> nth_error (legacy_indices n) i = Some (Z.of_nat i - Z.of_nat (n / 2))%Z.
Proof.
  intros N L. pose proof (indices_length n N) as LE. unfold legacy_indices in *. rewrite map_length, seq_length in LE. rewrite nth_error_map, LE. rewrite (nth_error_nth' _ 0%nat) by (rewrite seq_length; exact L). rewrite seq_nth by exact L. cbn [option_map]. f_equal. rewrite Z.quot_opp_l by lia. rewrite Z.quot_div_nonneg by lia. rewrite Nat2Z.inj_div. change (Z.of_nat 2) with 2%Z. lia.
Qed.
Lemma geometry_is data p s o v : data <> [] -> List.Forall (fun d => 0 < bd_radius d) data -> vnorm p = 1 -> vnorm s = 1 ->
  exists p' s', polysphere_geometry data (Some p) (Some s) o (Some v) [] = Some (Geo data (Some p') (Some s') o v (bead_own data)) /\
   forall data' o', data' <> [] -> List.Forall (fun d => 0 < bd_radius d) data' -> polysphere_geometry data' (Some p) (Some s) o' (Some v) [] = Some (Geo data' (Some p') (Some s') o' v (bead_own data')).
Proof.
  intros NE PF UP US. destruct (axis_spec (Some p)) as (P1&_). destruct (P1 (unit_nonzero _ UP)) as (p'&EP&DP). pose proof (direction_unit _ _ UP DP) as ->. destruct (axis_spec (Some s)) as (S1&_). destruct (S1 (unit_nonzero _ US)) as (s'&ES&DS). pose proof (direction_unit _ _ US DS) as ->. exists p, s.
  assert (G : forall data' o', data' <> [] -> List.Forall (fun d => 0 < bd_radius d) data' -> polysphere_geometry data' (Some p) (Some s) o' (Some v) [] = Some (Geo data' (Some p) (Some s) o' v (bead_own data'))).
  { intros data' o' NE' PF'. unfold polysphere_geometry. rewrite (proj2 (positive_beads data') PF'). fold (bead_own data'). unfold make_geometry. rewrite EP, ES. cbn [obind]. destruct data' as [|d data']; [congruence|].
    assert (RG : registerNamedPoints [] (bead_own (d :: data')) = Some (bead_own (d :: data'))). { apply register_spec; [constructor|]. split; [apply (bead_own_distinct (d :: data'))|reflexivity]. }
    rewrite RG. reflexivity. }
  split; [apply G; assumption|exact G].
Qed.
Lemma own_moved m data : moveNamedPoints (vneg m) (bead_own data) = bead_own (map (fun d => Bead (vsub (bd_pos d) m) (bd_radius d)) data).
Proof.
  unfold moveNamedPoints, bead_own, indexed. rewrite map_map, map_length. generalize 0%nat. induction data as [|d data IH]; intros k; [reflexivity|]. cbn [map length seq combine]. apply (f_equal2 cons); [|apply IH]. cbn [fst snd bd_pos]. apply (f_equal2 pair); [reflexivity|]. apply vec_ext; cbn; ring.
Qed.
Lemma Rsum_mapped {A B} (f : B -> R) (h : A -> B) l : Rsum f (map h l) = Rsum (fun x => f (h x)) l. Proof. unfold Rsum. induction l as [|a l IH]; [reflexivity|]. cbn [map fold_right]. rewrite IH. reflexivity. Qed.
Lemma Rsum_rev {A} (f : A -> R) l : Rsum f (rev l) = Rsum f l.
Proof.
  assert (X : forall l1 l2, Rsum f (l1 ++ l2) = Rsum f l1 + Rsum f l2). { intros l1 l2. unfold Rsum. induction l1 as [|a l1 IH]; cbn [app fold_right]; [lra|]. rewrite IH. ring. }
  induction l as [|a l IH]; [reflexivity|]. cbn [rev]. rewrite X, IH. unfold Rsum. cbn [fold_right]. ring.
Qed.
Lemma same_nth {A} (l l' : list A) : (forall i, nth_error l i = nth_error l' i) -> l = l'.
Proof. revert l'. induction l as [|a l IH]; intros [|b l'] H; [reflexivity|specialize (H 0%nat); discriminate..|]. f_equal; [specialize (H 0%nat); injection H; auto|]. apply IH. intros i. apply (H (S i)). Qed.
Lemma seq_rev n : map (fun i => (n - 1 - i)%nat) (seq 0 n) = rev (seq 0 n).
Proof.
  induction n as [|n IH]; [reflexivity|]. rewrite seq_S at 2. rewrite rev_app_distr. cbn [rev app seq map]. f_equal; [lia|]. rewrite <- seq_shift, map_map, <- IH. apply map_ext. intros i. lia.
Qed.
Lemma antisymmetric_sum (h : nat -> R) n : (forall i, (i < n)%nat -> h (n - 1 - i)%nat = - h i) -> Rsum h (seq 0 n) = 0.
Proof.
  intros H. assert (E : Rsum h (seq 0 n) = - Rsum h (seq 0 n)).
  { rewrite <- Rsum_rev at 1. rewrite <- seq_rev. rewrite (Rsum_mapped). rewrite (Rsum_ext _ (fun i => -1 * h i)) by (intros i I; apply in_seq in I; rewrite H by lia; ring). rewrite Rsum_scale. ring. }
  lra.
Qed.
Definition flat_angle (A : R) (n i : nat) : R := (INR i - INR (n / 2)) * (A / INR (n - 1)).
Lemma legacy_spec R A n r :
  ((exists g, legacy_banana_geometry R A n r = Some g) <-> 0 < R /\ 0 < A /\ (2 <= n)%nat /\ 0 < r) /\
  forall g, legacy_banana_geometry R A n r = Some g -> exists c,
    length (g_data g) = n /\ (forall i, (i < n)%nat -> nth_error (g_data g) i = Some (Bead (on_flat_arc R c ((INR i - INR (n / 2)) * (A / INR (n - 1)))) r)) /\
    middle (g_data g) vzero /\ g_primary g = Some (V3 0 1 0) /\ g_secondary g = Some (V3 (-1) 0 0) /\ g_origin g = vzero /\ g_volume g = INR n * ball_volume r /\
    (Nat.Odd n -> forall i d1 d2, (i < n)%nat -> nth_error (g_data g) i = Some d1 -> nth_error (g_data g) (n - 1 - i) = Some d2 -> bd_pos d2 = V3 (vx (bd_pos d1)) (- vy (bd_pos d1)) (vz (bd_pos d1))) /\
    exists e, ends (g_data g) [98; 101; 103]%Z [101; 110; 100]%Z e /\
      forall name v, getNamedPoint g name = Some v <-> point_called (bead_point (g_data g)) vzero (([99; 109]%Z, vzero) :: e) name v.
Proof.
  unfold legacy_banana_geometry. apply cond_off.
  { rewrite !andb_true_iff, !Rltb_true, Nat.leb_le. tauto. }
  intros (R0&A0&n0&r0). cbv zeta. set (data := map _ (legacy_indices n)). set (v := INR n * 4 / 3 * PI * r ^ 3).
  assert (L : length data = n) by (unfold data; rewrite map_length; apply indices_length, n0).
  assert (DN : forall i, (i < n)%nat -> nth_error data i = Some (Bead (on_flat_arc R (V3 R 0 0) (flat_angle A n i)) r)).
  { intros i LI. unfold data. rewrite nth_error_map, indices_nth by assumption. cbn [option_map]. f_equal. f_equal. assert (E : IZR (- (Z.of_nat i - Z.of_nat (n / 2))) * (A / INR (n - 1)) = - flat_angle A n i) by (unfold flat_angle; rewrite opp_IZR, minus_IZR, <- !INR_IZR_INZ; ring). rewrite E. unfold on_flat_arc. apply vec_ext; cbn; rewrite ?sin_0, ?cos_0, ?sin_neg, ?cos_neg; ring. }
  assert (NE : data <> []) by (intros E; rewrite E in L; cbn in L; lia).
  assert (PF : List.Forall (fun d => 0 < bd_radius d) data). { apply Forall_forall. intros d I. apply In_nth_error in I. destruct I as (i&I). rewrite DN in I by (rewrite <- L; apply nth_error_Some; congruence). injection I as <-. exact r0. }
  assert (U1 : vnorm (V3 0 1 0) = 1) by (apply unit_norm; unfold vnorm2, vdot; cbn; ring). assert (U2 : vnorm (V3 (-1) 0 0) = 1) by (apply unit_norm; unfold vnorm2, vdot; cbn; ring).
  destruct (geometry_is data (V3 0 1 0) (V3 (-1) 0 0) vzero v NE PF U1 U2) as (p&s&GD&GO). set (m := calculateMassCentre data). set (data' := map (fun d => Bead (vsub (bd_pos d) m) (bd_radius d)) data).
  set (geo := polysphere_geometry data _ _ _ _ _). change geo with (polysphere_geometry data (Some (V3 0 1 0)) (Some (V3 (-1) 0 0)) vzero (Some v) []). rewrite GD. cbn [obind]. unfold normalizeMassCentre, setGeometricOrigin. cbn [g_data g_primary g_secondary g_origin g_volume g_points]. fold m. rewrite own_moved. fold data'.
  assert (L' : length data' = n) by (unfold data'; rewrite map_length; exact L). assert (NE' : data' <> []) by (intros E; rewrite E in L'; cbn in L'; lia).
  assert (PF' : List.Forall (fun d => 0 < bd_radius d) data') by (apply Forall_map; exact PF).
  assert (DN' : forall i, (i < n)%nat -> nth_error data' i = Some (Bead (on_flat_arc R (vsub (V3 R 0 0) m) (flat_angle A n i)) r)).
  { intros i LI. unfold data'. rewrite nth_error_map, DN by exact LI. cbn [option_map bd_pos bd_radius]. f_equal. f_equal. apply vec_ext; cbn; ring. }
  set (g1 := Geo data' _ _ _ _ _). assert (EG : Some g1 = polysphere_geometry data' (Some (V3 0 1 0)) (Some (V3 (-1) 0 0)) vzero (Some v) []) by (rewrite GO by assumption; reflexivity).
  set (b1 := Bead (on_flat_arc R (vsub (V3 R 0 0) m) (flat_angle A n 0)) r). set (b2 := Bead (on_flat_arc R (vsub (V3 R 0 0) m) (flat_angle A n (n - 1))) r).
  assert (F0 : nth_error data' 0 = Some b1) by (apply DN'; lia). assert (Fn : nth_error data' (length data' - 1) = Some b2) by (rewrite L'; apply DN'; lia).
  assert (EA : forall new, addCustomNamedPoints new g1 = polysphere_geometry data' (Some (V3 0 1 0)) (Some (V3 (-1) 0 0)) vzero (Some v) new). { intros new. pose proof (add_points data' (Some (V3 0 1 0)) (Some (V3 (-1) 0 0)) vzero (Some v) [] new) as X. rewrite <- EG in X. exact X. }
  rewrite EA. rewrite (front_nth _ _ F0). unfold back_pos. rewrite (last_nth _ _ Fn).
  destruct (spheres_shape data' (V3 0 1 0) (V3 (-1) 0 0) v [(cm_name, vzero); (beg_name, bd_pos b1); (end_name, bd_pos b2)] U1 U2 NE' PF') as (g&E&D&P1&P2&O&VG&Q).
  - cbn. repeat constructor; cbn; intuition discriminate.
  - intros i. cbn. intros H; repeat (destruct H as [H|H]; [symmetry in H; revert H; apply other_letter; discriminate|]); destruct H.
  - split; [split; [auto|intros _; exists g; exact E]|]. intros g' E'. assert (g' = g) by congruence. subst g'. exists (vsub (V3 R 0 0) m). rewrite D, P1, P2, O, VG.
    assert (MI : middle data' vzero).
    { intros a. unfold data'. rewrite Rsum_mapped. pose proof (mass_centre_middle data NE PF a) as X. fold m in X. rewrite <- X. apply Rsum_ext. intros d _. cbn [bd_pos bd_radius]. f_equal. destruct a; cbn; ring. }
    split; [exact L'|]. split; [exact DN'|]. split; [exact MI|]. split; [reflexivity|]. split; [reflexivity|]. split; [reflexivity|]. split; [unfold v, ball_volume; field|]. split.
    + intros (k&K) i d1 d2 LI E1 E2. rewrite DN' in E1 by exact LI. rewrite DN' in E2 by lia. injection E1 as <-. injection E2 as <-. cbn [bd_pos].
      assert (HK : (n / 2)%nat = k). { rewrite K. replace (2 * k + 1)%nat with (1 + k * 2)%nat by lia. rewrite Nat.div_add by lia. reflexivity. }
      assert (FA : forall j, (j < n)%nat -> flat_angle A n (n - 1 - j) = - flat_angle A n j). { intros j LJ. unfold flat_angle. rewrite HK. set (q := A / INR (n - 1)). rewrite minus_INR by lia. assert (NK : INR (n - 1) = INR k + INR k) by (rewrite <- plus_INR; f_equal; lia). rewrite NK. ring. }
      assert (MY : vy m = 0).
      { pose proof (MI AY) as Y. assert (EQ : data' = map (fun j => Bead (on_flat_arc R (vsub (V3 R 0 0) m) (flat_angle A n j)) r) (seq 0 n)).
        { apply same_nth. intros j. destruct (Nat.lt_ge_cases j n) as [LJ|LJ]; [|rewrite (proj2 (nth_error_None _ _)) by (rewrite L'; exact LJ); symmetry; apply nth_error_None; rewrite map_length, seq_length; exact LJ]. rewrite DN' by exact LJ. rewrite nth_error_map, (nth_error_nth' _ 0%nat) by (rewrite seq_length; exact LJ). rewrite seq_nth by exact LJ. reflexivity. }
        rewrite EQ, Rsum_mapped in Y. cbn [bd_pos bd_radius] in Y. rewrite (Rsum_ext _ (fun j => ball_volume r * (R * sin (flat_angle A n j)) + ball_volume r * - vy m * 1)) in Y by (intros; unfold on_flat_arc; cbn; ring). rewrite Rsum_add, Rsum_scale in Y.
        rewrite (Rsum_scale (fun _ => 1) (ball_volume r * - vy m)) in Y. rewrite (antisymmetric_sum (fun j => R * sin (flat_angle A n j))) in Y by (intros j LJ; rewrite FA by exact LJ; rewrite sin_neg; ring).
        assert (C : Rsum (fun _ : nat => 1) (seq 0 n) = INR n). { clear. rewrite <- (seq_length n 0) at 2. generalize (seq 0 n). intros l. induction l as [|a l IH]; [reflexivity|]. unfold Rsum in *. cbn [fold_right length]. rewrite IH, S_INR. ring. }
        rewrite C in Y. assert (2 <= INR n) by (apply (le_INR 2); lia). assert (0 < ball_volume r) by (unfold ball_volume; pose proof PI_RGT_0; apply Rmult_lt_0_compat; [lra|apply pow_lt; exact r0]).
        assert (Z : ball_volume r * INR n * vy m = 0) by lra. apply Rmult_integral in Z. destruct Z as [Z|Z]; [nra|exact Z]. }
      rewrite FA by exact LI. apply vec_ext; unfold on_flat_arc; cbn [ vadd vsub vx vy vz]; rewrite ?cos_neg, ?sin_neg, ?MY; ring.
    + exists [([98; 101; 103]%Z, bd_pos b1); ([101; 110; 100]%Z, bd_pos b2)]. split; [|exact Q]. exists b1, b2. auto.
Qed.
Lemma legacy_even : exists g d1 d2, legacy_banana_geometry 1 (PI / 2) 2 1 = Some g /\ nth_error (g_data g) 0 = Some d1 /\ nth_error (g_data g) 1 = Some d2 /\ vx (bd_pos d1) <> vx (bd_pos d2).
Proof.
  destruct (legacy_spec 1 (PI / 2) 2 1) as (X&Y). destruct (proj2 X) as (g&G); [pose proof PI_RGT_0; repeat split; try lra; lia|]. destruct (Y g G) as (c&_&N&_). exists g. do 2 eexists. split; [exact G|]. split; [apply (N 0%nat); lia|]. split; [apply (N 1%nat); lia|]. cbn. replace ((1 - 1) * (PI / 2 / 1)) with 0 by lra. replace ((0 - 1) * (PI / 2 / 1)) with (- (PI / 2)) by lra. rewrite cos_neg, cos_PI2, cos_0. lra.
Qed.
