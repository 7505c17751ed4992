From Coq Require Import Reals ZArith List Bool Arith Lia Lra Psatz.
From Coquelicot Require Import Coquelicot.
From Verif Require Import TextModel TextProofs GeomModel GeomProofs PbcModel PackSpec ShapesModel XcSpec GeoModel GeoSpec GeoProofs GeoShapesProofs GeoAxisProofs VolSpec VolProofs BeadsModel BeadsSpec BeadsProofs BeadsChainProofs OptModel.
Import ListNotations.
Open Scope R_scope.

(** The spheres of a lollipop *)
Definition sticks (m : nat) (z rs ps rt pt : R) : list bead := kmer_loop m z rs (2 * rs - ps) ++ [Bead (V3 0 0 (z + INR (m - 1) * (2 * rs - ps) + (rs + rt - pt))) rt].
Lemma stick_loop_is m z rs ps : (1 <= m)%nat -> stick_loop m z rs ps = (kmer_loop m z rs (2 * rs - ps), z + INR (m - 1) * (2 * rs - ps)).
Proof. intros H. destruct m as [|m]; [lia|]. rewrite stick_is. replace (S m - 1)%nat with m by lia. reflexivity. Qed.
Lemma sticks_moved o m z rs ps rt pt : moved o (sticks m z rs ps rt pt) = sticks m (z - o) rs ps rt pt.
Proof. unfold sticks. unfold moved. rewrite map_app. fold (moved o (kmer_loop m z rs (2 * rs - ps))). rewrite kmer_moved. f_equal. cbn. f_equal. f_equal. apply vec_ext; cbn; ring. Qed.
Lemma sticks_length m z rs ps rt pt : length (sticks m z rs ps rt pt) = S m. Proof. unfold sticks. rewrite app_length, kmer_length. cbn. lia. Qed.
Lemma sticks_stick m z rs ps rt pt i : (i < m)%nat -> nth_error (sticks m z rs ps rt pt) i = Some (Bead (V3 0 0 (z + INR i * (2 * rs - ps))) rs).
Proof. intros H. unfold sticks. rewrite nth_error_app1 by (rewrite kmer_length; exact H). apply kmer_nth_some. exact H. Qed.
Lemma sticks_tip m z rs ps rt pt : nth_error (sticks m z rs ps rt pt) m = Some (Bead (V3 0 0 (z + INR (m - 1) * (2 * rs - ps) + (rs + rt - pt))) rt).
Proof. unfold sticks. rewrite nth_error_app2 by (rewrite kmer_length; lia). rewrite kmer_length, Nat.sub_diag. reflexivity. Qed.
Lemma sticks_nth m z rs ps rt pt i b : nth_error (sticks m z rs ps rt pt) i = Some b -> ((i < m)%nat /\ b = Bead (V3 0 0 (z + INR i * (2 * rs - ps))) rs) \/ (i = m /\ b = Bead (V3 0 0 (z + INR (m - 1) * (2 * rs - ps) + (rs + rt - pt))) rt).
Proof.
  intros H. destruct (Nat.lt_trichotomy i m) as [L|[->|L]].
  - left. rewrite sticks_stick in H by exact L. injection H as <-. auto.
  - right. rewrite sticks_tip in H. injection H as <-. auto.
  - assert (nth_error (sticks m z rs ps rt pt) i = None) by (apply nth_error_None; rewrite sticks_length; lia). congruence.
Qed.
Lemma sticks_axis m z rs ps rt pt : 0 < rs -> 0 < rt -> on_axis (sticks m z rs ps rt pt).
Proof. intros P Q b I. apply in_nth in I. destruct I as (i&I). apply sticks_nth in I. destruct I as [(_&->)|(_&->)]; cbn; auto. Qed.
Lemma Rsum_app {A} (f : A -> R) l k : Rsum f (l ++ k) = Rsum f l + Rsum f k.
Proof. unfold Rsum. induction l as [|x l IH]; cbn [app fold_right]; [ring|]. rewrite IH. ring. Qed.
Lemma kmer_Rsum f n : forall z r d, Rsum (fun b => f (bd_radius b)) (kmer_loop n z r d) = INR n * f r.
Proof. induction n as [|n IH]; intros; [cbn; ring|]. cbn [kmer_loop]. unfold Rsum in *. cbn [fold_right bd_radius]. rewrite IH, S_INR. ring. Qed.
Definition reported (m : nat) (rs ps rt pt : R) : R := 4 / 3 * rt ^ 3 + (INR m * (4 / 3 * rs ^ 3) - INR (m - 1) * kmeet rs (2 * rs - ps)) - meet (0, rs) (rs + rt - pt, rt).
Lemma lollipop_volume_spec m z rs ps rt pt : (1 <= m)%nat -> 0 < rs -> 0 < rt -> ps < 2 * rs -> pt < 2 * rs -> pt < 2 * rt -> lollipop_volume (sticks m z rs ps rt pt) ps pt = Some (PI * reported m rs ps rt pt).
Proof.
  intros M P Q A B C. unfold lollipop_volume. rewrite sum_volumes_spec, sticks_length.
  assert (SV : Rsum (fun d => 4 / 3 * bd_radius d ^ 3) (sticks m z rs ps rt pt) = INR m * (4 / 3 * rs ^ 3) + 4 / 3 * rt ^ 3) by (unfold sticks; rewrite Rsum_app, (kmer_Rsum (fun r => 4 / 3 * r ^ 3)); unfold Rsum; cbn; ring). rewrite SV.
  replace (S m - 1)%nat with m by lia. replace (S m - 2)%nat with (m - 1)%nat by lia. rewrite sticks_tip, sticks_stick by lia. cbn [obind bd_radius bd_pos vz].
  replace (bd_radius (hd (Bead vzero 0) (sticks m z rs ps rt pt))) with rs by (unfold sticks; destruct m; [lia|reflexivity]).
  set (base := PI * _). assert (BS : (if Rltb 0 ps then capVolume <- sphericalCap rs (ps / 2) ;; Some (base - 2 * INR (m - 1) * capVolume) else Some base) = Some (base - PI * (INR (m - 1) * kmeet rs (2 * rs - ps)))).
  { destruct (Rltb 0 ps) eqn:E; [apply Rltb_true in E|apply Rltb_false in E].
    - destruct (kmer_cap rs (2 * rs - ps) P ltac:(lra) ltac:(lra)) as (cap&CE&CC). replace (rs - (2 * rs - ps) / 2) with (ps / 2) in CE by field. rewrite CE. cbn [obind]. f_equal. replace (2 * INR (m - 1) * cap) with (INR (m - 1) * (2 * cap)) by ring. rewrite CC. ring.
    - unfold kmeet. rewrite (proj2 (Rltb_false _ _)) by lra. f_equal. ring. }
  rewrite BS. cbn [obind]. unfold reported. clear BS. subst base.
  destruct (Rltb 0 pt) eqn:E; [apply Rltb_true in E|apply Rltb_false in E].
  - replace (z + INR (m - 1) * (2 * rs - ps) + (rs + rt - pt) - (z + INR (m - 1) * (2 * rs - ps))) with (rs + rt - pt - 0) by ring. rewrite (intersection_formula 0 (rs + rt - pt) rt rs). rewrite !(proj2 (Rltb_true _ _)), (proj2 (Rleb_true _ _)) by lra. cbn [andb obind]. f_equal.
    rewrite lens_sym. unfold meet. cbn [fst snd]. rewrite (proj2 (Rltb_true _ _)) by lra. ring.
  - f_equal. unfold meet. cbn [fst snd]. rewrite (proj2 (Rltb_false _ _)) by lra. ring.
Qed.
Lemma meet_shift z a r1 r2 : meet (z, r1) (z + a, r2) = meet (0, r1) (a, r2).
Proof. unfold meet, lens. cbn [fst snd]. replace (z + a - z) with a by ring. rewrite Rminus_0_r. reflexivity. Qed.
Lemma tip_parts m z rs ps rt pt : (1 <= m)%nat -> 0 < rs -> 0 < rt -> ps < 2 * rs -> pt < 2 * rs -> pt < 2 * rt ->
  let next := Bead (V3 0 0 (z + INR (m - 1) * (2 * rs - ps))) rs in let tip := Bead (V3 0 0 (z + INR (m - 1) * (2 * rs - ps) + (rs + rt - pt))) rt in
  In (zb next) (map zb (kmer_loop m z rs (2 * rs - ps))) /\ whole (cut (zb tip)) (4 / 3 * rt ^ 3) /\ whole (env (map zb (kmer_loop m z rs (2 * rs - ps)))) (INR m * (4 / 3 * rs ^ 3) - INR (m - 1) * kmeet rs (2 * rs - ps)) /\
  whole (fun y => Rmin (cut (zb tip) y) (cut (zb next) y)) (meet (0, rs) (rs + rt - pt, rt)).
Proof.
  intros M P Q A B C next tip. split; [|split; [|split]].
  - apply in_map. apply (nth_error_In _ (m - 1)). apply kmer_nth_some. lia.
  - apply (ball_int (zb tip)). exact Q.
  - destruct m as [|m]; [lia|]. replace (S m - 1)%nat with m by lia. rewrite <- (kmer_sum m rs (2 * rs - ps) z). cbn [kmer_loop map]. change (zb (Bead (V3 0 0 z) rs)) with (z, rs). apply (chain_int z). apply kmer_chain; lra.
  - apply whole_ext with (fun y => Rmin (cut (zb next) y) (cut (zb tip) y)); [intros; apply Rmin_comm|]. rewrite <- (meet_shift (z + INR (m - 1) * (2 * rs - ps))). apply (meet_int (zb next) (zb tip)); [exact P|exact Q|]. unfold reaches, next, tip. cbn [zb fst snd bd_pos bd_radius vz].
    split; [lra|]. apply Rabs_le. lra.
Qed.
Lemma sticks_env m z rs ps rt pt y : env (zb (Bead (V3 0 0 (z + INR (m - 1) * (2 * rs - ps) + (rs + rt - pt))) rt) :: map zb (kmer_loop m z rs (2 * rs - ps))) y = env (map zb (sticks m z rs ps rt pt)) y.
Proof. apply env_same. intros a. unfold sticks. rewrite map_app, in_app_iff. cbn [map In]. tauto. Qed.
Lemma lollipop_true_volume m z rs ps rt pt : (1 <= m)%nat -> 0 < rs -> 0 < rt -> ps < 2 * rs -> pt < 2 * rs -> pt < 2 * rt -> tip_clear (sticks m z rs ps rt pt) ->
  volume (beads_body (sticks m z rs ps rt pt)) (PI * reported m rs ps rt pt).
Proof.
  intros M P Q A B C T. apply beads_volume_of; [apply sticks_axis; assumption|]. destruct (tip_parts m z rs ps rt pt M P Q A B C) as (I&V&W&X). set (next := Bead (V3 0 0 (z + INR (m - 1) * (2 * rs - ps))) rs) in *. set (tip := Bead (V3 0 0 (z + INR (m - 1) * (2 * rs - ps) + (rs + rt - pt))) rt) in *.
  apply whole_ext with (env (zb tip :: map zb (kmer_loop m z rs (2 * rs - ps)))); [intros; apply sticks_env|]. unfold reported. apply (env_add (zb tip) (zb next)); auto. intros y.
  destruct (env_one (map zb (kmer_loop m z rs (2 * rs - ps))) y) as [->|(a&IA&E)]; [eapply Rle_trans; [apply Rmin_r|apply cut_pos]|]. rewrite E.
  unfold cut at 1. destruct (Rle_or_lt (sq (zb tip) y) 0) as [N|N]; [rewrite Rmax_left by exact N; eapply Rle_trans; [apply Rmin_l|apply cut_pos]|]. rewrite Rmax_right by lra.
  destruct (Rle_or_lt (sq a y) 0) as [N'|N']; [eapply Rle_trans; [apply Rmin_r|]; eapply Rle_trans; [exact N'|apply cut_pos]|].
  set (q := Rmin (sq (zb tip) y) (sq a y)). assert (q <= sq (zb tip) y /\ q <= sq a y /\ 0 < q) as (Q1&Q2&Q3) by (unfold q; split; [apply Rmin_l|split; [apply Rmin_r|apply Rmin_glb_lt; assumption]]).
  assert (SQ : sqrt q ^ 2 + 0 ^ 2 = q) by (rewrite pow_i, Rplus_0_r by lia; rewrite <- Rsqr_pow2; apply Rsqr_sqrt; lra).
  apply in_map_iff in IA. destruct IA as (d&<-&IA). apply in_nth in IA. destruct IA as (i&IA). apply kmer_nth in IA. destruct IA as (ED&LI).
  assert (G : in_ball (bd_pos next) (bd_radius next) (V3 (sqrt q) 0 y)).
  { apply (T tip next) with (i := i) (d := d).
    - rewrite sticks_length. replace (S m - 1)%nat with m by lia. apply sticks_tip.
    - rewrite sticks_length. replace (S m - 2)%nat with (m - 1)%nat by lia. apply sticks_stick. lia.
    - apply (bead_in tip (sqrt q) 0 y eq_refl eq_refl Q). rewrite SQ. exact Q1.
    - rewrite sticks_length. lia.
    - rewrite sticks_stick by exact LI. f_equal. symmetry. exact ED.
    - rewrite ED in Q2 |- *. apply (bead_in (Bead (V3 0 0 (z + INR i * (2 * rs - ps))) rs) (sqrt q) 0 y eq_refl eq_refl P). rewrite SQ. exact Q2. }
  apply (bead_in next (sqrt q) 0 y eq_refl eq_refl P) in G. rewrite SQ in G. eapply Rle_trans; [exact G|]. apply Rmax_r.
Qed.
Lemma shallow_clear m z rs ps rt pt : (1 <= m)%nat -> 0 < rs -> 0 < rt -> ps < 2 * rs -> m = 1%nat \/ pt <= 2 * rs - ps / 2 -> tip_clear (sticks m z rs ps rt pt).
Proof.
  intros M P Q A SH tip next ET EN y YT i d LI ED YD. rewrite sticks_length in *. replace (S m - 1)%nat with m in ET by lia. replace (S m - 2)%nat with (m - 1)%nat in EN by lia. rewrite sticks_tip in ET. rewrite sticks_stick in EN, ED by lia. injection ET as <-. injection EN as <-. injection ED as <-.
  cbn [bd_pos bd_radius] in *. destruct y as [x y w]. rewrite zball_in in * by assumption. unfold sq in *. cbn [fst snd] in *. set (D := 2 * rs - ps) in *. set (b := z + INR (m - 1) * D) in *. set (a := z + INR i * D) in *.
  destruct (Nat.eq_dec i (m - 1)) as [->|NI]; [exact YD|]. destruct SH as [SH|SH]; [lia|].
  assert (b - a >= D). { unfold a, b. assert (INR (m - 1) >= INR i + 1) by (rewrite <- S_INR; apply Rle_ge, le_INR; lia). assert (0 < D) by (unfold D; lra). nra. }
  assert (0 < D) by (unfold D; lra). assert (w >= b + rs - pt) by nra. assert (w >= b - D / 2) by (unfold D in *; lra). assert ((w - b) ^ 2 <= (w - a) ^ 2) by nra. lra.
Qed.
Lemma lollipop_spec n rs rt ps pt :
  ((exists g, lollipop_geometry n rs rt ps pt = Some g) <-> (2 <= n)%nat /\ 0 < rs /\ 0 < rt /\ ps < 2 * rs /\ pt < 2 * rs /\ pt < 2 * rt) /\
  forall g, lollipop_geometry n rs rt ps pt = Some g ->
    length (g_data g) = n /\ (forall i b, nth_error (g_data g) i = Some b -> bd_radius b = if Nat.eqb (S i) n then rt else rs) /\ along_z (g_data g) /\
    spaced (g_data g) (fun i _ _ => if Nat.eqb (S (S i)) n then rs + rt - pt else 2 * rs - ps) /\ centred (g_data g) /\ g_primary g = Some (V3 0 0 1) /\ g_secondary g = None /\ g_origin g = vzero /\
    (tip_clear (g_data g) -> volume (beads_body (g_data g)) (g_volume g)) /\
    (n = 2%nat \/ pt <= 2 * rs - ps / 2 -> tip_clear (g_data g)) /\
    exists e c, ends (g_data g) [115; 115]%Z [115; 116]%Z e /\ (ps = 0 /\ pt = 0 -> exists m, middle (g_data g) m /\ c = [([99; 109]%Z, m)]) /\ (~ (ps = 0 /\ pt = 0) -> c = []) /\
      forall name v, getNamedPoint g name = Some v <-> point_called (bead_point (g_data g)) vzero (e ++ c) name v.
Proof.
  unfold lollipop_geometry. destruct (Nat.leb 2 n) eqn:N; [apply Nat.leb_le in N|apply Nat.leb_gt in N; cbn [andb]; split; [split; [intros (?&?); discriminate|lia]|discriminate]].
  destruct (Rltb 0 rs) eqn:PS; [apply Rltb_true in PS|apply Rltb_false in PS; cbn [andb]; split; [split; [intros (?&?); discriminate|lra]|discriminate]].
  destruct (Rltb 0 rt) eqn:PT; [apply Rltb_true in PT|apply Rltb_false in PT; cbn [andb]; split; [split; [intros (?&?); discriminate|lra]|discriminate]].
  destruct (Rltb ps (2 * rs)) eqn:A; [apply Rltb_true in A|apply Rltb_false in A; cbn [andb]; split; [split; [intros (?&?); discriminate|lra]|discriminate]].
  destruct (Rltb pt (2 * Rmin rs rt)) eqn:M; [apply Rltb_true in M; apply Rmin_above in M; destruct M as (B&C)|apply Rltb_false in M; cbn [andb]; split; [split; [intros (?&?); discriminate|intros (_&_&_&_&X&Y); exfalso; assert (pt < 2 * Rmin rs rt) by (apply Rmin_above; auto); lra]|discriminate]].
  cbn [andb]. destruct n as [|m]; [lia|]. replace (S m - 1)%nat with m by lia. rewrite stick_loop_is by lia. cbv zeta. fold (sticks m 0 rs ps rt pt). rewrite shift_moved. set (o := (first_z _ + last_z _) / 2).
  assert (CE : centred (moved o (sticks m 0 rs ps rt pt))) by (unfold o; rewrite <- shift_moved; apply shift_centred). rewrite sticks_moved in *. rewrite lollipop_volume_spec by (lia || assumption). set (data := sticks m (0 - o) rs ps rt pt) in *.
  cbn [obind]. rewrite later_points. assert (L : length data = S m) by apply sticks_length. assert (ON : on_axis data) by (apply sticks_axis; assumption).
  assert (NE : data <> []) by (intros E; rewrite E in L; discriminate). assert (PF : List.Forall (fun d => 0 < bd_radius d) data) by (apply Forall_forall; intros b I; apply ON, I).
  destruct (nth_error data 0) as [b1|] eqn:F0; [|apply nth_error_None in F0; lia]. destruct (nth_error data (length data - 1)) as [b2|] eqn:Fn; [|apply nth_error_None in Fn; lia].
  rewrite (front_nth _ _ F0). unfold back_pos. rewrite (last_nth _ _ Fn). set (cm := if (Reqb ps 0 && Reqb pt 0)%bool then [(cm_name, calculateMassCentre data)] else []).
  assert (ZZ : (Reqb ps 0 && Reqb pt 0)%bool = true <-> ps = 0 /\ pt = 0) by (rewrite andb_true_iff, !Reqb_true; reflexivity).
  destruct (bead_shape data false (PI * reported m rs ps rt pt) ([(ss_name, bd_pos b1); (st_name, bd_pos b2)] ++ cm)) as (g&G&GA&GB&GC&O&V&Q).
  - exact NE.
  - exact PF.
  - unfold cm. destruct (_ && _)%bool; cbn; repeat constructor; cbn; intuition discriminate.
  - intros i. assert (X : names ([(ss_name, bd_pos b1); (st_name, bd_pos b2)] ++ cm) = ss_name :: st_name :: if (Reqb ps 0 && Reqb pt 0)%bool then [cm_name] else []) by (unfold cm; destruct (_ && _)%bool; reflexivity). rewrite X.
    intros [E|[E|E]]; [symmetry in E; revert E; apply other_digit; reflexivity..|]. destruct (_ && _)%bool; [destruct E as [E|[]]; symmetry in E; revert E; apply other_letter; discriminate|destruct E].
  - split; [split; [intros _; repeat split; auto|intros _; exists g; exact G]|]. intros g' G'. assert (g' = g) by congruence. subst g'. rewrite GA, GB, GC, O, V. split; [exact L|]. split; [|split; [|split; [|split; [exact CE|]]]].
    + intros i b E. apply sticks_nth in E. destruct E as [(E&->)|(->&->)]; cbn [bd_radius]; [rewrite (proj2 (Nat.eqb_neq _ _)) by lia; reflexivity|rewrite Nat.eqb_refl; reflexivity].
    + intros b I. specialize (ON b I). tauto.
    + intros i d1 d2 E1 E2. apply sticks_nth in E1, E2. destruct E1 as [(E1&->)|(->&->)], E2 as [(E2&->)|(E2&->)]; cbn [bd_pos vz]; try lia.
      * rewrite (proj2 (Nat.eqb_neq _ _)) by lia. rewrite S_INR. ring.
      * rewrite E2, Nat.eqb_refl. replace (m - 1)%nat with i by lia. ring.
    + split; [reflexivity|]. split; [reflexivity|]. split; [reflexivity|]. split; [|split].
      * apply lollipop_true_volume; (lia || assumption).
      * intros H. apply shallow_clear; try assumption; [lia|]. destruct H as [H|H]; [left; lia|right; exact H].
      * exists [([115; 115]%Z, bd_pos b1); ([115; 116]%Z, bd_pos b2)], cm. split; [exists b1, b2; auto|]. split; [|split; [|exact Q]]; intros E; unfold cm.
        -- rewrite (proj2 ZZ E). eexists. split; [apply mass_centre_middle; assumption|reflexivity].
        -- destruct (_ && _)%bool; [exfalso; apply E, ZZ; reflexivity|reflexivity].
Qed.

(** *** Refutations *)
Lemma nested_balls : exists v w, sphereIntersection 3 1 1 = Some v /\ volume (fun y => in_ball vzero 3 y /\ in_ball (V3 0 0 1) 1 y) w /\ v < 0 < w.
Proof.
  exists (PI / 12 / 1 * (3 + 1 - 1) ^ 2 * (1 * 1 + 2 * 1 * (3 + 1) - 3 * (3 - 1) ^ 2)), (PI * (4 / 3 * 1 ^ 3)). split; [|split].
  - unfold sphereIntersection. rewrite !(proj2 (Rltb_true _ _)), (proj2 (Rleb_true _ _)) by lra. reflexivity.
  - apply (whole_volume _ _ (fun z => PI * cut (1, 1) z) (Rabs 1 + 1)).
    + intros [x y z] (_&B). cbn [vz]. apply zball_in in B; [|lra]. apply (sq_bound (1, 1)); [cbn; lra|]. nra.
    + intros z. apply section_disk. intros x y. rewrite (zball_in 1) by lra. rewrite (zball_in 0) by lra. unfold sq. cbn [fst snd]. split; [tauto|]. intros H. split; [|exact H]. nra.
    + apply whole_scal. apply (ball_int (1, 1)). cbn. lra.
  - pose proof PI_RGT_0. split; nra.
Qed.
Lemma lollipop_refuted_at : exists g, lollipop_geometry 3 1 3 1 (7 / 4) = Some g /\ ~ volume (beads_body (g_data g)) (g_volume g).
Proof.
  unfold lollipop_geometry. change (3 - 1)%nat with 2%nat. rewrite stick_loop_is by lia. cbv zeta. fold (sticks 2 0 1 1 3 (7 / 4)). rewrite shift_moved.
  assert (OO : (first_z (sticks 2 0 1 1 3 (7 / 4)) + last_z (sticks 2 0 1 1 3 (7 / 4))) / 2 = 21 / 8) by (unfold sticks, first_z, last_z, front_pos, back_pos; cbn; field). rewrite OO, sticks_moved.
  rewrite lollipop_volume_spec by (lia || lra). assert (Rmin 1 3 = 1) as -> by (apply Rmin_left; lra). rewrite !(proj2 (Rltb_true _ _)) by lra. cbn [Nat.leb andb obind]. rewrite later_points. rewrite (proj2 (Reqb_false 1 0)) by lra. cbn [andb app].
  set (data := sticks 2 (0 - 21 / 8) 1 1 3 (7 / 4)). assert (ON : on_axis data) by (apply sticks_axis; lra).
  destruct (bead_shape data false (PI * reported 2 1 1 3 (7 / 4)) [(ss_name, front_pos data); (st_name, back_pos data)]) as (g&G&GA&_&_&_&V&_).
  - discriminate.
  - apply Forall_forall. intros b I. apply ON, I.
  - cbn. repeat constructor; cbn; intuition discriminate.
  - intros i. intros [E|[E|[]]]; symmetry in E; revert E; apply other_digit; reflexivity.
  - exists g. split; [exact G|]. rewrite GA, V. intros H. destruct (tip_parts 2 (0 - 21 / 8) 1 1 3 (7 / 4) ltac:(lia) ltac:(lra) ltac:(lra) ltac:(lra) ltac:(lra) ltac:(lra)) as (I&V1&W1&X1).
    set (stick := map zb (kmer_loop 2 (0 - 21 / 8) 1 (2 * 1 - 1))) in *.
    assert (W : whole (env (map zb data)) (reported 2 1 1 3 (7 / 4))).
    { pose proof (volume_whole _ _ _ (fun z => beads_section data z ON) H) as W. apply (whole_scal (/ PI)) in W. pose proof PI_RGT_0. apply (whole_eq _ (/ PI * (PI * reported 2 1 1 3 (7 / 4)))); [|field; lra]. apply (whole_ext (fun z => / PI * (PI * env (map zb data) z))); [intros; field; lra|exact W]. }
    pose proof (whole_minus _ _ _ _ (whole_minus _ _ _ _ (whole_plus _ _ _ _ V1 W1) W) X1) as Z. unfold reported in Z. match type of Z with whole _ ?v => replace v with 0 in Z by ring end.
    set (step := fun z => if Rltb z (-89 / 40) then 0 else if Rltb (-87 / 40) z then 0 else / 10).
    assert (SW : whole step (/ 200)).
    { apply (whole_piece step (-89 / 40) (-87 / 40)); [lra| |].
      - intros z [L|L]; unfold step; [rewrite (proj2 (Rltb_true z _)) by exact L; reflexivity|]. destruct (Rltb z _); [reflexivity|]. rewrite (proj2 (Rltb_true _ _)) by exact L. reflexivity.
      - apply (int_on (fun _ => / 10)); [lra| |pose proof (is_RInt_const (-89 / 40) (-87 / 40) (/ 10)) as K; apply (int_eq _ _ _ _ _ K)].
        + intros z L. unfold step. rewrite !(proj2 (Rltb_false _ _)) by lra. reflexivity.
        + change (( -87 / 40 - -89 / 40) * / 10 = / 200). field. }
    enough (/ 200 <= 0) by lra. apply (whole_le step _ _ _) with (2 := SW) (3 := Z). intros z. cbv beta.
    assert (EN : env (map zb data) z = Rmax (cut (zb (Bead (V3 0 0 (0 - 21 / 8 + INR (2 - 1) * (2 * 1 - 1) + (1 + 3 - 7 / 4))) 3)) z) (env stick z)) by (unfold data; rewrite <- sticks_env; reflexivity).
    rewrite EN. set (T := cut (zb (Bead _ 3)) z) in *. set (B := cut (zb (Bead _ 1)) z) in *. pose proof (env_ge _ _ z I) as GE. fold B in GE.
    assert (MM : T + env stick z - Rmax T (env stick z) - Rmin T B = Rmin T (env stick z) - Rmin T B) by (unfold Rmax, Rmin; repeat destruct (Rle_dec _ _); lra). rewrite MM.
    assert (NN : 0 <= Rmin T (env stick z) - Rmin T B) by (pose proof (Rle_min_compat_l _ _ T GE); lra).
    unfold step. destruct (Rltb z (-89 / 40)) eqn:L1; [exact NN|]. apply Rltb_false in L1. destruct (Rltb (-87 / 40) z) eqn:L2; [exact NN|]. apply Rltb_false in L2.
    assert (S0 : cut (0 - 21 / 8, 1) z <= env stick z) by (apply env_ge; left; reflexivity).
    assert (S0' : 319 / 400 <= cut (0 - 21 / 8, 1) z) by (unfold cut; eapply Rle_trans; [|apply Rmax_r]; unfold sq; cbn [fst snd]; nra).
    assert (TT : 319 / 400 <= T) by (unfold T, cut; eapply Rle_trans; [|apply Rmax_r]; unfold sq, zb; cbn [fst snd bd_pos bd_radius vz INR Nat.sub]; nra).
    assert (BB : B <= 279 / 400) by (unfold B, cut, sq, zb; cbn [fst snd bd_pos bd_radius vz INR Nat.sub]; apply Rmax_lub; [lra|nra]).
    assert (319 / 400 <= Rmin T (env stick z)) by (apply Rmin_glb; lra). pose proof (Rmin_r T B). lra.
Qed.
