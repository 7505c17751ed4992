From Coq Require Import ZArith Reals List Bool Arith Permutation Sorting.Sorted Lra Lia Psatz.
From Verif Require Import TextModel GeomModel GeomProofs BoxModel BoxSpec BoxProofs PbcModel PbcTotalModel PbcSpec PbcProofs RFloorModel RFloorProofs LatticeModel LatticeSpec LatticeProofs LatticeNormProofs PackModel RotModel TransModel TransSpec TransProofs DistModel DistProofs ShrinkModel ShrinkSpec ShrinkProofs ShrinkCellProofs ShrinkLayerProofs ShrinkWholeProofs CorrExamples.
Import ListNotations.
Local Open Scope R_scope.

Definition one : idx3 := I3 1 1 1.
Definition column (ys : list R) : list shape := map (fun y => Shape (V3 0 0 y) mid) ys.
Definition tall (f : R) (b : box) : Prop := scaled cube (put (V3 1 1 1) AZ f) b.
Lemma cube_heights a : box_height cube a = 1.
Proof.
  assert (V : box_volume cube = 1). { unfold box_volume, box_side, relativeToAbsolute, cube, mvec, mid, vdot, vcross. cbn. match goal with |- Rabs ?x = 1 => replace x with 1 by ring end. apply Rabs_R1. }
  unfold box_height. rewrite V. unfold vnorm, vnorm2. destruct a; unfold box_face, box_side, relativeToAbsolute, cube, mvec, mid, vdot; cbn; (match goal with |- 1 / sqrt ?x = 1 => replace x with 1 by ring end); rewrite sqrt_1; field.
Qed.
Lemma tall_sides f b : tall f b -> box_side b AX = V3 1 0 0 /\ box_side b AY = V3 0 1 0 /\ box_side b AZ = V3 0 0 f.
Proof. intros [_ S0]. rewrite !S0. repeat split; apply vec_ext; cbn; ring. Qed.
Lemma tall_one : tall 1 cube.
Proof. split; [apply cube_constructed|]. intros []; apply vec_ext; cbn; ring. Qed.
Lemma zero_floor : Rfl 0 = 0%Z.
Proof. apply Rfl_unique. lra. Qed.
Lemma Rabs_sq x D : 0 <= D -> (x * x < D * D <-> Rabs x < D).
Proof.
  intros P. split; intros H.
  - apply Rnot_le_lt. intros L. assert (D * D <= Rabs x * Rabs x) by (apply Rmult_le_compat; lra). rewrite <- Rabs_mult, Rabs_pos_eq in H0 by nra. lra.
  - pose proof (Rabs_pos x). assert (Rabs x * Rabs x < D * D) by nra. rewrite <- Rabs_mult, Rabs_pos_eq in H1 by nra. exact H1.
Qed.
Lemma near f b y y' D : 0 < f -> tall f b -> 0 <= D ->
  (distance2 b (sh_pos (placed b (I3 0 0 0) (frac (Shape (V3 0 0 y) mid)))) (sh_pos (placed b (I3 0 0 0) (frac (Shape (V3 0 0 y') mid)))) < D * D <-> exists n : Z, Rabs (f * (y' - y + IZR n)) < D).
Proof.
  intros FP T DP. destruct (tall_sides f b T) as (SX&SY&SZ).
  assert (V : valid_box b) by (apply constructed_valid, T). assert (O : orthogonal_sides b) by (unfold orthogonal_sides; rewrite SX, SY, SZ; unfold vdot; cbn; repeat split; ring).
  unfold distance2, placed. cbn [sh_pos frac floors vsub vx vy vz ix iy iz]. rewrite !rel_abs by exact V. rewrite norm2_orthogonal by exact O. rewrite SX, SY, SZ. unfold dist_rel. cbn [vmake vget vx vy vz]. rewrite zero_floor. change (INR 0) with 0.
  replace (0 + (0 - 0) - (0 + (0 - 0))) with 0 by ring. rewrite Rabs_R0. assert (Z0 : dist_z 0 = 0%Z) by (unfold dist_z; destruct (Rlt_dec (1/2) 0); [lra|reflexivity]). rewrite Z0.
  set (w := 0 + (y' - IZR (Rfl y')) - (0 + (y - IZR (Rfl y)))). rewrite (dist_trans_sq w). pose proof (trans_z_half w) as HF.
  replace ((0 - 0) * (0 - 0) * vnorm2 (V3 1 0 0) + (0 - 0) * (0 - 0) * vnorm2 (V3 0 1 0) + (w + IZR (trans_z w)) * (w + IZR (trans_z w)) * vnorm2 (V3 0 0 f)) with ((f * (w + IZR (trans_z w))) * (f * (w + IZR (trans_z w)))) by (unfold vnorm2, vdot; cbn; ring).
  rewrite Rabs_sq by exact DP. split.
  - intros H. exists (trans_z w - Rfl y' + Rfl y)%Z. rewrite plus_IZR, minus_IZR. replace (y' - y + (IZR (trans_z w) - IZR (Rfl y') + IZR (Rfl y))) with (w + IZR (trans_z w)) by (unfold w; ring). exact H.
  - intros [n H]. eapply Rle_lt_trans; [|exact H]. rewrite !Rabs_mult. apply Rmult_le_compat_l; [apply Rabs_pos|].
    replace (y' - y + IZR n) with (w + IZR (trans_z w) + IZR (n + Rfl y' - Rfl y - trans_z w)) by (rewrite !minus_IZR, plus_IZR; unfold w; ring). apply half_minimal. apply Rabs_le. lra.
Qed.
(** Spheres of a column touch each other if their distance, modulo the height, is less than the diameter. *)
Definition pair_near (f D y y' : R) : Prop := exists n : Z, Rabs (f * (y' - y + IZR n)) < D.
Lemma column_overlaps f b D y0 y1 y2 : 0 < f -> tall f b -> 0 <= D ->
  (crystal_overlaps (spheres D) b one (column [y0; y1; y2]) <-> pair_near f D y0 y1 \/ pair_near f D y0 y2 \/ pair_near f D y1 y2).
Proof.
  intros FP T DP. assert (P : positive one) by (repeat split; cbn; lia). destruct (crystal_test_spec (spheres D) b one (column [y0; y1; y2]) (proj1 T) P) as [_ <-]. unfold crystal_test.
  destruct (regular_box b one (column [y0; y1; y2]) (proj1 T) P) as (lb&LB&SL). rewrite LB. assert (lb = b) as -> by (apply (scaled_unique b (sizes one)); [exact SL|]; split; [apply T|]; intros []; apply vec_ext; cbn; ring).
  change (grid one) with [I3 0 0 0]. unfold contents. cbn [flat_map column map app]. cbn [spheres existsb].
  rewrite !orb_true_iff. unfold pair_near. rewrite <- !(near f b _ _ D FP T DP).
  repeat match goal with |- context [if ?c then true else false] => destruct c end; intuition (try congruence; try lra).
Qed.
Definition zs3 : list R := [0; 2/5; 4/5].
Lemma zs3_coordinates : layer_coordinates AZ (column zs3) zs3.
Proof.
  split; [unfold zs3; repeat (constructor; try lra)|]. intros z. unfold column, zs3. cbn [map In]. split.
  - intros [<-|[<-|[<-|[]]]]; [exists (Shape (V3 0 0 0) mid)|exists (Shape (V3 0 0 (2/5)) mid)|exists (Shape (V3 0 0 (4/5)) mid)]; (split; [auto|reflexivity]).
  - intros (s&[<-|[<-|[<-|[]]]]&<-); cbn; auto.
Qed.
Lemma zs3_distinct : distinct_layers AZ (column zs3).
Proof.
  assert (X : / 10 ^ 10 <= 1/5) by (replace (1/5) with (/ 5) by field; apply Rinv_le_contravar; lra).
  intros s s' [<-|[<-|[<-|[]]]] [<-|[<-|[<-|[]]]]; cbn; try (left; reflexivity); right; (rewrite Rabs_pos_eq by lra; lra) || (rewrite Rabs_left by lra; lra).
Qed.
Lemma relayered_column y0 y1 y2 : relayered AZ zs3 [y0; y1; y2] (column zs3) = column [y0; y1; y2].
Proof.
  unfold relayered, column. unfold zs3 at 2. cbn [map sh_pos sh_rot vget vz put vx vy].
  assert (SZ : StronglySorted Rlt zs3) by apply zs3_coordinates.
  rewrite (below_nth zs3 0 0 SZ eq_refl), (below_nth zs3 1 (2/5) SZ eq_refl), (below_nth zs3 2 (4/5) SZ eq_refl). reflexivity.
Qed.
Lemma accuracy_small : 0 < accuracy < 1 / 1000.
Proof. unfold accuracy. split; [apply Rinv_0_lt_compat, pow_lt; lra|]. replace (1/1000) with (/ 1000) by field. apply Rinv_lt_contravar; [|]; cbn; lra. Qed.
Lemma near_bound f D y y' : 0 < f -> (forall n : Z, (n <= -2)%Z -> D <= f * - (y' - y + IZR n)) -> (forall n : Z, (1 <= n)%Z -> D <= f * (y' - y + IZR n)) -> pair_near f D y y' ->
  Rabs (f * (y' - y)) < D \/ Rabs (f * (y' - y - 1)) < D.
Proof.
  intros FP L H [n N]. destruct (Z.lt_trichotomy n 0) as [A|[->|A]].
  - destruct (Z.eq_dec n (-1)) as [->|B]; [right; replace (y' - y - 1) with (y' - y + IZR (-1)) by ring; exact N|]. specialize (L n ltac:(lia)). apply Rabs_def2 in N. lra.
  - left. replace (y' - y) with (y' - y + 0) by ring. exact N.
  - specialize (H n ltac:(lia)). apply Rabs_def2 in N. lra.
Qed.
(** In the cube, coordinates in [0, 1) *)
Lemma near_cube D y y' : D <= 1/2 -> 0 <= y < y' -> y' < 1 -> (pair_near 1 D y y' <-> y' - y < D \/ 1 - (y' - y) < D).
Proof.
  intros DH Y Y'. split.
  - intros N. apply near_bound in N; [|lra| |].
    + destruct N as [N|N]; apply Rabs_def2 in N; lra.
    + intros n L. apply IZR_le in L. lra.
    + intros n L. apply IZR_le in L. lra.
  - intros [N|N]; [exists 0%Z|exists (-1)%Z]; apply Rabs_def1; lra.
Qed.
Lemma first_layer y : 0 < y <= 2/5 -> (crystal_overlaps (spheres (1/10)) cube one (column [0; y; 4/5]) <-> y < 1/10).
Proof.
  intros Y. rewrite (column_overlaps 1 cube) by (apply tall_one || lra). rewrite !near_cube by lra. lra.
Qed.
Lemma second_layer y y' : 1/10 <= y < 11/100 -> 2/5 < y' <= 4/5 -> ~ crystal_overlaps (spheres (1/10)) cube one (column [0; y; y']).
Proof.
  intros Y Y'. rewrite (column_overlaps 1 cube) by (apply tall_one || lra). rewrite !near_cube by lra. lra.
Qed.
Lemma compressed_column ys : compressed (fun ys => crystal_overlaps (spheres (1/10)) cube one (relayered AZ zs3 ys (column zs3))) [0] 0 [2/5; 4/5] ys ->
  exists y y', ys = [0; y; y'] /\ 1/10 <= y <= 1/10 + 2 * accuracy /\ 2/5 <= y' <= 2/5 + 2 * accuracy.
Proof.
  intros H. pose proof accuracy_small as A. inversion H as [|? ? ? ? y ? Y N X H1]; subst. cbn [app] in *. rewrite relayered_column in N.
  assert (B : 1/10 <= y <= 1/10 + accuracy).
  { split.
    - apply Rnot_lt_le. intros L. apply N; [lra|]. apply first_layer; lra.
    - destruct X as [X|(y'&Y'&L&X)]; [lra|]. rewrite relayered_column in X. apply first_layer in X; lra. }
  inversion H1 as [|? ? ? ? y2 ? Y2 N2 X2 H2]; subst. cbn [app] in *.
  assert (B2 : y2 <= 2/5 + accuracy). { destruct X2 as [X2|(y'&Y'&L&X2)]; [lra|]. exfalso. rewrite relayered_column in X2. apply second_layer in X2; lra. }
  inversion H2; subst. exists (y + accuracy), (y2 + accuracy). split; [reflexivity|]. lra.
Qed.
Lemma half_way f y : 0 < f -> exists n : Z, Rabs (f * (y / f + IZR n)) <= f / 2.
Proof.
  intros FP. exists (trans_z (y / f)). pose proof (trans_z_half (y / f)) as H. rewrite Rabs_mult, (Rabs_pos_eq f) by lra. replace (f / 2) with (f * (1/2)) by field. apply Rmult_le_compat_l; [lra|]. apply Rabs_le. lra.
Qed.
Lemma short_overlaps f b y y' : 1/10 < f < 9/20 -> tall f b -> 1/10 <= y <= 1/10 + 2 * accuracy -> 2/5 <= y' <= 2/5 + 2 * accuracy -> crystal_overlaps (spheres (1/10)) b one (column [0 / f; y / f; y' / f]).
Proof.
  intros F T Y Y'. pose proof accuracy_small as A. rewrite (column_overlaps f b) by (exact T || lra).
  assert (S0 : forall u v n, f * (v / f - u / f + IZR n) = v - u + IZR n * f) by (intros; field; lra).
  destruct (Rlt_le_dec f (1/5)) as [L1|L1].
  - left. destruct (half_way f y ltac:(lra)) as [n N]. exists n. replace (y / f - 0 / f) with (y / f) by (field; lra). lra.
  - destruct (Rlt_le_dec f (1/4)) as [L2|L2]; [right; left; exists (-2)%Z; rewrite S0; apply Rabs_def1; lra|].
    destruct (Rlt_le_dec f (303/1000)) as [L3|L3]; [right; right; exists (-1)%Z; rewrite S0; apply Rabs_def1; lra|].
    right; left; exists (-1)%Z; rewrite S0; apply Rabs_def1; lra.
Qed.
Definition column_lattice : lattice := Lattice cube [column zs3] one true.
Lemma column_built : built column_lattice cube one (fun _ => column zs3).
Proof. apply built_new; [apply cube_constructed|reflexivity]. Qed.
Lemma column_unit s : In s (column zs3) -> in_unit s.
Proof. intros [<-|[<-|[<-|[]]]]; intros []; cbn; lra. Qed.
Lemma margin_small : 1 < margin < 1001/1000.
Proof. pose proof accuracy_small. unfold accuracy in *. unfold margin. lra. Qed.
(** The cell of layers which are not tangent is higher than it has to be. *)
Lemma column_high : exists l' b' cell', terminates_with (fun fuel => layer_optimization true (1/10) (spheres (1/10)) fuel AZ 0 column_lattice) (Value l') /\ built l' b' one (fun _ => cell') /\ 9/20 <= box_height b' AZ.
Proof.
  pose proof accuracy_small as A. pose proof margin_small as M.
  destruct (layer_spec true (1/10) (spheres (1/10)) ltac:(lra) column_lattice cube one (fun _ => column zs3) AZ 0 (column zs3) zs3 column_built eq_refl zs3_distinct zs3_coordinates) as (lb&r&SL&T&R0).
  assert (lb = cube) as -> by (apply (scaled_unique cube (V3 (INR (ix one)) (INR (iy one)) (INR (iz one)))); [exact SL|]; split; [apply cube_constructed|]; intros []; apply vec_ext; cbn; ring).
  rewrite !cube_heights in R0. assert (LF : least_factor (1/10) cube AZ = 1/10 * margin) by (unfold least_factor; rewrite cube_heights; field). rewrite LF in R0.
  destruct r as [l'|].
  - destruct R0 as (_&_&_&_&_&z0&rest&ys&f&s0&s1&b'&cell'&ws&EZ&CP&_&TG&_&_&_&_&_&_&B&_&SB). injection EZ as <- <-. exists l', b', cell'. split; [exact T|]. split; [exact B|].
    apply compressed_column in CP as (y&y'&->&Y&Y').
    assert (FP : 0 < f) by (destruct TG as [TG _]; lra). replace (f + INR (length zs3) * 0 / 1) with f in SB by (field). rewrite (scaled_heights cube _ b' cube_constructed (put_positive _ _ _ one_positive FP) SB), cube_heights, get_put_same.
    apply Rnot_lt_le. intros L. destruct TG as (T1&T2&_). apply T2; [lra|]. exists b'. split; [exact SB|]. cbn [map]. rewrite relayered_column. apply short_overlaps; [lra|exact SB|lra|lra].
  - exfalso. destruct R0 as [R0|[R0|[R0|[R0|[R0|[[a' R0]|(z0&rest&ys&EZ&CP&R0)]]]]]]; try discriminate.
    + apply R0. exact column_unit.
    + revert R0. unfold zs3. rewrite (column_overlaps 1 cube) by (apply tall_one || lra). rewrite !near_cube by lra. lra.
    + rewrite cube_heights in R0. lra.
    + injection EZ as <- <-. apply compressed_column in CP as (y&y'&->&Y&Y'). destruct R0 as [R0|(f&[TG _]&R0)].
      * apply R0. assert (MP : 0 < 1/10 * margin) by lra. destruct (scaled_exists cube (put (V3 1 1 1) AZ (1/10 * margin)) cube_constructed (put_positive _ _ _ one_positive MP)) as (b1&_&S1&_). exists b1. split; [exact S1|]. cbn [map]. rewrite relayered_column. apply short_overlaps; [lra|exact S1|lra|lra].
      * lra.
Qed.
Lemma column_could_be_low : exists b', scaled cube (put (V3 1 1 1) AZ (3/10)) b' /\ box_height b' AZ = 3/10 /\ ~ crystal_overlaps (spheres (1/10)) b' one (relayered AZ zs3 [0; 1/3; 2/3] (column zs3)).
Proof.
  assert (MP : 0 < 3/10) by lra. destruct (scaled_exists cube (put (V3 1 1 1) AZ (3/10)) cube_constructed (put_positive _ _ _ one_positive MP)) as (b1&_&S1&H1). exists b1. split; [exact S1|]. split; [rewrite H1, cube_heights, get_put_same; ring|].
  rewrite relayered_column, (column_overlaps (3/10) b1) by (exact S1 || lra).
  assert (K : forall x, (forall n : Z, 1/3 <= Rabs (x + IZR n)) -> ~ exists n : Z, Rabs (3/10 * (x + IZR n)) < 1/10). { intros x H [n N]. rewrite Rabs_mult, (Rabs_pos_eq (3/10)) in N by lra. specialize (H n). lra. }
  assert (T1 : forall n : Z, 1/3 <= Rabs (1/3 + IZR n)). { intros n. destruct (Z_lt_le_dec n 0) as [L|L]; [assert (n <= -1)%Z as L' by lia; apply IZR_le in L'; rewrite Rabs_left by lra; lra|apply IZR_le in L; rewrite Rabs_pos_eq by lra; lra]. }
  assert (T2 : forall n : Z, 1/3 <= Rabs (2/3 + IZR n)). { intros n. destruct (Z_lt_le_dec n 0) as [L|L]; [assert (n <= -1)%Z as L' by lia; apply IZR_le in L'; rewrite Rabs_left by lra; lra|apply IZR_le in L; rewrite Rabs_pos_eq by lra; lra]. }
  intros [H|[H|H]]; revert H; unfold pair_near; apply K; intros n; [replace (1/3 - 0) with (1/3) by ring; apply T1|replace (2/3 - 0) with (2/3) by ring; apply T2|replace (2/3 - 1/3) with (1/3) by field; apply T1].
Qed.

(** *** Hard cubes aligned with the box *)
Definition blocks (b : box) (_ : list shape) : bool := negb (all_axes (fun a => Rleb (1/2) (box_height b a))).
Lemma blocks_iff b shapes : blocks b shapes = true <-> exists a, box_height b a < 1/2.
Proof.
  unfold blocks. rewrite negb_true_iff. split.
  - intros H. apply all_axes_false in H as [a H]. exists a. apply Rnot_le_lt. intros L. apply (proj2 (Rleb_true _ _)) in L. congruence.
  - intros [a H]. destruct (all_axes _) eqn:A; [|reflexivity]. pose proof (proj1 (all_axes_iff _) A a) as L. apply Rleb_true in L. lra.
Qed.
Lemma blocks_scaled g b shapes : factors_positive g -> scaled cube g b -> (blocks b shapes = true <-> exists a, vget g a < 1/2).
Proof. intros P S0. rewrite blocks_iff. pose proof (scaled_heights cube g b cube_constructed P S0) as H. split; intros [a L]; exists a; [rewrite H, cube_heights in L; lra|rewrite H, cube_heights; lra]. Qed.
Lemma blocks_at shapes g : factors_positive g -> (overlapping_at blocks cube shapes g <-> exists a, vget g a < 1/2).
Proof.
  intros P. split.
  - intros (b&S0&O). apply (blocks_scaled g b _ P S0) in O. exact O.
  - intros H. destruct (scaled_exists cube g cube_constructed P) as (b&_&S0&_). exists b. split; [exact S0|]. apply (blocks_scaled g b _ P S0), H.
Qed.
Lemma blocks_shrunk shapes axes g o : shrunk (1/4) blocks cube shapes axes g o -> (forall a, 1/2 <= vget g a) -> exists g', o = Some g' /\ forall a, 1/2 <= vget g' a.
Proof.
  pose proof margin_small as M. assert (LF : forall a, least_factor (1/4) cube a = 1/4 * margin) by (intros a; unfold least_factor; rewrite cube_heights; field).
  assert (PP : forall g a x, (forall a, 1/2 <= vget g a) -> 0 < x -> factors_positive (put g a x)) by (intros g0 a x H X; apply put_positive; [intros a'; specialize (H a'); lra|exact X]).
  assert (LE : forall g a, (forall a, 1/2 <= vget g a) -> overlapping_at blocks cube shapes (put g a (least_factor (1/4) cube a))).
  { intros g0 a H. rewrite LF. apply blocks_at; [apply PP; [exact H|lra]|]. exists a. rewrite get_put_same. lra. }
  assert (TG : forall g a f, (forall a, 1/2 <= vget g a) -> touching (fun x => overlapping_at blocks cube shapes (put g a x)) (least_factor (1/4) cube a) f -> 1/2 <= f).
  { intros g0 a f H (T1&T2&_). rewrite LF in T1. apply Rnot_lt_le. intros L. apply T2; [lra|]. apply blocks_at; [apply PP; [exact H|lra]|]. exists a. rewrite get_put_same. exact L. }
  assert (PH : forall g a x, (forall a, 1/2 <= vget g a) -> 1/2 <= x -> forall a', 1/2 <= vget (put g a x) a') by (intros g0 a x H X a'; specialize (H a'); destruct a, a'; cbn in *; lra).
  induction 1 as [g|a axes g f r OV T NM SH IH|a axes g NO|a axes g f T MO]; intros H.
  - exists g. auto.
  - apply IH. apply PH; [exact H|]. specialize (TG g a f H T). nra.
  - destruct (NO (LE g a H)).
  - exfalso. pose proof (TG g a f H T) as F. destruct MO as (b1&b2&_&S2&O). apply (blocks_scaled _ b2 _ (PP g a (f * margin) H ltac:(nra)) S2) in O as [a' O]. pose proof (PH g a (f * margin) H ltac:(nra) a'). lra.
Qed.
Definition block_lattice : lattice := Lattice cube [column [1/2]] one true.
Lemma block_optimized : exists l' b', terminates_with (fun fuel => cell_optimization true (1/4) blocks fuel [122; 120; 121]%Z (V3 (1/10) 0 (1/10)) block_lattice) (Value l') /\ built l' b' one (fun _ => column [1/2]) /\ 6/10 <= box_height b' AX.
Proof.
  pose proof margin_small as M. assert (B : built block_lattice cube one (fun _ => column [1/2])) by (apply built_new; [apply cube_constructed|reflexivity]).
  destruct (cell_spec true (1/4) blocks ltac:(lra) block_lattice cube one (fun _ => column [1/2]) [122; 120; 121]%Z (V3 (1/10) 0 (1/10)) B) as (lb&molecules&r&LB&GM&T&R0).
  destruct (regular_box cube one (column [1/2]) cube_constructed ltac:(repeat split; cbn; lia)) as (lb'&LB'&SL). unfold block_lattice in LB. rewrite LB in LB'. injection LB' as <-.
  assert (lb = cube) as -> by (apply (scaled_unique cube (sizes one)); [exact SL|]; split; [apply cube_constructed|]; intros []; apply vec_ext; cbn; ring).
  assert (ONE : forall a, 1/2 <= vget (V3 1 1 1) a) by (intros []; cbn; lra).
  destruct r as [l'|].
  - destruct R0 as (a0&a1&a2&g&b'&_&_&_&_&_&_&SH&_&B'&_&_&H). exists l', b'. split; [exact T|]. split; [exact B'|]. destruct (blocks_shrunk _ _ _ _ SH ONE) as (g'&Q&G). injection Q as ->. rewrite H, cube_heights. specialize (G AX). cbn [vget vx] in *. lra.
  - exfalso. destruct R0 as [R0|[R0|[R0|[[a R0]|[R0|(a0&a1&a2&o&_&_&_&_&SH&R0)]]]]].
    + discriminate.
    + apply R0. exists AZ, AX, AY. repeat split; discriminate.
    + apply R0. intros c s _ [<-|[]] a. destruct a; cbn; lra.
    + rewrite cube_heights in R0. lra.
    + apply blocks_iff in R0 as [a R0]. rewrite cube_heights in R0. lra.
    + destruct (blocks_shrunk _ _ _ _ SH ONE) as (g'&->&G). destruct R0 as [a R0]. rewrite cube_heights in R0. specialize (G a). destruct a; cbn in *; lra.
Qed.
