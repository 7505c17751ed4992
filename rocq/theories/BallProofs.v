From Coq Require Import Reals List Bool Lia Lra Psatz.
From Verif Require Import GeomModel GeomProofs PbcModel PackModel PackSpec SegSpec SegErrorProofs InterModel ShapesModel ShapesSpec ShapesProofs WallShapesProofs BallSpec.
Import ListNotations.
Open Scope R_scope.

Lemma distance_swap p q : distance p q = distance q p. Proof. apply vnorm_swap. Qed.
Lemma balls_meet c1 r1 c2 r2 : 0 < r1 -> 0 < r2 -> ((exists x, inside_ball c1 r1 x /\ inside_ball c2 r2 x) <-> distance c1 c2 < r1 + r2).
Proof.
  intros P1 P2. unfold inside_ball. split.
  - intros (x&X1&X2). unfold distance in *. pose proof (vnorm_triangle (vsub c1 x) (vsub x c2)) as T. replace (vadd (vsub c1 x) (vsub x c2)) with (vsub c1 c2) in T by (apply vec_ext; cbn; ring). rewrite (vnorm_swap c1 x) in T. lra.
  - intros L. set (k := r1 / (r1 + r2)). assert (K : k * (r1 + r2) = r1) by (unfold k; field; lra).
    exists (vadd c1 (vscale k (vsub c2 c1))). assert (KP : 0 < k < 1) by (split; nra). unfold distance in *. rewrite vnorm_swap in L. pose proof (vnorm_nonneg (vsub c2 c1)) as N. split.
    + replace (vsub (vadd c1 (vscale k (vsub c2 c1))) c1) with (vscale k (vsub c2 c1)) by (apply vec_ext; cbn; ring). rewrite vnorm_scale, Rabs_pos_eq by lra. nra.
    + replace (vsub (vadd c1 (vscale k (vsub c2 c1))) c2) with (vscale (k - 1) (vsub c2 c1)) by (apply vec_ext; cbn; ring). rewrite vnorm_scale, Rabs_left by lra. nra.
Qed.
Lemma square_test d r : 0 <= d -> 0 < r -> Rltb (d ^ 2) (r * r) = true <-> d < r.
Proof. intros D R. rewrite Rltb_true. split; intros; nra. Qed.
Lemma distance_nonneg p q : 0 <= distance p q. Proof. apply vnorm_nonneg. Qed.
Lemma sphere_exact r i p1 m1 c1 p2 m2 c2 bc : sphere r = Some i -> true_distance bc p1 p2 ->
  (in_overlap i p1 m1 c1 p2 m2 c2 bc = true <-> exists x, inside_ball p1 r x /\ inside_ball (image bc p1 p2) r x).
Proof.
  intros M T. destruct (sphere_made r i M) as (P&->). cbn [in_overlap]. unfold sphere_overlap. rewrite T, balls_meet by auto.
  replace ((2 * r) ^ 2) with ((r + r) * (r + r)) by ring. apply square_test; [apply distance_nonneg|lra].
Qed.
Lemma bead_exact beads i p1 m1 c1 d1 p2 m2 c2 d2 bc : polysphere beads = Some i -> true_distance bc p1 p2 -> nth_error beads c1 = Some d1 -> nth_error beads c2 = Some d2 ->
  (in_overlap i p1 m1 c1 p2 m2 c2 bc = true <-> exists x, inside_ball p1 (bd_radius d1) x /\ inside_ball (image bc p1 p2) (bd_radius d2) x).
Proof.
  intros M T D1 D2. destruct (polysphere_made beads i M) as (_&P&->). cbn [in_overlap]. unfold polysphere_overlap, bead_radius. rewrite (nth_error_nth beads c1 _ D1), (nth_error_nth beads c2 _ D2). cbv zeta. rewrite T.
  pose proof (P d1 (nth_error_In _ _ D1)). pose proof (P d2 (nth_error_In _ _ D2)). rewrite balls_meet by auto. apply square_test; [apply distance_nonneg|lra].
Qed.
Lemma enumerated {A} (l : list A) x : In x (combine (seq 0 (length l)) l) <-> nth_error l (fst x) = Some (snd x).
Proof.
  destruct x as [i x]. cbn [fst snd]. assert (G : forall k, In (i, x) (combine (seq k (length l)) l) <-> (k <= i)%nat /\ nth_error l (i - k) = Some x).
  { induction l as [|y l IH]; intros k; cbn [length seq combine].
    - split; [intros []|]. intros (_&H). destruct (i - k)%nat; discriminate.
    - cbn [In]. rewrite IH. split.
      + intros [H|(H&E)]; [injection H as <- <-; rewrite Nat.sub_diag; auto|]. split; [lia|]. replace (i - k)%nat with (S (i - S k)) by lia. exact E.
      + intros (H&E). destruct (Nat.eq_dec k i) as [->|N]; [left; rewrite Nat.sub_diag in E; injection E as ->; reflexivity|]. right. split; [lia|]. replace (i - k)%nat with (S (i - S k)) in E by lia. exact E. }
  rewrite G. rewrite Nat.sub_0_r. split; [tauto|]. intros H. split; [lia|exact H].
Qed.
Lemma polysphere_exact beads i c s1 s2 t : polysphere beads = Some i ->
  (overlapBetweenShapes (WInter i c) s1 s2 (hardcoded t) = true <-> exists x, inside_beads beads (sh_pos s1) (sh_rot s1) x /\ inside_beads beads (vadd (sh_pos s2) t) (sh_rot s2) x).
Proof.
  intros M. pose proof (bead_exact beads i) as B. destruct (polysphere_made beads i M) as (N&P&E). unfold overlapBetweenShapes. cbn [wi]. rewrite E at 1. cbn [in_centres].
  assert (T : forall p1 p2, true_distance (hardcoded t) p1 p2). { intros p1 p2. unfold true_distance, distance, image. cbn [hardcoded bc_distance2 bc_translation]. rewrite vnorm_swap, <- vnorm_sqr. ring. }
  assert (G : existsb (fun ci => existsb (fun cj => in_overlap i (getCentrePositionForShape s1 (snd ci)) (sh_rot s1) (fst ci) (getCentrePositionForShape s2 (snd cj)) (sh_rot s2) (fst cj) (hardcoded t))
            (combine (seq 0 (length (map bd_pos beads))) (map bd_pos beads))) (combine (seq 0 (length (map bd_pos beads))) (map bd_pos beads)) = true <->
          exists x, inside_beads beads (sh_pos s1) (sh_rot s1) x /\ inside_beads beads (vadd (sh_pos s2) t) (sh_rot s2) x).
  { rewrite existsb_exists. split.
    - intros ([k1 v1]&I1&H). apply existsb_exists in H. destruct H as ([k2 v2]&I2&H). apply enumerated in I1, I2. cbn [fst snd] in *. rewrite nth_error_map in I1, I2.
      destruct (nth_error beads k1) as [d1|] eqn:D1; [|discriminate]. destruct (nth_error beads k2) as [d2|] eqn:D2; [|discriminate]. injection I1 as <-. injection I2 as <-.
      apply (B _ _ _ d1 _ _ _ d2 _ M (T _ _) D1 D2) in H. destruct H as (x&X1&X2). exists x. split; [exists d1|exists d2]; (split; [eapply nth_error_In; eauto|]); [exact X1|].
      unfold image in X2. cbn [hardcoded bc_translation] in X2. replace (vadd (vadd (sh_pos s2) t) (mvec (sh_rot s2) (bd_pos d2))) with (vadd (getCentrePositionForShape s2 (bd_pos d2)) t) by (unfold getCentrePositionForShape; apply vec_ext; cbn; ring). exact X2.
    - intros (x&(d1&I1&X1)&(d2&I2&X2)). apply In_nth_error in I1, I2. destruct I1 as (k1&D1), I2 as (k2&D2).
      exists (k1, bd_pos d1). split; [apply enumerated; cbn; rewrite nth_error_map, D1; reflexivity|]. apply existsb_exists. exists (k2, bd_pos d2). split; [apply enumerated; cbn; rewrite nth_error_map, D2; reflexivity|].
      cbn [fst snd]. apply (B _ _ _ d1 _ _ _ d2 _ M (T _ _) D1 D2). exists x. split; [exact X1|].
      unfold image. cbn [hardcoded bc_translation]. replace (vadd (vadd (sh_pos s2) t) (mvec (sh_rot s2) (bd_pos d2))) with (vadd (getCentrePositionForShape s2 (bd_pos d2)) t) in X2 by (unfold getCentrePositionForShape; apply vec_ext; cbn; ring). exact X2. }
  destruct beads as [|d beads]; [contradiction|]. cbn [map] in *. exact G.
Qed.
Lemma dumbbells_meet : exists i, polysphere [Bead (V3 0 0 (-1)) 1; Bead (V3 0 0 1) (1 / 2)] = Some i /\
  overlapBetweenShapes (WInter i true) (Shape vzero mid) (Shape (V3 0 0 3) mid) (hardcoded vzero) = true /\
  overlapBetweenShapes (WInter i true) (Shape vzero mid) (Shape (V3 0 0 4) mid) (hardcoded vzero) = false.
Proof.
  destruct (polysphere [Bead (V3 0 0 (-1)) 1; Bead (V3 0 0 1) (1 / 2)]) as [i|] eqn:E.
  2: { unfold polysphere in E. cbn [length Nat.eqb negb forallb bd_radius andb] in E. rewrite !(proj2 (Rltb_true _ _)) in E by lra. discriminate. }
  exists i. split; [reflexivity|]. split.
  - apply (polysphere_exact _ i true _ _ _ E). exists (V3 0 0 (13 / 10)). split.
    + exists (Bead (V3 0 0 1) (1 / 2)). split; [right; left; reflexivity|]. unfold inside_ball, distance. cbn [bd_pos bd_radius sh_pos sh_rot]. unfold vnorm. replace (vnorm2 _) with ((3 / 10) * (3 / 10)) by (unfold vnorm2, vdot; cbn; field). rewrite sqrt_square; lra.
    + exists (Bead (V3 0 0 (-1)) 1). split; [left; reflexivity|]. unfold inside_ball, distance. cbn [bd_pos bd_radius sh_pos sh_rot]. unfold vnorm. replace (vnorm2 _) with ((7 / 10) * (7 / 10)) by (unfold vnorm2, vdot; cbn; field). rewrite sqrt_square; lra.
  - destruct (overlapBetweenShapes _ _ _ _) eqn:H; [|reflexivity]. exfalso. apply (polysphere_exact _ i true _ _ _ E) in H. destruct H as (x&(d1&I1&X1)&(d2&I2&X2)).
    assert (Z : forall c r, inside_ball c r x -> vz c - r < vz x < vz c + r).
    { intros c r H. unfold inside_ball, distance in H. assert (Rabs (vz x - vz c) < r); [|apply Rabs_def2 in H0; lra]. apply Rle_lt_trans with (vnorm (vsub x c)); [|exact H].
      rewrite <- sqrt_Rsqr_abs. apply sqrt_le_1_alt. unfold vnorm2, vdot, Rsqr. cbn. pose proof (Rle_0_sqr (vx x - vx c)). pose proof (Rle_0_sqr (vy x - vy c)). unfold Rsqr in *. lra. }
    apply Z in X1, X2. destruct I1 as [<-|[<-|[]]], I2 as [<-|[<-|[]]]; cbn in X1, X2; lra.
Qed.
