From Coq Require Import Reals List Bool Arith Lia Lra Psatz.
From Verif Require Import OptModel GeomModel GeomProofs SegErrorProofs GeoModel RotSpec RotProofs XcModel XcSpec XcPrimProofs XcRoundProofs XcOpProofs XcMaxProofs.
Import ListNotations.
Open Scope R_scope.

Lemma identity_rotation : rotation mid. Proof. split; intros; rewrite ?mvec_id; reflexivity. Qed.
Lemma product_rotation a b : rotation a -> rotation b -> rotation (mmul a b).
Proof. intros (A&A2) (B&B2). split; intros; rewrite !mvec_mmul; [rewrite A, B|rewrite B2, A2]; reflexivity. Qed.
Lemma about_x m t : rotates_about m (V3 1 0 0) t <-> m = M33 1 0 0 0 (cos t) (- sin t) 0 (sin t) (cos t).
Proof.
  split.
  - intros (A&B). pose proof (B (V3 0 1 0) ltac:(unfold vdot; cbn; ring)) as Y. pose proof (B (V3 0 0 1) ltac:(unfold vdot; cbn; ring)) as Z. destruct m. unfold mvec, vdot, vadd, vscale, vcross in *. cbn in *.
    injection A as A1 A2 A3. injection Y as Y1 Y2 Y3. injection Z as Z1 Z2 Z3. f_equal; lra.
  - intros ->. split; [apply vec_ext; cbn; ring|]. intros [x y z] H. unfold vdot in H. cbn in H. apply vec_ext; cbn; nra || lra.
Qed.
Lemma about_y m t : rotates_about m (V3 0 1 0) t <-> m = M33 (cos t) 0 (sin t) 0 1 0 (- sin t) 0 (cos t).
Proof.
  split.
  - intros (A&B). pose proof (B (V3 1 0 0) ltac:(unfold vdot; cbn; ring)) as Y. pose proof (B (V3 0 0 1) ltac:(unfold vdot; cbn; ring)) as Z. destruct m. unfold mvec, vdot, vadd, vscale, vcross in *. cbn in *.
    injection A as A1 A2 A3. injection Y as Y1 Y2 Y3. injection Z as Z1 Z2 Z3. f_equal; lra.
  - intros ->. split; [apply vec_ext; cbn; ring|]. intros [x y z] H. unfold vdot in H. cbn in H. apply vec_ext; cbn; nra || lra.
Qed.
Lemma about_z m t : rotates_about m (V3 0 0 1) t <-> m = M33 (cos t) (- sin t) 0 (sin t) (cos t) 0 0 0 1.
Proof.
  split.
  - intros (A&B). pose proof (B (V3 1 0 0) ltac:(unfold vdot; cbn; ring)) as Y. pose proof (B (V3 0 1 0) ltac:(unfold vdot; cbn; ring)) as Z. destruct m. unfold mvec, vdot, vadd, vscale, vcross in *. cbn in *.
    injection A as A1 A2 A3. injection Y as Y1 Y2 Y3. injection Z as Z1 Z2 Z3. f_equal; lra.
  - intros ->. split; [apply vec_ext; cbn; ring|]. intros [x y z] H. unfold vdot in H. cbn in H. apply vec_ext; cbn; nra || lra.
Qed.
Lemma about_rotation m a t : vnorm2 a = 1 -> rotates_about m a t -> (forall m', rotates_about m' a t -> m' = m) -> rotation m.
Proof. intros N H U. rewrite <- (U (mrot_axis a t)); [apply rot_rotation; exact N|apply rot_about; exact N]. Qed.
Lemma x_rotation m t : rotates_about m (V3 1 0 0) t -> rotation m.
Proof. intros H. apply (about_rotation m (V3 1 0 0) t); auto; [unfold vnorm2, vdot; cbn; ring|]. intros m' H'. rewrite about_x in *. congruence. Qed.
Lemma y_rotation m t : rotates_about m (V3 0 1 0) t -> rotation m.
Proof. intros H. apply (about_rotation m (V3 0 1 0) t); auto; [unfold vnorm2, vdot; cbn; ring|]. intros m' H'. rewrite about_y in *. congruence. Qed.
Lemma z_rotation m t : rotates_about m (V3 0 0 1) t -> rotation m.
Proof. intros H. apply (about_rotation m (V3 0 0 1) t); auto; [unfold vnorm2, vdot; cbn; ring|]. intros m' H'. rewrite about_z in *. congruence. Qed.
Lemma xyz_product mx my mz a b c : rotates_about mx (V3 1 0 0) a -> rotates_about my (V3 0 1 0) b -> rotates_about mz (V3 0 0 1) c -> mmul mz (mmul my mx) = mrot_xyz a b c.
Proof. rewrite about_x, about_y, about_z. intros -> -> ->. unfold mrot_xyz. mat_ring. Qed.

(** The primitives are built exactly for valid arguments. *)
Lemma and_true a b : a = true -> b = true -> a && b = true. Proof. intros -> ->. reflexivity. Qed.
Lemma fmin_pos a b : 0 < a -> 0 < b -> 0 <= fmin a b. Proof. intros A B. destruct (fmin_one a b) as [E|E]; rewrite E; lra. Qed.
Lemma min3_pos v : 0 < vx v -> 0 < vy v -> 0 < vz v -> 0 <= min3 v.
Proof. intros A B C. unfold min3. destruct (fmin_one (fmin (vx v) (vy v)) (vz v)) as [E|E]; rewrite E; [apply fmin_pos; auto|lra]. Qed.
Lemma makes_cuboid a b c : 0 < a -> 0 < b -> 0 < c -> exists g, xc_cuboid (V3 a b c) = Some g /\ 0 <= xc_insphere g.
Proof. intros A B C. unfold xc_cuboid. cbn [vx vy vz]. rewrite !(proj2 (Rltb_true _ _)) by auto. cbn [andb]. eexists; split; [reflexivity|]. apply min3_pos; auto. Qed.
Lemma makes_ellipsoid a b c : 0 < a -> 0 < b -> 0 < c -> exists g, xc_ellipsoid (V3 a b c) = Some g /\ 0 <= xc_insphere g.
Proof. intros A B C. unfold xc_ellipsoid. cbn [vx vy vz]. rewrite !(proj2 (Rltb_true _ _)) by auto. cbn [andb]. eexists; split; [reflexivity|]. apply min3_pos; auto. Qed.
Lemma makes_disk a : 0 < a -> exists g, xc_disk a = Some g /\ 0 <= xc_insphere g.
Proof. intros A. unfold xc_disk. rewrite !(proj2 (Rltb_true _ _)) by auto. eexists; split; [reflexivity|]. cbn. lra. Qed.
Lemma makes_sphere a : 0 < a -> exists g, xc_sphere a = Some g /\ 0 <= xc_insphere g.
Proof. intros A. unfold xc_sphere. rewrite !(proj2 (Rltb_true _ _)) by auto. eexists; split; [reflexivity|]. cbn. lra. Qed.
Lemma makes_segment a : 0 < a -> exists g, xc_segment a = Some g /\ 0 <= xc_insphere g.
Proof. intros A. unfold xc_segment. rewrite !(proj2 (Rltb_true _ _)) by auto. eexists; split; [reflexivity|]. cbn. lra. Qed.
Lemma makes_ellipse a b : 0 < a -> 0 < b -> exists g, xc_ellipse a b = Some g /\ 0 <= xc_insphere g.
Proof. intros A B. unfold xc_ellipse. cbv zeta. rewrite !(proj2 (Rltb_true _ _)) by auto. eexists; split; [reflexivity|]. cbn. lra. Qed.
Lemma makes_rectangle a b : 0 < a -> 0 < b -> exists g, xc_rectangle a b = Some g /\ 0 <= xc_insphere g.
Proof. intros A B. unfold xc_rectangle. rewrite !(proj2 (Rltb_true _ _)) by auto. eexists; split; [reflexivity|]. cbn. lra. Qed.
Lemma makes_football a b : 0 < b -> b <= a -> exists g, xc_football a b = Some g /\ 0 <= xc_insphere g.
Proof. intros A B. unfold xc_football. rewrite !(proj2 (Rltb_true _ _)), (proj2 (Rleb_true _ _)) by auto. eexists; split; [reflexivity|]. cbn. lra. Qed.
Lemma makes_saucer a b : 0 < b -> b <= a -> exists g, xc_saucer a b = Some g /\ 0 <= xc_insphere g.
Proof. intros A B. unfold xc_saucer. rewrite !(proj2 (Rltb_true _ _)), (proj2 (Rleb_true _ _)) by lra. eexists; split; [reflexivity|]. cbn. lra. Qed.

Lemma F2_app {A B} (r : A -> B -> Prop) : forall l2 l2' l1, Forall2 r l1 (l2 ++ l2') -> Forall2 r (firstn (length l2) l1) l2 /\ Forall2 r (skipn (length l2) l1) l2' /\ (length l2 <= length l1)%nat.
Proof.
  intros l2. induction l2 as [|b l2 IH]; intros l2' l1 F; cbn in *; [repeat split; auto; lia|]. inversion F as [|a ? l1' ? G F']; subst. destruct (IH _ _ F') as (P&Q&L). cbn. repeat split; auto. lia.
Qed.
Section Run.
Variables cov fil : Prop.
Notation goods := (Forall2 (good cov fil)).
Lemma fresh_good g b ok : shaped ok g b -> (cov -> covered g b) -> (fil -> solid_filled g b) -> good cov fil (Entry g vzero mid) (fresh b ok).
Proof. intros H C F. split; [reflexivity|]. split; [reflexivity|]. split; [apply identity_rotation|]. split; [exact H|]. split; assumption. Qed.
Definition allowed (c : command) (l : list solid) : Prop :=
  (cov -> forall x y z, c = Point x y z -> V3 x y z = vzero) /\
  (fil -> (forall s, In s l -> so_body s vzero) /\ (forall s1 s2 rest, c = Wrap 2 -> l = s1 :: s2 :: rest -> wrap_safe s1 s2)).
Lemma prim_good valid g b ok s l : valid = true -> (exists g', g = Some g' /\ 0 <= xc_insphere g') -> (forall g', g = Some g' -> shaped ok g' b /\ covered g' b /\ filled g' b) -> goods s l ->
  exists s', push_checked valid g s = Some s' /\ goods s' (fresh b ok :: l).
Proof.
  intros -> (g'&E&N) H F. rewrite E. destruct (H g' E) as (A&B&C). eexists. split; [reflexivity|]. constructor; [|exact F]. apply fresh_good; auto. intros _. split; auto.
Qed.
Lemma step_run c s l l' : goods s l -> step c l l' -> allowed c l -> exists s', run_command c s = Some s' /\ goods s' l'.
Proof.
  intros F ST (AC&AF). destruct ST; cbn [run_command].
  - apply prim_good; [rewrite !(proj2 (Rltb_true _ _)) by auto; reflexivity|apply makes_cuboid; lra|intros g E; apply (cuboid_ok _ _ E)|exact F].
  - apply prim_good; [rewrite !(proj2 (Rltb_true _ _)) by auto; reflexivity|apply makes_disk; lra|intros g E; apply (disk_ok _ _ E)|exact F].
  - apply prim_good; [rewrite !(proj2 (Rltb_true _ _)) by auto; reflexivity|apply makes_ellipse; lra|intros g E; apply (ellipse_ok _ _ _ E)|exact F].
  - apply prim_good; [rewrite !(proj2 (Rltb_true _ _)) by auto; reflexivity|apply makes_ellipsoid; lra|intros g E; apply (ellipsoid_ok _ _ E)|exact F].
  - apply prim_good; [rewrite !(proj2 (Rltb_true _ _)), (proj2 (Rleb_true _ _)) by lra; reflexivity|apply makes_football; lra|intros g E; apply (football_ok _ _ _ E)|exact F].
  - eexists. split; [reflexivity|]. constructor; [|exact F]. destruct (point_ok (V3 x y z)) as (A&B&C). apply fresh_good; [exact A|intros H; apply B; apply AC; auto|intros _; split; [cbn; lra|exact C]].
  - apply prim_good; [rewrite !(proj2 (Rltb_true _ _)) by auto; reflexivity|apply makes_rectangle; lra|intros g E; apply (rectangle_ok _ _ _ E)|exact F].
  - apply prim_good; [rewrite !(proj2 (Rltb_true _ _)), (proj2 (Rleb_true _ _)) by lra; reflexivity|apply makes_saucer; lra|intros g E; apply (saucer_ok r (t / 2) g ltac:(lra) E)|exact F].
  - apply prim_good; [rewrite !(proj2 (Rltb_true _ _)) by auto; reflexivity|apply makes_segment; lra|intros g E; apply (segment_ok _ _ E)|exact F].
  - apply prim_good; [rewrite !(proj2 (Rltb_true _ _)) by auto; reflexivity|apply makes_sphere; lra|intros g E; apply (sphere_ok _ _ E)|exact F].
  - inversion F as [|e ? st0 ? G F']; subst. eexists. split; [reflexivity|]. constructor; [|exact F']. destruct G as (P&Q&R&B&C&D). repeat split; auto; try apply R; try apply B; try (apply D; assumption). cbn. rewrite P. reflexivity.
  - inversion F as [|e ? st0 ? G F']; subst. eexists. split; [reflexivity|]. constructor; [|exact F']. destruct G as (P&Q&R&B&C&D). split; [exact P|]. split; [|split; [|split; [exact B|split; assumption]]].
    + cbn [en_rot so_rot]. rewrite <- (xyz_product mx my mz) by auto. rewrite Q, !mmul_assoc. reflexivity.
    + cbn [so_rot]. repeat apply product_rotation; eauto using x_rotation, y_rotation, z_rotation.
  - inversion F as [|e2 ? st0 ? G2 F']; subst. inversion F' as [|e1 ? st1 ? G1 F'']; subst. eexists. split; [reflexivity|]. constructor; [|exact F''].
    destruct (diff_ok _ _ _ _ _ _ G1 G2) as (A&B&C). apply fresh_good; auto. intros H. destruct (AF H) as (O&_). apply C; auto; apply O; cbn; auto.
  - subst count. destruct (F2_app _ _ _ _ F) as (F1&F2&L). rewrite (proj2 (Nat.leb_le 2 _)), (proj2 (Nat.leb_le _ _)) by assumption. eexists. split; [reflexivity|]. constructor; [|exact F2].
    destruct (sum_ok _ _ _ _ F1) as (A&B&C). apply fresh_good; auto. intros H. destruct (AF H) as (O&_). apply C; auto. intros s' I. apply O. apply in_or_app. auto.
  - subst count. destruct (F2_app _ _ _ _ F) as (F1&F2&L). rewrite (proj2 (Nat.leb_le 2 _)), (proj2 (Nat.leb_le _ _)) by assumption. eexists. split; [reflexivity|]. constructor; [|exact F2].
    destruct (max_ok _ _ _ _ F1) as (A&B&C). { intros E. rewrite E in F1. inversion F1; subst top. cbn in H0. lia. }
    apply fresh_good; auto. intros H. destruct (AF H) as (O&W). apply C; auto; [intros s' I; apply O; apply in_or_app; auto|]. intros s1 s2 ->. apply (W s1 s2 l); reflexivity.
  - subst k. destruct (F2_app _ _ _ _ F) as (F1&F2&L). rewrite (proj2 (Nat.leb_le 1 _)), (proj2 (Nat.leb_le _ _)) by assumption. eexists. split; [reflexivity|]. apply Forall2_app; auto.
  - inversion F; subst. eauto.
  - inversion F as [|e2 ? st0 ? G2 F']; subst. inversion F' as [|e1 ? st1 ? G1 F'']; subst. eexists. split; [reflexivity|]. auto.
  - eexists. split; [reflexivity|]. constructor.
Qed.
Lemma steps_run cs l l' : steps cs l l' -> forall s, goods s l -> (cov -> no_points cs) -> (fil -> careful cs l) -> exists s', run_script cs s = Some s' /\ goods s' l'.
Proof.
  intros ST. induction ST as [l|c cs l1 l2 l3 ST SS IH]; intros s F NP CF; [exists s; split; [reflexivity|exact F]|].
  destruct (step_run c s l1 l2 F ST) as (s2&E&F2).
  { split; [intros H x y z ->; apply (NP H); left; reflexivity|]. intros H. apply (CF H [] c cs l1); [reflexivity|constructor]. }
  destruct (IH s2 F2) as (s3&E3&F3).
  - intros H x y z I. apply (NP H). right. exact I.
  - intros H cs1 c' cs2 l' -> S'. apply (CF H (c :: cs1) c' cs2 l'); [reflexivity|]. econstructor; eauto.
  - exists s3. cbn [run_script]. rewrite E. cbn [obind]. auto.
Qed.
End Run.
(** Whatever the builder accepts has a meaning. *)
Lemma split_at {A} n (l : list A) : (n <= length l)%nat -> exists top rest, l = top ++ rest /\ length top = n.
Proof. intros H. exists (firstn n l), (skipn n l). rewrite firstn_skipn. split; [reflexivity|]. apply firstn_length_le. exact H. Qed.
Lemma push_checked_some v g s s' : push_checked v g s = Some s' -> v = true /\ List.length s' = S (List.length s).
Proof. unfold push_checked. destruct v; [|discriminate]. destruct g; [|discriminate]. intros [= <-]. auto. Qed.
Ltac bools H := repeat rewrite andb_true_iff in H; repeat rewrite Rltb_true in H; repeat rewrite Rleb_true in H.
Lemma run_step c s s' l : run_command c s = Some s' -> length s = length l -> exists l', step c l l' /\ length s' = length l'.
Proof.
  intros E L. destruct c; cbn [run_command] in E.
  1,2,3,4,5,7,8,9,10: apply push_checked_some in E; destruct E as (V&L'); bools V; eexists; (split; [constructor; lra|cbn in *; congruence]).
  - injection E as <-. eexists. split; [constructor|cbn in *; congruence].
  - destruct s as [|e s0]; [discriminate|]. destruct l as [|t l]; [discriminate|]. injection E as <-. eexists. split; [constructor|cbn in *; congruence].
  - destruct s as [|e s0]; [discriminate|]. destruct l as [|t l]; [discriminate|]. injection E as <-. eexists. split; [constructor; [rewrite about_x|rewrite about_y|rewrite about_z]; reflexivity|cbn in *; congruence].
  - destruct s as [|e2 [|e1 s0]]; try discriminate. destruct l as [|t2 [|t1 l]]; try discriminate. injection E as <-. eexists. split; [constructor|cbn in *; congruence].
  - destruct (Nat.leb 2 count && Nat.leb count (length s)) eqn:V; [|discriminate]. apply andb_true_iff in V. rewrite !Nat.leb_le in V. injection E as <-. destruct (split_at count l) as (top&rest&->&LT); [lia|].
    eexists. split; [constructor; [exact LT|lia]|]. cbn. rewrite skipn_length, L, app_length. lia.
  - destruct (Nat.leb 2 count && Nat.leb count (length s)) eqn:V; [|discriminate]. apply andb_true_iff in V. rewrite !Nat.leb_le in V. injection E as <-. destruct (split_at count l) as (top&rest&->&LT); [lia|].
    eexists. split; [constructor; [exact LT|lia]|]. cbn. rewrite skipn_length, L, app_length. lia.
  - destruct (Nat.leb 1 numShapes && Nat.leb numShapes (length s)) eqn:V; [|discriminate]. apply andb_true_iff in V. rewrite !Nat.leb_le in V. injection E as <-. destruct (split_at numShapes l) as (top&rest&->&LT); [lia|].
    eexists. split; [constructor; [exact LT|lia]|]. rewrite !app_length in *. rewrite firstn_length. lia.
  - destruct s as [|e s0]; [discriminate|]. destruct l as [|t l]; [discriminate|]. injection E as <-. eexists. split; [constructor|cbn in *; congruence].
  - destruct s as [|e2 [|e1 s0]]; try discriminate. destruct l as [|t2 [|t1 l]]; try discriminate. injection E as <-. eexists. split; [constructor|cbn in *; congruence].
  - injection E as <-. eexists. split; [constructor|reflexivity].
Qed.
Lemma run_steps cs : forall s s' l, run_script cs s = Some s' -> length s = length l -> exists l', steps cs l l' /\ length s' = length l'.
Proof.
  induction cs as [|c cs IH]; intros s s' l E L; cbn [run_script] in E; [injection E as <-; exists l; split; [constructor|exact L]|].
  destruct (run_command c s) as [s2|] eqn:E2; [|discriminate]. cbn [obind] in E. destruct (run_step c s s2 l E2 L) as (l2&S2&L2). destruct (IH s2 s' l2 E L2) as (l3&S3&L3). exists l3. split; [econstructor; eauto|exact L3].
Qed.
Lemma build_accepts cs : build cs <> None <-> exists s, steps cs [] [s].
Proof.
  unfold build. split.
  - destruct (run_script cs []) as [st|] eqn:E; [|intros H; exfalso; apply H; reflexivity]. cbn [obind]. destruct (run_steps cs [] st [] E eq_refl) as (l&S&L). destruct st as [|e [|e' st]]; cbn; try congruence.
    intros _. destruct l as [|t [|t' l]]; try discriminate. eauto.
  - intros (s&S). destruct (steps_run False False cs [] [s] S [] (Forall2_nil _)) as (st&E&F); [tauto|tauto|]. rewrite E. cbn [obind]. inversion F as [|e ? s0 ? G F']; subst. inversion F'; subst. cbn. discriminate.
Qed.
Lemma build_means cs g s : build cs = Some g -> steps cs [] [s] -> shaped (so_ok s) g (so_body s) /\ (no_points cs -> covered g (so_body s)) /\ (careful cs [] -> filled g (so_body s)).
Proof.
  intros B S. destruct (steps_run (no_points cs) (careful cs []) cs [] [s] S [] (Forall2_nil _)) as (st&E&F); [tauto|tauto|]. unfold build in B. rewrite E in B. cbn [obind] in B.
  inversion F as [|e ? s0 ? G F']; subst. inversion F'; subst. cbn in B. injection B as <-. destruct G as (_&_&_&A&C&D). split; [exact A|]. split; [exact C|]. intros H. apply D. exact H.
Qed.
