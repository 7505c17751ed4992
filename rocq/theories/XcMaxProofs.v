From Coq Require Import Reals List Bool Arith Lia Lra Psatz.
From Verif Require Import OptModel GeomModel GeomProofs SegErrorProofs GeoModel RotSpec RotProofs XcModel XcSpec XcPrimProofs XcRoundProofs XcOpProofs.
Import ListNotations.
Open Scope R_scope.

Lemma hull_convex bs : convex (hull bs). Proof. intros x y k X Y K c C H. apply C; auto. apply X; auto. apply Y; auto. Qed.
Lemma hull_contains (bs : list body) (b : body) x : In b bs -> b x -> hull bs x. Proof. intros I B c C H. eauto. Qed.
Lemma half_space_convex n d : convex (fun y => vdot y n <= d).
Proof. intros x y k X Y K. unfold vdot in *. cbn in *. nra. Qed.
Lemma ball_is_convex r : convex (fun y => vnorm y <= r).
Proof.
  intros x y k X Y K. pose proof (vnorm_triangle (vscale (1 - k) x) (vscale k y)) as T. rewrite !vnorm_scale in T. rewrite (Rabs_pos_eq k), (Rabs_pos_eq (1 - k)) in T by lra. nra.
Qed.
Section Lists.
Variables cov fil : Prop.
Lemma max_fold n : forall es ss, Forall2 (good cov fil) es ss -> (forall s, In s ss -> there_ok s n) -> forall (v : vec), exists w,
  fold_left (fun v e => v' <- v ;; v1 <- entry_support e n ;; Some (if Rltb (vdot v' n) (vdot v1 n) then v1 else v')) es (Some v) = Some w /\
  (w = v \/ exists s, In s ss /\ there s w) /\ vdot v n <= vdot w n /\ forall s y, In s ss -> there s y -> vdot y n <= vdot w n.
Proof.
  intros es ss F. induction F as [|e s es ss G F IH]; intros O v.
  - exists v. cbn. repeat split; auto; [lra|]. intros s y [].
  - destruct (good_support _ _ _ _ n G (O s (or_introl eq_refl))) as (u&E&U&M). cbn [fold_left obind]. rewrite E. cbn [obind].
    destruct (IH (fun s H => O s (or_intror H)) (if Rltb (vdot v n) (vdot u n) then u else v)) as (w&E2&W&L&A). exists w. split; [exact E2|].
    assert (LV : vdot v n <= vdot w n /\ vdot u n <= vdot w n). { destruct (Rltb (vdot v n) (vdot u n)) eqn:T; [apply Rltb_true in T|apply Rltb_false in T]; lra. }
    split; [|split; [lra|]].
    + destruct W as [->|(t&I&B)]; [|right; exists t; split; [right; auto|auto]]. destruct (Rltb _ _); [right; exists s; split; [left; reflexivity|auto]|left; reflexivity].
    + intros t y [<-|I] Y; [|eauto]. pose proof (M y Y). lra.
Qed.
Lemma max_supports n es ss : Forall2 (good cov fil) es ss -> es <> [] -> (forall s, In s ss -> there_ok s n) ->
  exists w, max_support es n = Some w /\ supports (hull (map there ss)) n w.
Proof.
  intros F NE O. destruct F as [|e s es ss G F]; [congruence|]. destruct (good_support _ _ _ _ n G (O s (or_introl eq_refl))) as (u&E&U&M). cbn [max_support]. rewrite E. cbn [obind].
  destruct (max_fold n es ss F (fun s H => O s (or_intror H)) u) as (w&E2&W&L&A). exists w. split; [exact E2|]. split.
  - destruct W as [->|(t&I&B)]; [apply (hull_contains _ (there s)); [left; reflexivity|auto]|apply (hull_contains _ (there t)); [right; apply in_map; auto|auto]].
  - intros y Y. apply (Y (fun y => vdot y n <= vdot w n)); [apply half_space_convex|]. intros b x I B. destruct I as [<-|I]; [pose proof (M x B); lra|]. apply in_map_iff in I. destruct I as (t&<-&I). eauto.
Qed.
Lemma centre_fold es ss (c : body) : Forall2 (good cov fil) es ss -> convex c -> (forall s x, In s ss -> there s x -> c x) -> forall k p, c p ->
  c (vscale (/ INR (S k + length es)) (fold_left (fun p e => vadd p (entry_centre e)) es (vscale (INR (S k)) p))).
Proof.
  intros F C. induction F as [|e s es ss G F IH]; intros H k p P.
  - cbn [length fold_left]. rewrite Nat.add_0_r. replace (vscale (/ INR (S k)) (vscale (INR (S k)) p)) with p by (pose proof (lt_0_INR (S k) ltac:(lia)); apply vec_ext; cbn -[INR]; field; lra). exact P.
  - cbn [length fold_left]. replace (S k + S (length es))%nat with (S (S k) + length es)%nat by lia.
    pose proof (lt_0_INR (S k) ltac:(lia)) as K. pose proof (S_INR (S k)) as SK.
    set (q := vadd (vscale (1 - / INR (S (S k))) p) (vscale (/ INR (S (S k))) (entry_centre e))).
    replace (vadd (vscale (INR (S k)) p) (entry_centre e)) with (vscale (INR (S (S k))) q) by (unfold q; rewrite SK; apply vec_ext; cbn -[INR]; field; lra).
    apply IH; [intros; eapply H; [right|]; eauto|]. unfold q. apply C; auto; [eapply H; [left; reflexivity|eapply good_centre; eauto]|].
    assert (1 <= INR (S (S k))) by (rewrite SK; lra). split; [left; apply Rinv_0_lt_compat; lra|]. rewrite <- Rinv_1. apply Rinv_le_contravar; lra.
Qed.
Lemma max_centre es ss : Forall2 (good cov fil) es ss -> es <> [] -> hull (map there ss) (xc_centre (xc_max es)).
Proof.
  intros F NE c C H. destruct F as [|e s es ss G F]; [congruence|]. cbn [xc_max xc_centre length fold_left].
  assert (HS : forall t x, In t (s :: ss) -> there t x -> c x) by (intros t x I X; apply (H (there t)); [apply in_map; exact I|exact X]).
  pose proof (centre_fold es ss c F C (fun t x I => HS t x (or_intror I)) 0%nat (entry_centre e) (HS s _ (or_introl eq_refl) (good_centre _ _ _ _ G))) as R.
  replace (vscale (INR 1) (entry_centre e)) with (vadd vzero (entry_centre e)) in R by (apply vec_ext; cbn; ring). exact R.
Qed.
Lemma radius_fold es : forall r, r <= fold_left (fun r e => fmax r (vnorm (en_pos e) + xc_circumsphere (en_geometry e))) es r /\
  forall e, In e es -> vnorm (en_pos e) + xc_circumsphere (en_geometry e) <= fold_left (fun r e => fmax r (vnorm (en_pos e) + xc_circumsphere (en_geometry e))) es r.
Proof.
  induction es as [|e es IH]; intros r; cbn [fold_left]; [split; [lra|intros ? []]|]. destruct (IH (fmax r (vnorm (en_pos e) + xc_circumsphere (en_geometry e)))) as (A&B).
  pose proof (fmax_ge r (vnorm (en_pos e) + xc_circumsphere (en_geometry e))). split; [lra|]. intros e' [<-|I]; [lra|auto].
Qed.
Lemma in_pair es ss s : Forall2 (good cov fil) es ss -> In s ss -> exists e, In e es /\ good cov fil e s.
Proof. intros F. induction F as [|e t es ss G F IH]; intros []; [subst; exists e; split; [left; reflexivity|auto]|]. destruct (IH H) as (e'&I&G'). exists e'. split; [right; auto|auto]. Qed.
Lemma max_covered es ss : cov -> Forall2 (good cov fil) es ss -> covered (xc_max es) (hull (map there ss)).
Proof.
  intros HC F y Y. apply (Y (fun y => vnorm y <= xc_circumsphere (xc_max es))); [apply ball_is_convex|]. intros b x I B. apply in_map_iff in I. destruct I as (s&<-&I).
  destruct (in_pair es ss s F I) as (e&IE&G). destruct G as (P&_&R&_&GC&_). pose proof (placed_covered _ _ _ _ x R (GC HC) B) as L. rewrite <- P in L.
  pose proof (vnorm_triangle (vsub x (en_pos e)) (en_pos e)) as T. replace (vadd (vsub x (en_pos e)) (en_pos e)) with x in T by (apply vec_ext; cbn; ring).
  assert (Q : vnorm (en_pos e) + xc_circumsphere (en_geometry e) <= xc_circumsphere (xc_max es)); [|lra]. cbn [xc_max xc_circumsphere]. destruct es as [|e0 es]; [destruct IE|]. apply radius_fold. exact IE.
Qed.
Lemma fmin_both a b c : c < fmin a b -> c < a /\ c < b. Proof. intros H. pose proof (fmin_le a b). lra. Qed.
Lemma single_filled e s : fil -> good cov fil e s -> filled (xc_max [e]) (hull (map there [s])).
Proof.
  intros H (P&_&R&_&_&GF) y Y. destruct (GF H) as (N&I). cbn [xc_max xc_insphere calculateInsphereRadius] in Y. pose proof (vnorm_nonneg y). pose proof (vnorm_nonneg (en_pos e)).
  assert (L : vnorm y + vnorm (en_pos e) < xc_insphere (en_geometry e)). { destruct (fmax_one 0 (xc_insphere (en_geometry e) - vnorm (en_pos e))) as [E|E]; rewrite E in Y; lra. }
  apply (hull_contains _ (there s)); [left; reflexivity|]. pose proof (vnorm_sub_triangle y (en_pos e)). rewrite P in *.
  exists (mvec (mtrans (so_rot s)) (vsub y (so_pos s))). split; [apply I; rewrite back_norm by auto; lra|]. rewrite rot_back by auto. apply vec_ext; cbn; ring.
Qed.
Lemma two_filled e1 e2 s1 s2 : fil -> good cov fil e1 s1 -> good cov fil e2 s2 -> so_body s1 vzero -> so_body s2 vzero -> wrap_safe s1 s2 ->
  0 <= calculateInsphereRadius2 e1 e2 /\ forall y, vnorm y < calculateInsphereRadius2 e1 e2 -> hull [there s1; there s2] y.
Proof.
  intros H G1 G2 O1 O2 W. destruct G1 as (P1&_&R1&_&_&F1), G2 as (P2&_&R2&_&_&F2). destruct (F1 H) as (N1&I1), (F2 H) as (N2&I2). clear F1 F2.
  unfold calculateInsphereRadius2. cbv zeta. rewrite P1, P2. set (a := xc_insphere (en_geometry e1)) in *. set (c := xc_insphere (en_geometry e2)) in *. set (d := vsub (so_pos s2) (so_pos s1)) in *.
  pose proof (vnorm_nonneg d) as DN. pose proof (fmax_ge a c) as MG.
  destruct (negb (Reqb (fmax a c) 0) && Rltb (vnorm d / fmax a c) (/ 10 ^ 14)) eqn:T.
  - apply andb_true_iff in T. destruct T as (T1&T2). apply negb_true_iff in T1. apply Rltb_true in T2. assert (M0 : fmax a c <> 0) by (intros Z; apply Reqb_true in Z; congruence).
    assert (MP : 0 < fmax a c) by lra. split; [destruct (fmin_one a c) as [E|E]; rewrite E; lra|]. intros y Y. destruct (fmin_both _ _ _ Y) as (Y1&Y2). destruct W as [W|[W|W]].
    + apply (hull_contains _ (there s1)); [left; reflexivity|]. replace y with (vadd y (so_pos s1)) by (rewrite W; apply vec_ext; cbn; ring). apply (placed_filled (en_geometry e1)); auto.
    + apply (hull_contains _ (there s2)); [right; left; reflexivity|]. replace y with (vadd y (so_pos s2)) by (rewrite W; apply vec_ext; cbn; ring). apply (placed_filled (en_geometry e2)); auto.
    + exfalso. assert (L : fmax a c <= 10 ^ 14 * vnorm d). { destruct (fmax_one a c) as [E|E]; rewrite E in *; [apply (W s1)|apply (W s2)]; auto. }
      assert (fmax a c * (vnorm d / fmax a c) = vnorm d) by (field; lra). assert (10 ^ 14 * / 10 ^ 14 = 1) by (field; lra). set (u := vnorm d / fmax a c) in *. assert (0 < 10 ^ 14) by lra. nra.
  - clear T. destruct (Reqb (vnorm d) 0) eqn:D0; [split; [lra|]; intros y Y; pose proof (vnorm_nonneg y); lra|].
    assert (DP : 0 < vnorm d) by (destruct DN as [?|E]; [auto|]; symmetry in E; apply Reqb_true in E; congruence). clear D0.
    set (q := vdot (so_pos s1) (vscale (/ vnorm d) d)). set (t := - q / vnorm d). destruct (Rltb t 0) eqn:T0; [split; [lra|]; intros y Y; pose proof (vnorm_nonneg y); lra|].
    destruct (Rltb 1 t) eqn:T1; [split; [lra|]; intros y Y; pose proof (vnorm_nonneg y); lra|]. apply Rltb_false in T0. apply Rltb_false in T1.
    split; [apply fmax_ge|]. intros y Y. pose proof (vnorm_nonneg y) as YN. set (f := vadd (so_pos s1) (vscale t d)).
    assert (FN : sqrt (fmax 0 (vnorm2 (so_pos s1) - q ^ 2)) = vnorm f).
    { assert (E : vnorm2 (so_pos s1) - q ^ 2 = vnorm2 f).
      { assert (QD : vdot (so_pos s1) d = q * vnorm d) by (unfold q, vdot; cbn; field; lra). assert (DD : vnorm2 d = vnorm d ^ 2) by (symmetry; unfold vnorm; apply pow2_sqrt; apply vnorm2_nonneg).
        transitivity (vnorm2 (so_pos s1) + 2 * t * vdot (so_pos s1) d + t ^ 2 * vnorm2 d); [rewrite QD, DD; unfold t; field; lra|]. unfold f, vnorm2, vdot. cbn. ring. }
      rewrite E. unfold vnorm. f_equal. pose proof (vnorm2_nonneg f). pose proof (fmax_ge 0 (vnorm2 f)). destruct (fmax_one 0 (vnorm2 f)) as [E2|E2]; rewrite E2 in *; lra. }
    rewrite FN in Y. set (r := (1 - t) * a + t * c) in *. pose proof (vnorm_nonneg f) as FP.
    assert (L : vnorm y + vnorm f < r). { destruct (fmax_one 0 (r - vnorm f)) as [E|E]; rewrite E in Y; lra. }
    assert (RP : 0 < r) by lra. set (z := vscale (/ r) (vsub y f)).
    assert (Z : vnorm z < 1). { unfold z. rewrite vnorm_scale, Rabs_pos_eq by (left; apply Rinv_0_lt_compat; exact RP). pose proof (vnorm_sub_triangle y f). apply Rmult_lt_reg_l with r; [exact RP|]. rewrite <- Rmult_assoc, Rinv_r, Rmult_1_l, Rmult_1_r by lra. lra. }
    pose proof (vnorm_nonneg z).
    replace y with (vadd (vscale (1 - t) (vadd (vscale a z) (so_pos s1))) (vscale t (vadd (vscale c z) (so_pos s2)))).
    + apply hull_convex; [| |lra].
      * apply (hull_contains _ (there s1)); [left; reflexivity|]. apply (placed_filled (en_geometry e1)); auto. fold a. destruct N1 as [N1|N1]; [left; rewrite vnorm_scale, Rabs_pos_eq by lra; nra|right; fold a in N1; rewrite <- N1; apply vec_ext; cbn; ring].
      * apply (hull_contains _ (there s2)); [right; left; reflexivity|]. apply (placed_filled (en_geometry e2)); auto. fold c. destruct N2 as [N2|N2]; [left; rewrite vnorm_scale, Rabs_pos_eq by lra; nra|right; fold c in N2; rewrite <- N2; apply vec_ext; cbn; ring].
    + transitivity (vadd (vscale r z) f); [unfold r, f, d; apply vec_ext; cbn; ring|]. unfold z. apply vec_ext; cbn; field; lra.
Qed.
Lemma max_ok es ss : Forall2 (good cov fil) es ss -> es <> [] -> shaped (all_ok ss) (xc_max es) (hull (map there ss)) /\ (cov -> covered (xc_max es) (hull (map there ss))) /\
  (fil -> (forall s, In s ss -> so_body s vzero) -> (forall s1 s2, ss = [s1; s2] -> wrap_safe s1 s2) -> solid_filled (xc_max es) (hull (map there ss))).
Proof.
  intros F NE. split; [|split].
  - split; [apply hull_convex|]. split; [apply max_centre; auto|]. intros n (_&O). apply max_supports; auto.
  - intros H. apply max_covered; auto.
  - intros H O W. inversion F as [|e1 s1 es1 ss1 G1 F1]; subst; [congruence|]. inversion F1 as [|e2 s2 es2 ss2 G2 F2]; subst.
    + split; [apply fmax_ge|]. apply single_filled; auto.
    + inversion F2 as [|e3 s3 es3 ss3 G3 F3]; subst.
      * apply two_filled; auto; apply O; cbn; auto.
      * split; [cbn; lra|]. intros y Y. cbn in Y. pose proof (vnorm_nonneg y). lra.
Qed.
End Lists.
