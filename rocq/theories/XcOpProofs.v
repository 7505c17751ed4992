From Coq Require Import Reals List Bool Arith Lia Lra Psatz.
From Verif Require Import OptModel GeomModel GeomProofs SegErrorProofs GeoModel RotSpec RotProofs XcModel XcSpec XcPrimProofs XcRoundProofs.
Import ListNotations.
Open Scope R_scope.

Lemma trans_dot m x n : vdot (mvec m x) n = vdot x (mvec (mtrans m) n). Proof. unfold vdot, mvec, mtrans; cbn; ring. Qed.
Lemma rot_back m x : rotation m -> mvec m (mvec (mtrans m) x) = x.
Proof. intros H. destruct (rotation_elim m H) as (_&E&_). rewrite <- mvec_mmul, E. apply mvec_id. Qed.
Lemma back_rot m x : rotation m -> mvec (mtrans m) (mvec m x) = x.
Proof. intros H. destruct (rotation_elim m H) as (E&_). rewrite <- mvec_mmul, E. apply mvec_id. Qed.
Lemma rot_norm m x : rotation m -> vnorm (mvec m x) = vnorm x.
Proof. intros (H&_). unfold vnorm, vnorm2. rewrite H. reflexivity. Qed.
Lemma back_norm m x : rotation m -> vnorm (mvec (mtrans m) x) = vnorm x.
Proof. intros H. rewrite <- (rot_norm m (mvec (mtrans m) x) H), rot_back by auto. reflexivity. Qed.

Lemma placed_convex b p m : convex b -> convex (placed b p m).
Proof.
  intros C x y k (x'&X&->) (y'&Y&->) K. exists (vadd (vscale (1 - k) x') (vscale k y')). split; [apply C; auto|]. rewrite mvec_add, !mvec_scale. apply vec_ext; cbn; ring.
Qed.
Lemma placed_support ok g b p m n : shaped ok g b -> ok (mvec (mtrans m) n) -> exists s, entry_support (Entry g p m) n = Some s /\ supports (placed b p m) n s.
Proof.
  intros (_&_&H) O. destruct (H _ O) as (s&E&B&M). unfold entry_support. cbn [en_geometry en_rot en_pos]. rewrite E. cbn [obind]. eexists. split; [reflexivity|]. split; [exists s; auto|].
  intros y (x&X&->). pose proof (M x X) as D. rewrite <- !trans_dot in D. unfold vdot in *. cbn in *. lra.
Qed.
Lemma placed_centre ok g b p m : shaped ok g b -> placed b p m (entry_centre (Entry g p m)). Proof. intros (_&C&_). exists (xc_centre g). auto. Qed.
Lemma placed_covered g b p m y : rotation m -> covered g b -> placed b p m y -> vnorm (vsub y p) <= xc_circumsphere g.
Proof. intros R C (x&X&->). replace (vsub (vadd (mvec m x) p) p) with (mvec m x) by (apply vec_ext; cbn; ring). rewrite rot_norm by auto. auto. Qed.
Definition solid_filled (g : xc) (b : body) : Prop := 0 <= xc_insphere g /\ filled g b.
Lemma placed_filled g b p m v : rotation m -> filled g b -> b vzero -> vnorm v < xc_insphere g \/ v = vzero -> placed b p m (vadd v p).
Proof.
  intros R F Z V. exists (mvec (mtrans m) v). split; [|rewrite rot_back by auto; reflexivity]. destruct V as [V| ->]; [apply F; rewrite back_norm by auto; exact V|].
  replace (mvec (mtrans m) vzero) with vzero by (apply vec_ext; cbn; ring). exact Z.
Qed.

(** How an element of the stack corresponds to a solid *)
Definition good (cov fil : Prop) (e : entry) (s : solid) : Prop :=
  en_pos e = so_pos s /\ en_rot e = so_rot s /\ rotation (so_rot s) /\ shaped (so_ok s) (en_geometry e) (so_body s) /\
  (cov -> covered (en_geometry e) (so_body s)) /\ (fil -> solid_filled (en_geometry e) (so_body s)).
Lemma good_support cov fil e s n : good cov fil e s -> there_ok s n -> exists v, entry_support e n = Some v /\ supports (there s) n v.
Proof. destruct e as [g p m]. intros (P&R&_&S&_). cbn in *. subst. intros O. apply (placed_support (so_ok s)); auto. Qed.
Lemma good_centre cov fil e s : good cov fil e s -> there s (entry_centre e).
Proof. destruct e as [g p m]. intros (P&R&_&S&_). cbn in *. subst. apply (placed_centre (so_ok s)). exact S. Qed.
Lemma good_convex cov fil e s : good cov fil e s -> convex (there s).
Proof. intros (_&_&_&(C&_)&_). apply placed_convex. exact C. Qed.

(** Sums *)
Lemma sum_convex a b : convex a -> convex b -> convex (sum_body a b).
Proof.
  intros A B x y k (x1&x2&X1&X2&->) (y1&y2&Y1&Y2&->) K. exists (vadd (vscale (1 - k) x1) (vscale k y1)), (vadd (vscale (1 - k) x2) (vscale k y2)).
  split; [apply A; auto|]. split; [apply B; auto|]. apply vec_ext; cbn; ring.
Qed.
Lemma diff_convex a b : convex a -> convex b -> convex (diff_body a b).
Proof.
  intros A B x y k (x1&x2&X1&X2&->) (y1&y2&Y1&Y2&->) K. exists (vadd (vscale (1 - k) x1) (vscale k y1)), (vadd (vscale (1 - k) x2) (vscale k y2)).
  split; [apply A; auto|]. split; [apply B; auto|]. apply vec_ext; cbn; ring.
Qed.
Lemma sum_supports a b n s t : supports a n s -> supports b n t -> supports (sum_body a b) n (vadd s t).
Proof.
  intros (A&MA) (B&MB). split; [exists s, t; auto|]. intros y (x1&x2&X1&X2&->). pose proof (MA x1 X1). pose proof (MB x2 X2). unfold vdot in *. cbn. lra.
Qed.
Lemma diff_supports a b n s t : supports a n s -> supports b (vneg n) t -> supports (diff_body a b) n (vsub s t).
Proof.
  intros (A&MA) (B&MB). split; [exists s, t; auto|]. intros y (x1&x2&X1&X2&->). pose proof (MA x1 X1). pose proof (MB x2 X2). unfold vdot in *. cbn in *. lra.
Qed.
Lemma zero_supports n : supports (point_body vzero) n vzero. Proof. split; [reflexivity|]. intros y ->. lra. Qed.
Section Lists.
Variables cov fil : Prop.
Lemma sum_all_convex es ss : Forall2 (good cov fil) es ss -> convex (sum_bodies (map there ss)).
Proof. intros F. induction F as [|e s es ss G F IH]; [apply (proj1 (point_ok vzero))|]. cbn. apply sum_convex; [eapply good_convex; eauto|exact IH]. Qed.
Lemma sum_support_spec n es ss : Forall2 (good cov fil) es ss -> (forall s, In s ss -> there_ok s n) -> forall p, exists v,
  fold_left (fun p e => p' <- p ;; s <- entry_support e n ;; Some (vadd p' s)) es (Some p) = Some (vadd p v) /\ supports (sum_bodies (map there ss)) n v.
Proof.
  intros F. induction F as [|e s es ss G F IH]; intros O p.
  - exists vzero. split; [cbn; f_equal; apply vec_ext; cbn; ring|apply zero_supports].
  - destruct (good_support _ _ _ _ n G (O s (or_introl eq_refl))) as (v&E&V). destruct (IH (fun s H => O s (or_intror H)) (vadd p v)) as (w&E2&W). exists (vadd v w). split.
    + cbn [fold_left obind]. rewrite E. cbn [obind]. rewrite E2. f_equal. apply vec_ext; cbn; ring.
    + cbn. apply sum_supports; auto.
Qed.
Lemma sum_centre es ss : Forall2 (good cov fil) es ss -> forall p, exists v, fold_left (fun p e => vadd p (entry_centre e)) es p = vadd p v /\ sum_bodies (map there ss) v.
Proof.
  intros F. induction F as [|e s es ss G F IH]; intros p.
  - exists vzero. split; [apply vec_ext; cbn; ring|reflexivity].
  - destruct (IH (vadd p (entry_centre e))) as (v&E&V). exists (vadd (entry_centre e) v). split; [cbn; rewrite E; apply vec_ext; cbn; ring|].
    cbn. exists (entry_centre e), v. split; [eapply good_centre; eauto|]. auto.
Qed.
Lemma fold_pos (es : list entry) : forall p, fold_left (fun c e => vadd c (en_pos e)) es p = vadd p (fold_left (fun c e => vadd c (en_pos e)) es vzero).
Proof. induction es as [|e es IH]; intros p; cbn; [apply vec_ext; cbn; ring|]. rewrite IH, (IH (vadd vzero (en_pos e))). apply vec_ext; cbn; ring. Qed.
Lemma fold_real (f : entry -> R) (es : list entry) : forall p, fold_left (fun c e => c + f e) es p = p + fold_left (fun c e => c + f e) es 0.
Proof. induction es as [|e es IH]; intros p; cbn; [ring|]. rewrite IH, (IH (0 + f e)). ring. Qed.
Lemma sum_covered es ss y : cov -> Forall2 (good cov fil) es ss -> sum_bodies (map there ss) y ->
  vnorm (vsub y (fold_left (fun c e => vadd c (en_pos e)) es vzero)) <= fold_left (fun c e => c + xc_circumsphere (en_geometry e)) es 0.
Proof.
  intros C F. revert y. induction F as [|e s es ss G F IH]; intros y Y.
  - cbn in Y. rewrite Y. cbn. replace (vsub vzero vzero) with vzero by (apply vec_ext; cbn; ring). rewrite vnorm_zero. lra.
  - cbn in Y. destruct Y as (x1&x2&X1&X2&->). cbn [fold_left]. rewrite fold_pos, fold_real. pose proof (IH x2 X2) as H. destruct G as (P&Q&R&S&GC&_). pose proof (placed_covered (en_geometry e) (so_body s) (so_pos s) (so_rot s) x1 R (GC C) X1) as H1.
    rewrite <- P in H1. pose proof (vnorm_triangle (vsub x1 (en_pos e)) (vsub x2 (fold_left (fun c e => vadd c (en_pos e)) es vzero))) as T.
    replace (vadd (vsub x1 (en_pos e)) _) with (vsub (vadd x1 x2) (vadd (vadd vzero (en_pos e)) (fold_left (fun c e => vadd c (en_pos e)) es vzero))) in T by (apply vec_ext; cbn; ring). lra.
Qed.
Lemma sum_insphere_nonneg es ss : fil -> Forall2 (good cov fil) es ss -> 0 <= fold_left (fun c e => c + xc_insphere (en_geometry e)) es 0.
Proof. intros H F. induction F as [|e s es ss G F IH]; [cbn; lra|]. cbn [fold_left]. rewrite fold_real. destruct G as (_&_&_&_&_&G). destruct (G H). lra. Qed.
Lemma sum_filled es ss z : fil -> Forall2 (good cov fil) es ss -> (forall s, In s ss -> so_body s vzero) -> vnorm z < 1 ->
  sum_bodies (map there ss) (vadd (vscale (fold_left (fun c e => c + xc_insphere (en_geometry e)) es 0) z) (fold_left (fun c e => vadd c (en_pos e)) es vzero)).
Proof.
  intros H F O Z. induction F as [|e s es ss G F IH].
  - cbn. unfold point_body. apply vec_ext; cbn; ring.
  - cbn [fold_left map sum_bodies fold_right]. rewrite fold_pos, fold_real. destruct G as (P&Q&R&S&_&GF). destruct (GF H) as (N&FF). exists (vadd (vscale (xc_insphere (en_geometry e)) z) (en_pos e)). eexists. split; [|split; [apply IH; intros; apply O; right; auto|apply vec_ext; cbn; ring]].
    rewrite P. apply (placed_filled (en_geometry e)); auto; [apply O; left; reflexivity|]. pose proof (vnorm_nonneg z). destruct N as [N|N]; [left; rewrite vnorm_scale, Rabs_pos_eq by lra; nra|right; rewrite <- N; apply vec_ext; cbn; ring].
Qed.
Lemma sum_ok es ss : Forall2 (good cov fil) es ss -> shaped (all_ok ss) (xc_sum es) (sum_bodies (map there ss)) /\ (cov -> covered (xc_sum es) (sum_bodies (map there ss))) /\
  (fil -> (forall s, In s ss -> so_body s vzero) -> solid_filled (xc_sum es) (sum_bodies (map there ss))).
Proof.
  intros F. split; [|split].
  - split; [eapply sum_all_convex; eauto|]. split.
    + destruct (sum_centre es ss F vzero) as (v&E&V). cbn [xc_sum xc_centre]. rewrite E. replace (vadd vzero v) with v by (apply vec_ext; cbn; ring). exact V.
    + intros n (N&O). destruct (sum_support_spec n es ss F O vzero) as (v&E&V). exists v. cbn [xc_sum xc_support]. unfold sum_support. rewrite E. split; [f_equal; apply vec_ext; cbn; ring|exact V].
  - intros C y Y. cbn [xc_sum xc_circumsphere]. pose proof (sum_covered es ss y C F Y) as H. set (p := fold_left _ es vzero) in *. pose proof (vnorm_triangle (vsub y p) p) as T. replace (vadd (vsub y p) p) with y in T by (apply vec_ext; cbn; ring). lra.
  - intros H O. split; [apply fmax_ge|]. intros y Y. cbn [xc_sum xc_insphere] in Y. set (p := fold_left (fun c e => vadd c (en_pos e)) es vzero) in *. set (q := fold_left (fun c e => c + xc_insphere (en_geometry e)) es 0) in *.
    assert (L : vnorm y + vnorm p < q). { pose proof (vnorm_nonneg y). destruct (fmax_one 0 (q - vnorm p)) as [E|E]; rewrite E in Y; lra. }
    pose proof (vnorm_nonneg y). pose proof (vnorm_nonneg p). assert (QP : 0 < q) by lra.
    pose proof (sum_filled es ss (vscale (/ q) (vsub y p)) H F O) as S. fold p q in S. replace (vadd (vscale q (vscale (/ q) (vsub y p))) p) with y in S by (apply vec_ext; cbn; field; lra). apply S.
    rewrite vnorm_scale, Rabs_pos_eq by (left; apply Rinv_0_lt_compat; exact QP). pose proof (vnorm_sub_triangle y p). apply Rmult_lt_reg_l with q; [exact QP|]. rewrite <- Rmult_assoc, Rinv_r, Rmult_1_l, Rmult_1_r by lra. lra.
Qed.
End Lists.
Lemma diff_ok cov fil e1 e2 s1 s2 : good cov fil e1 s1 -> good cov fil e2 s2 -> let b := diff_body (there s1) (there s2) in
  shaped (fun n => n <> vzero /\ there_ok s1 n /\ there_ok s2 (vneg n)) (xc_diff e1 e2) b /\ (cov -> covered (xc_diff e1 e2) b) /\
  (fil -> so_body s1 vzero -> so_body s2 vzero -> solid_filled (xc_diff e1 e2) b).
Proof.
  intros G1 G2 b. split; [|split].
  - split; [apply diff_convex; eapply good_convex; eauto|]. split; [exists (entry_centre e1), (entry_centre e2); repeat split; eapply good_centre; eauto|].
    intros n (_&O1&O2). destruct (good_support _ _ _ _ n G1 O1) as (v1&E1&V1). destruct (good_support _ _ _ _ (vneg n) G2 O2) as (v2&E2&V2).
    exists (vsub v1 v2). cbn [xc_diff xc_support]. rewrite E1. cbn [obind]. rewrite E2. split; [reflexivity|]. apply diff_supports; auto.
  - intros C y (x1&x2&X1&X2&->). cbn [xc_diff xc_circumsphere]. destruct G1 as (P1&_&R1&_&C1&_), G2 as (P2&_&R2&_&C2&_).
    pose proof (placed_covered _ _ _ _ x1 R1 (C1 C) X1) as H1. pose proof (placed_covered _ _ _ _ x2 R2 (C2 C) X2) as H2. rewrite P1, P2.
    pose proof (vnorm_triangle (vsub (so_pos s1) (so_pos s2)) (vsub (vsub x1 (so_pos s1)) (vsub x2 (so_pos s2)))) as T. pose proof (vnorm_sub_triangle (vsub x1 (so_pos s1)) (vsub x2 (so_pos s2))) as T2.
    replace (vadd (vsub (so_pos s1) (so_pos s2)) _) with (vsub x1 x2) in T by (apply vec_ext; cbn; ring). lra.
  - intros H O1 O2. split; [apply fmax_ge|]. intros y Y. cbn [xc_diff xc_insphere] in Y. destruct G1 as (P1&_&R1&_&_&F1), G2 as (P2&_&R2&_&_&F2). destruct (F1 H) as (N1&I1), (F2 H) as (N2&I2).
    rewrite P1, P2 in Y. set (p := vsub (so_pos s1) (so_pos s2)) in *. set (a := xc_insphere (en_geometry e1)) in *. set (c := xc_insphere (en_geometry e2)) in *.
    assert (L : vnorm y + vnorm p < a + c). { pose proof (vnorm_nonneg y). destruct (fmax_one 0 (a + c - vnorm p)) as [E|E]; rewrite E in Y; lra. }
    pose proof (vnorm_nonneg y). pose proof (vnorm_nonneg p). set (z := vscale (/ (a + c)) (vsub y p)). assert (QP : 0 < a + c) by lra.
    assert (Z : vnorm z < 1). { unfold z. rewrite vnorm_scale, Rabs_pos_eq by (left; apply Rinv_0_lt_compat; exact QP). pose proof (vnorm_sub_triangle y p). apply Rmult_lt_reg_l with (a + c); [exact QP|]. rewrite <- Rmult_assoc, Rinv_r, Rmult_1_l, Rmult_1_r by lra. lra. }
    exists (vadd (vscale a z) (so_pos s1)), (vadd (vscale (- c) z) (so_pos s2)). pose proof (vnorm_nonneg z).
    split; [|split; [|unfold z, p; apply vec_ext; cbn; field; lra]].
    + apply (placed_filled (en_geometry e1)); auto. fold a. destruct N1 as [N1|N1]; [left; rewrite vnorm_scale, Rabs_pos_eq by lra; nra|right; fold a in N1; rewrite <- N1; apply vec_ext; cbn; ring].
    + apply (placed_filled (en_geometry e2)); auto. fold c. destruct N2 as [N2|N2]; [left; rewrite vnorm_scale, Rabs_Ropp, Rabs_pos_eq by lra; nra|right; fold c in N2; rewrite <- N2; apply vec_ext; cbn; ring].
Qed.
