(** Algebra of 3-vectors and 3x3 matrices used by the other proof files. *)
From Coq Require Import Reals Lra Psatz.
From Verif Require Import GeomModel.
Open Scope R_scope.

Lemma vec_ext a b : vx a = vx b -> vy a = vy b -> vz a = vz b -> a = b.
Proof. destruct a, b; simpl; intros; subst; reflexivity. Qed.

Lemma vec_ext_axis a b : (forall i, vget a i = vget b i) -> a = b.
Proof. intros H; apply vec_ext; [exact (H AX)|exact (H AY)|exact (H AZ)]. Qed.

Lemma mat_ext a b : (forall i j, mget a i j = mget b i j) -> a = b.
Proof.
  intros H.
  pose proof (H AX AX) as H0. pose proof (H AX AY) as H1. pose proof (H AX AZ) as H2.
  pose proof (H AY AX) as H3. pose proof (H AY AY) as H4. pose proof (H AY AZ) as H5.
  pose proof (H AZ AX) as H6. pose proof (H AZ AY) as H7. pose proof (H AZ AZ) as H8.
  destruct a, b; simpl in *; subst; reflexivity.
Qed.

Ltac vec_ring := apply vec_ext; simpl; ring.
Ltac mat_ring := apply mat_ext; intros [] []; simpl; ring.

Lemma Rltb_true a b : Rltb a b = true <-> a < b.
Proof. unfold Rltb; destruct (Rlt_dec a b); split; intros; auto; discriminate. Qed.
Lemma Rltb_false a b : Rltb a b = false <-> b <= a.
Proof. unfold Rltb; destruct (Rlt_dec a b); split; intros; try discriminate; try lra; auto. Qed.
Lemma Rleb_true a b : Rleb a b = true <-> a <= b.
Proof. unfold Rleb; destruct (Rle_dec a b); split; intros; auto; discriminate. Qed.
Lemma Rleb_false a b : Rleb a b = false <-> b < a.
Proof. unfold Rleb; destruct (Rle_dec a b); split; intros; try discriminate; try lra; auto. Qed.
Lemma Reqb_true a b : Reqb a b = true <-> a = b.
Proof. unfold Reqb; destruct (Req_EM_T a b); split; intros; auto; discriminate. Qed.
Lemma Reqb_false a b : Reqb a b = false <-> a <> b.
Proof. unfold Reqb; destruct (Req_EM_T a b); split; intros; auto; try discriminate; contradiction. Qed.

Lemma vget_vmake f i : vget (vmake f) i = f i.
Proof. destruct i; reflexivity. Qed.
Lemma mget_mmake f i j : mget (mmake f) i j = f i j.
Proof. destruct i, j; reflexivity. Qed.

Lemma vget_vadd a b i : vget (vadd a b) i = vget a i + vget b i.
Proof. destruct i; reflexivity. Qed.
Lemma vget_vsub a b i : vget (vsub a b) i = vget a i - vget b i.
Proof. destruct i; reflexivity. Qed.
Lemma vget_vscale s a i : vget (vscale s a) i = s * vget a i.
Proof. destruct i; reflexivity. Qed.
Lemma vget_vneg a i : vget (vneg a) i = - vget a i.
Proof. destruct i; reflexivity. Qed.

Lemma mvec_add m a b : mvec m (vadd a b) = vadd (mvec m a) (mvec m b).
Proof. vec_ring. Qed.
Lemma mvec_sub m a b : mvec m (vsub a b) = vsub (mvec m a) (mvec m b).
Proof. vec_ring. Qed.
Lemma mvec_scale m s a : mvec m (vscale s a) = vscale s (mvec m a).
Proof. vec_ring. Qed.
Lemma mvec_mmul a b v : mvec (mmul a b) v = mvec a (mvec b v).
Proof. vec_ring. Qed.
Lemma mvec_id v : mvec mid v = v.
Proof. vec_ring. Qed.
Lemma mvec_zero m : mvec m vzero = vzero.
Proof. vec_ring. Qed.
Lemma mmul_assoc a b c : mmul a (mmul b c) = mmul (mmul a b) c.
Proof. mat_ring. Qed.
Lemma mmul_id_l a : mmul mid a = a.
Proof. mat_ring. Qed.
Lemma mmul_id_r a : mmul a mid = a.
Proof. mat_ring. Qed.
Lemma mtrans_mmul a b : mtrans (mmul a b) = mmul (mtrans b) (mtrans a).
Proof. mat_ring. Qed.
Lemma mtrans_invol a : mtrans (mtrans a) = a.
Proof. mat_ring. Qed.
Lemma mdet_mmul a b : mdet (mmul a b) = mdet a * mdet b.
Proof. unfold mdet; simpl; ring. Qed.
Lemma mdet_trans a : mdet (mtrans a) = mdet a.
Proof. unfold mdet; simpl; ring. Qed.
Lemma mdet_id : mdet mid = 1.
Proof. unfold mdet; simpl; ring. Qed.

Lemma vadd_comm a b : vadd a b = vadd b a.
Proof. vec_ring. Qed.
Lemma vadd_assoc a b c : vadd a (vadd b c) = vadd (vadd a b) c.
Proof. vec_ring. Qed.
Lemma vadd_zero_r a : vadd a vzero = a.
Proof. vec_ring. Qed.

Lemma vnorm2_nonneg a : 0 <= vnorm2 a.
Proof. unfold vnorm2, vdot; nra. Qed.
Lemma vnorm2_zero a : vnorm2 a = 0 -> a = vzero.
Proof.
  unfold vnorm2, vdot; intros H. apply vec_ext; simpl; nra.
Qed.
Lemma vnorm_sqr a : vnorm a * vnorm a = vnorm2 a.
Proof. unfold vnorm; apply sqrt_sqrt, vnorm2_nonneg. Qed.
Lemma vnorm_nonneg a : 0 <= vnorm a.
Proof. apply sqrt_pos. Qed.
Lemma vnorm_pos a : a <> vzero -> 0 < vnorm a.
Proof.
  intros H. apply sqrt_lt_R0.
  destruct (Rle_lt_or_eq_dec 0 (vnorm2 a) (vnorm2_nonneg a)) as [Hl|He]; auto.
  exfalso; apply H, vnorm2_zero; auto.
Qed.

(** Lagrange's identity and Cauchy-Schwarz. *)
Lemma lagrange a b : vdot a b * vdot a b + vnorm2 (vcross a b) = vnorm2 a * vnorm2 b.
Proof. unfold vnorm2, vdot; simpl; ring. Qed.
Lemma cauchy_schwarz2 a b : vdot a b * vdot a b <= vnorm2 a * vnorm2 b.
Proof. rewrite <- lagrange. pose proof (vnorm2_nonneg (vcross a b)); lra. Qed.
Lemma cauchy_schwarz a b : Rabs (vdot a b) <= vnorm a * vnorm b.
Proof.
  unfold vnorm. rewrite <- sqrt_mult by apply vnorm2_nonneg.
  rewrite <- sqrt_Rsqr_abs. apply sqrt_le_1_alt. unfold Rsqr. apply cauchy_schwarz2.
Qed.
Lemma vdot_comm a b : vdot a b = vdot b a.
Proof. unfold vdot; ring. Qed.

Lemma vnorm_triangle a b : vnorm (vadd a b) <= vnorm a + vnorm b.
Proof.
  pose proof (vnorm_nonneg a). pose proof (vnorm_nonneg b).
  apply Rsqr_incr_0; [|apply vnorm_nonneg|lra].
  unfold Rsqr. rewrite vnorm_sqr.
  replace ((vnorm a + vnorm b) * (vnorm a + vnorm b))
    with (vnorm a * vnorm a + vnorm b * vnorm b + 2 * (vnorm a * vnorm b)) by ring.
  rewrite !vnorm_sqr.
  pose proof (cauchy_schwarz a b) as Hc.
  pose proof (Rle_abs (vdot a b)).
  replace (vnorm2 (vadd a b)) with (vnorm2 a + vnorm2 b + 2 * vdot a b) by (unfold vnorm2, vdot; simpl; ring).
  lra.
Qed.

(** The inverse. *)
Lemma minverse_Some m i : minverse m = Some i -> mmul m i = mid /\ mmul i m = mid /\ mdet m <> 0.
Proof.
  unfold minverse. destruct (Reqb (mdet m) 0) eqn:E; [discriminate|].
  apply Reqb_false in E. intros H; injection H as H; subst i.
  destruct m as [a b c d e f g h k]. unfold mdet in *; simpl in *.
  repeat split; auto; apply mat_ext; intros [] []; simpl; unfold mminor; simpl; field; auto.
Qed.
Lemma minverse_None m : minverse m = None <-> mdet m = 0.
Proof.
  unfold minverse. destruct (Reqb (mdet m) 0) eqn:E.
  - apply Reqb_true in E; tauto.
  - apply Reqb_false in E. split; [discriminate|contradiction].
Qed.
Lemma minverse_det m : mdet m <> 0 -> exists i, minverse m = Some i.
Proof.
  intros H. destruct (minverse m) eqn:E; eauto.
  apply minverse_None in E; contradiction.
Qed.
Lemma minverse_unique m i j : mmul i m = mid -> mmul m j = mid -> i = j.
Proof.
  intros H1 H2. rewrite <- (mmul_id_r i), <- H2, mmul_assoc, H1. apply mmul_id_l.
Qed.

(** A singular matrix has a non-trivial kernel. *)
Lemma mdet_zero_kernel m : mdet m = 0 -> exists v, v <> vzero /\ mvec m v = vzero.
Proof.
  intros Hd. destruct m as [a b c d e f g h k]. unfold mdet in Hd; simpl in Hd.
  (* columns of the adjugate *)
  assert (Hnz : forall x y z, ~ (x = 0 /\ y = 0 /\ z = 0) -> V3 x y z <> vzero).
  { intros x y z Hn E. apply Hn. unfold vzero in E. injection E as -> -> ->. auto. }
  destruct (Req_EM_T (e*k-f*h) 0) as [E1|N1].
  2:{ exists (V3 (e*k-f*h) (f*g-d*k) (d*h-e*g)). split; [apply Hnz; tauto|].
      apply vec_ext; simpl; nra. }
  destruct (Req_EM_T (f*g-d*k) 0) as [E2|N2].
  2:{ exists (V3 (e*k-f*h) (f*g-d*k) (d*h-e*g)). split; [apply Hnz; tauto|].
      apply vec_ext; simpl; nra. }
  destruct (Req_EM_T (d*h-e*g) 0) as [E3|N3].
  2:{ exists (V3 (e*k-f*h) (f*g-d*k) (d*h-e*g)). split; [apply Hnz; tauto|].
      apply vec_ext; simpl; nra. }
  destruct (Req_EM_T (c*h-b*k) 0) as [E4|N4].
  2:{ exists (V3 (c*h-b*k) (a*k-c*g) (b*g-a*h)). split; [apply Hnz; tauto|].
      apply vec_ext; simpl; nra. }
  destruct (Req_EM_T (a*k-c*g) 0) as [E5|N5].
  2:{ exists (V3 (c*h-b*k) (a*k-c*g) (b*g-a*h)). split; [apply Hnz; tauto|].
      apply vec_ext; simpl; nra. }
  destruct (Req_EM_T (b*g-a*h) 0) as [E6|N6].
  2:{ exists (V3 (c*h-b*k) (a*k-c*g) (b*g-a*h)). split; [apply Hnz; tauto|].
      apply vec_ext; simpl; nra. }
  destruct (Req_EM_T (b*f-c*e) 0) as [E7|N7].
  2:{ exists (V3 (b*f-c*e) (c*d-a*f) (a*e-b*d)). split; [apply Hnz; tauto|].
      apply vec_ext; simpl; nra. }
  destruct (Req_EM_T (c*d-a*f) 0) as [E8|N8].
  2:{ exists (V3 (b*f-c*e) (c*d-a*f) (a*e-b*d)). split; [apply Hnz; tauto|].
      apply vec_ext; simpl; nra. }
  destruct (Req_EM_T (a*e-b*d) 0) as [E9|N9].
  2:{ exists (V3 (b*f-c*e) (c*d-a*f) (a*e-b*d)). split; [apply Hnz; tauto|].
      apply vec_ext; simpl; nra. }
  (* all minors vanish: use a vector orthogonal to a non-zero row *)
  destruct (Req_EM_T a 0) as [A0|A0].
  2:{ exists (V3 (-b) a 0). split; [apply Hnz; intros (_&?&_); contradiction|].
      apply vec_ext; simpl; lra. }
  destruct (Req_EM_T b 0) as [B0|B0].
  2:{ exists (V3 (-b) a 0). split; [apply Hnz; intros (?&_&_); lra|].
      apply vec_ext; simpl; lra. }
  destruct (Req_EM_T c 0) as [C0|C0].
  2:{ exists (V3 0 (-c) b). split; [apply Hnz; intros (_&?&_); lra|].
      apply vec_ext; simpl; lra. }
  destruct (Req_EM_T d 0) as [D0|D0].
  2:{ exists (V3 (-e) d 0). split; [apply Hnz; intros (_&?&_); lra|].
      apply vec_ext; simpl; subst; lra. }
  destruct (Req_EM_T e 0) as [EE0|EE0].
  2:{ exists (V3 (-e) d 0). split; [apply Hnz; intros (?&_&_); lra|].
      apply vec_ext; simpl; subst; lra. }
  destruct (Req_EM_T f 0) as [F0|F0].
  2:{ exists (V3 0 (-f) e). split; [apply Hnz; intros (_&?&_); lra|].
      apply vec_ext; simpl; subst; lra. }
  destruct (Req_EM_T g 0) as [G0|G0].
  2:{ exists (V3 (-h) g 0). split; [apply Hnz; intros (_&?&_); lra|].
      apply vec_ext; simpl; subst; lra. }
  subst. exists (V3 1 0 0). split; [apply Hnz; intros (?&_&_); lra|].
  apply vec_ext; simpl; lra.
Qed.
