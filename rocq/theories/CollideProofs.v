From Coq Require Import Reals List Bool Arith Lia Lra Psatz.
From Verif Require Import OptModel GeomModel GeomProofs SegErrorProofs GeoModel GeoProofs RotSpec RotProofs XcModel XcSpec XcPrimProofs XcRoundProofs XcOpProofs CollideModel CollideSpec.
Import ListNotations.
Open Scope R_scope.

Ltac vring := unfold vdot, vcross, vsub, vneg, vadd, vscale; cbn; ring.
Section Difference.
Variable support : vec -> option vec.
Variable D : body.
Variable v0 : vec.
Hypothesis D_convex : convex D.
Hypothesis D_v0 : D v0.
Hypothesis exact : forall n, n <> vzero -> exists s, support n = Some s /\ supports D n s.

Definition below (t : R) : Prop := exists u, vnorm u = 1 /\ forall d, D d -> vdot d u <= t.
Definition close (t : R) : Prop := exists d, D d /\ vnorm d <= t.
Definition answered (t : R) (o : outcome) : Prop := match o with Undefined => False | Answer false => below t | _ => True end.
Lemma below_of n v t : n <> vzero -> supports D n v -> vdot v n <= 0 -> 0 <= t -> below t.
Proof.
  intros N (_&M) L T. destruct (normalized_some n N) as (u&E&U&S). exists u. split; [exact U|]. intros d Dd. specialize (M d Dd). assert (K : 0 < vnorm n) by (apply vnorm_pos; exact N).
  assert (Q : vdot d n = vnorm n * vdot d u) by (rewrite S at 1; vring). nra.
Qed.
Lemma nonzero_dot n v : vdot n v <> 0 -> n <> vzero. Proof. intros H ->. apply H. unfold vdot; cbn; ring. Qed.
Lemma not_tiny_nonzero v : is_vector_zero v = false -> v <> vzero.
Proof. intros H ->. rewrite (proj2 (is_zero_spec vzero)) in H; [discriminate|]. cbn. rewrite Rabs_R0. pose proof ZERO_pos. lra. Qed.
(** The first loop *)
Lemma find_portal_spec t : 0 <= t -> forall fuel v1 v2 n, D v1 -> D v2 -> n = vcross (vsub v1 v0) (vsub v2 v0) -> vdot (vcross v1 v2) v0 < 0 ->
  match find_portal support v0 fuel v1 v2 n with
  | Searching => True | Lost => False | Missed => below t
  | Found (w1, w2, w3) => D w1 /\ D w2 /\ D w3 /\ vdot (vcross w2 w1) v0 > 0 /\ vdot (vcross w1 w3) v0 >= 0 /\ vdot (vcross w3 w2) v0 >= 0
  end.
Proof.
  intros T. induction fuel as [|fuel IH]; intros v1 v2 n D1 D2 N I; cbn [find_portal]; [exact Logic.I|].
  assert (NZ : n <> vzero). { apply (nonzero_dot n v0). rewrite N. replace (vdot (vcross (vsub v1 v0) (vsub v2 v0)) v0) with (vdot (vcross v1 v2) v0) by vring. lra. }
  destruct (exact n NZ) as (v3&E&S). rewrite E. destruct (Rleb (vdot v3 n) 0) eqn:L; [apply Rleb_true in L; apply (below_of n v3); auto|].
  destruct (Rltb (vdot (vcross v1 v3) v0) 0) eqn:A; [apply Rltb_true in A; apply IH; auto; apply S|]. destruct (Rltb (vdot (vcross v3 v2) v0) 0) eqn:B; [apply Rltb_true in B; apply IH; auto; apply S|].
  apply Rltb_false in A, B. destruct S as (S&_). replace (vdot (vcross v2 v1) v0) with (- vdot (vcross v1 v2) v0) by vring. repeat split; auto; lra.
Qed.
(** The second one: the miss *)
Lemma next_portal_in p v4 : let '(v1, v2, v3) := p in D v1 -> D v2 -> D v3 -> D v4 -> let '(w1, w2, w3) := next_portal v0 p v4 in D w1 /\ D w2 /\ D w3.
Proof. destruct p as ((v1&v2)&v3). intros. unfold next_portal. destruct (Rltb 0 (vdot v1 (vcross v4 v0))); destruct (Rltb 0 _); auto. Qed.
Lemma refine_miss t : 0 <= t -> forall fuel p, (let '(v1, v2, v3) := p in D v1 /\ D v2 /\ D v3) -> answered t (refine_portal support v0 fuel t p).
Proof.
  intros T. induction fuel as [|fuel IH]; intros p I; cbn [refine_portal]; [exact Logic.I|]. destruct p as ((v1&v2)&v3). destruct I as (D1&D2&D3).
  set (n := portal_normal (v1, v2, v3)). destruct (Rleb 0 (vdot n v1)) eqn:H; [exact Logic.I|]. apply Rleb_false in H. assert (NZ : n <> vzero) by (apply (nonzero_dot n v1); lra).
  destruct (exact n NZ) as (v4&E&S). rewrite E. destruct (normalized_some n NZ) as (u&Eu&U&Q). rewrite Eu. assert (K : 0 < vnorm n) by (apply vnorm_pos; exact NZ).
  assert (QD : forall d, vdot d n = vnorm n * vdot d u) by (intros d; rewrite Q at 1; vring).
  destruct (Rleb 0 (- vdot v4 u)) eqn:M1.
  - apply Rleb_true in M1. cbn [orb answered]. apply (below_of n v4); auto. rewrite QD. nra.
  - destruct (Rleb (vdot (vsub v4 v3) u) t) eqn:M2.
    + apply Rleb_true in M2. cbn [orb answered]. exists u. split; [exact U|]. intros d Dd. destruct S as (_&S). specialize (S d Dd). rewrite !QD in S.
      assert (E3 : vdot v3 n = vdot n v1) by (unfold n, portal_normal; vring). rewrite QD in E3. assert (vdot (vsub v4 v3) u = vdot v4 u - vdot v3 u) by vring. nra.
    + cbn [orb]. apply IH. pose proof (next_portal_in (v1, v2, v3) v4) as X. cbn in X. apply X; auto. apply S.
Qed.
Lemma intersect_miss t fuel1 fuel2 : 0 <= t -> answered t (intersect_difference support v0 fuel1 fuel2 t).
Proof.
  intros T. unfold intersect_difference, start. destruct (is_vector_zero v0) eqn:Z; [exact I|]. pose proof (not_tiny_nonzero v0 Z) as NZ.
  assert (N1 : vneg v0 <> vzero). { intros E. apply NZ. apply (f_equal vneg) in E. destruct v0 as [x y z]. cbn in E. injection E as E1 E2 E3. apply vec_ext; cbn; lra. }
  destruct (exact _ N1) as (v1&E1&S1). rewrite E1. destruct (Rleb (vdot v1 (vneg v0)) 0) eqn:L1; [apply Rleb_true in L1; apply (below_of _ v1 t N1); auto|].
  destruct (is_vector_zero (vcross v1 v0)) eqn:Z2; [exact I|]. pose proof (not_tiny_nonzero _ Z2) as N2. destruct (exact _ N2) as (v2&E2&S2). rewrite E2.
  destruct (Rleb (vdot v2 (vcross v1 v0)) 0) eqn:L2; [apply Rleb_true in L2; apply (below_of _ v2 t N2); auto|]. apply Rleb_false in L2.
  assert (A : vdot (vcross v1 v2) v0 = - vdot v2 (vcross v1 v0)) by vring. assert (B : vdot (vcross (vsub v1 v0) (vsub v2 v0)) v0 = vdot (vcross v1 v2) v0) by vring.
  destruct (Rltb 0 (vdot (vcross (vsub v1 v0) (vsub v2 v0)) v0)) eqn:L3; [apply Rltb_true in L3; lra|].
  pose proof (find_portal_spec t T fuel1 v1 v2 _ (proj1 S1) (proj1 S2) eq_refl ltac:(lra)) as F. destruct (find_portal support v0 fuel1 v1 v2 _) as [| | |((w1&w2)&w3)]; try exact F. apply refine_miss; tauto.
Qed.
(** The hit *)
Definition around (p : portal) : Prop := let '(v1, v2, v3) := p in
  vdot (vcross v2 v1) v0 >= 0 /\ vdot (vcross v3 v2) v0 >= 0 /\ vdot (vcross v1 v3) v0 >= 0 /\ 0 < vdot (vcross v2 v1) v0 + vdot (vcross v3 v2) v0 + vdot (vcross v1 v3) v0.
Lemma convex3 x y z a b c : D x -> D y -> D z -> 0 <= a -> 0 <= b -> 0 <= c -> a + b + c = 1 -> D (vadd (vscale a x) (vadd (vscale b y) (vscale c z))).
Proof.
  intros X Y Z A B C S1. destruct (Req_dec a 1) as [E|E].
  - assert (b = 0) by lra. assert (c = 0) by lra. subst. replace (vadd _ _) with x by (apply vec_ext; cbn; ring). exact X.
  - replace (vadd (vscale a x) (vadd (vscale b y) (vscale c z))) with (vadd (vscale (1 - (1 - a)) x) (vscale (1 - a) (vadd (vscale (1 - c / (1 - a)) y) (vscale (c / (1 - a)) z)))).
    + apply D_convex; auto; [|lra]. apply D_convex; auto. split; [apply Rmult_le_pos; [lra|left; apply Rinv_0_lt_compat; lra]|]. apply Rmult_le_reg_r with (1 - a); [lra|]. unfold Rdiv. rewrite Rmult_assoc, Rinv_l by lra. lra.
    + assert (Q : b = 1 - a - c) by lra. rewrite Q. apply vec_ext; cbn; field; lra.
Qed.
Lemma origin_inside v1 v2 v3 : D v1 -> D v2 -> D v3 -> around (v1, v2, v3) -> 0 <= vdot (portal_normal (v1, v2, v3)) v1 -> D vzero.
Proof.
  intros D1 D2 D3 (A&B&C&P) N. set (a := vdot (vcross v2 v1) v0) in *. set (b := vdot (vcross v3 v2) v0) in *. set (c := vdot (vcross v1 v3) v0) in *. set (k := vdot (portal_normal (v1, v2, v3)) v1) in *.
  assert (Z : vadd (vscale k v0) (vadd (vscale b v1) (vadd (vscale c v2) (vscale a v3))) = vzero) by (unfold k, a, b, c, portal_normal; apply vec_ext; vring).
  set (w := a + b + c) in *. assert (T : D (vadd (vscale (b / w) v1) (vadd (vscale (c / w) v2) (vscale (a / w) v3)))).
  { assert (I : 0 < / w) by (apply Rinv_0_lt_compat; lra). apply convex3; auto; try (unfold Rdiv; nra). unfold w. field. fold w. lra. }
  pose proof (D_convex v0 _ (w / (k + w)) D_v0 T) as R. replace vzero with (vadd (vscale (1 - w / (k + w)) v0) (vscale (w / (k + w)) (vadd (vscale (b / w) v1) (vadd (vscale (c / w) v2) (vscale (a / w) v3))))).
  - apply R. split; [apply Rmult_le_pos; [lra|left; apply Rinv_0_lt_compat; lra]|]. apply Rmult_le_reg_r with (k + w); [lra|]. unfold Rdiv. rewrite Rmult_assoc, Rinv_l by lra. lra.
  - transitivity (vscale (/ (k + w)) (vadd (vscale k v0) (vadd (vscale b v1) (vadd (vscale c v2) (vscale a v3))))); [apply vec_ext; cbn; field; lra|]. rewrite Z. apply vec_ext; cbn; ring.
Qed.
Lemma next_around v1 v2 v3 v4 : around (v1, v2, v3) -> ~ tied v0 (v1, v2, v3) v4 -> around (next_portal v0 (v1, v2, v3) v4).
Proof.
  intros (A&B&C&P) NT. unfold tied in NT. unfold next_portal. set (a := vdot (vcross v2 v1) v0) in *. set (b := vdot (vcross v3 v2) v0) in *. set (c := vdot (vcross v1 v3) v0) in *.
  assert (E1 : vdot v1 (vcross v4 v0) = vdot (vcross v1 v4) v0) by vring. assert (E2 : vdot v2 (vcross v4 v0) = vdot (vcross v2 v4) v0) by vring. assert (E3 : vdot v3 (vcross v4 v0) = vdot (vcross v3 v4) v0) by vring.
  rewrite E1, E2, E3. set (s1 := vdot (vcross v1 v4) v0) in *. set (s2 := vdot (vcross v2 v4) v0) in *. set (s3 := vdot (vcross v3 v4) v0) in *.
  assert (R : b * s1 + c * s2 + a * s3 = 0) by (unfold a, b, c, s1, s2, s3; vring).
  assert (N1 : vdot (vcross v4 v1) v0 = - s1) by (unfold s1; vring). assert (N2 : vdot (vcross v4 v2) v0 = - s2) by (unfold s2; vring). assert (N3 : vdot (vcross v4 v3) v0 = - s3) by (unfold s3; vring).
  destruct (Rltb 0 s1) eqn:T1; [apply Rltb_true in T1; destruct (Rltb 0 s2) eqn:T2; [apply Rltb_true in T2|apply Rltb_false in T2]|apply Rltb_false in T1; destruct (Rltb 0 s3) eqn:T3; [apply Rltb_true in T3|apply Rltb_false in T3]];
    unfold around; fold a b c; fold s1 s2 s3; rewrite ?N1, ?N2, ?N3.
  - assert (s3 <= 0). { destruct (Rle_or_lt s3 0) as [H|H]; [exact H|]. exfalso. assert (0 <= b * s1) by nra. assert (0 <= c * s2) by nra. assert (0 <= a * s3) by nra. assert (b = 0) by nra. assert (c = 0) by nra. assert (a = 0) by nra. lra. }
    repeat split; lra.
  - repeat split; lra.
  - repeat split; lra.
  - assert (S1 : s1 < 0) by (destruct T1 as [?|E]; [assumption|exfalso; apply NT; left; exact E]). assert (S3 : s3 < 0) by (destruct T3 as [?|E]; [assumption|exfalso; apply NT; right; exact E]).
    assert (0 <= s2). { destruct (Rle_or_lt 0 s2) as [H|H]; [exact H|]. exfalso. assert (0 <= b * - s1) by nra. assert (0 <= c * - s2) by nra. assert (0 <= a * - s3) by nra. assert (b = 0) by nra. assert (c = 0) by nra. assert (a = 0) by nra. lra. }
    repeat split; lra.
Qed.
Lemma refine_hit t : no_ties support v0 -> forall fuel p, visited support v0 p -> (let '(v1, v2, v3) := p in D v1 /\ D v2 /\ D v3) -> around p -> refine_portal support v0 fuel t p = Answer true -> D vzero.
Proof.
  intros NT. induction fuel as [|fuel IH]; intros p V I A; cbn [refine_portal]; [discriminate|]. destruct p as ((v1&v2)&v3). destruct I as (D1&D2&D3).
  set (n := portal_normal (v1, v2, v3)). destruct (Rleb 0 (vdot n v1)) eqn:H; [apply Rleb_true in H; intros _; apply (origin_inside v1 v2 v3); auto|]. apply Rleb_false in H.
  assert (NZ : n <> vzero) by (apply (nonzero_dot n v1); lra). destruct (exact n NZ) as (v4&E&S). rewrite E. destruct (normalized n) as [u|]; [|discriminate].
  destruct (Rleb 0 (- vdot v4 u) || Rleb (vdot (vsub v4 v3) u) t); [discriminate|]. apply IH.
  - apply vi_next; auto.
  - pose proof (next_portal_in (v1, v2, v3) v4) as X. cbn in X. apply X; auto. apply S.
  - apply next_around; [exact A|]. apply (NT _ v4); auto.
Qed.
Lemma tiny_norm v : is_vector_zero v = true -> vnorm v <= 2 * ZERO.
Proof.
  intros H. apply is_zero_spec in H. destruct H as (X&Y&Z). pose proof ZERO_pos. apply norm_bound; [lra|]. destruct v as [x y z]. cbn in *. apply Rabs_def2 in X, Y, Z.
  assert (x * x <= ZERO * ZERO) by nra. assert (y * y <= ZERO * ZERO) by nra. assert (z * z <= ZERO * ZERO) by nra. unfold vnorm2, vdot. cbn [vx vy vz]. replace ((2 * ZERO) ^ 2) with (4 * (ZERO * ZERO)) by ring. assert (0 <= ZERO * ZERO) by nra. lra.
Qed.
(** The origin seen at an obtuse angle from a segment *)
Lemma obtuse x y : vdot x y < 0 -> D x -> D y -> exists d, D d /\ vnorm d * vnorm d <= vnorm (vcross x y).
Proof.
  intros O X Y. set (q := vnorm2 (vsub y x)). assert (Q : q = vnorm2 x + vnorm2 y - 2 * vdot x y) by (unfold q, vnorm2; vring). pose proof (vnorm2_nonneg x). pose proof (vnorm2_nonneg y).
  assert (QP : 0 < q) by lra. set (k := (vnorm2 x - vdot x y) / q). assert (K : 0 <= k <= 1).
  { split; [apply Rmult_le_pos; [lra|left; apply Rinv_0_lt_compat; exact QP]|]. apply Rmult_le_reg_r with q; [exact QP|]. unfold k, Rdiv. rewrite Rmult_assoc, Rinv_l by lra. lra. }
  exists (vadd (vscale (1 - k) x) (vscale k y)). split; [apply D_convex; auto|]. set (d := vadd (vscale (1 - k) x) (vscale k y)).
  assert (C : vnorm2 (vcross x y) = vnorm2 x * vnorm2 y - vdot x y ^ 2) by (unfold vnorm2; vring).
  assert (DD : vnorm2 d * q = vnorm2 (vcross x y)).
  { rewrite C. transitivity ((vnorm2 x - 2 * k * (vnorm2 x - vdot x y) + k ^ 2 * q) * q); [unfold d, q, vnorm2; vring|]. unfold k. transitivity (vnorm2 x * q - (vnorm2 x - vdot x y) ^ 2); [field; lra|]. rewrite Q. ring. }
  unfold vnorm at 1 2. rewrite sqrt_sqrt by apply vnorm2_nonneg. pose proof (vnorm2_nonneg d).
  assert (L : vnorm2 d <= q).
  { assert (E : vnorm2 d = vnorm2 x - (vnorm2 x - vdot x y) ^ 2 / q). { transitivity (vnorm2 x - 2 * k * (vnorm2 x - vdot x y) + k ^ 2 * q); [unfold d, q, vnorm2; vring|]. unfold k. field. lra. }
    assert (0 <= (vnorm2 x - vdot x y) ^ 2 / q) by (apply Rmult_le_pos; [apply pow2_ge_0|left; apply Rinv_0_lt_compat; exact QP]). lra. }
  unfold vnorm. apply sq_le; [apply sqrt_pos|]. rewrite pow2_sqrt by apply vnorm2_nonneg. nra.
Qed.
Lemma intersect_hit t fuel1 fuel2 : no_ties support v0 -> intersect_difference support v0 fuel1 fuel2 t = Answer true -> close (2 / 10 ^ 6).
Proof.
  intros NT. unfold intersect_difference. destruct (start support v0) as [o|u1 u2 m] eqn:ST.
  - intros ->. unfold start in ST. destruct (is_vector_zero v0) eqn:Z.
    + exists v0. split; [exact D_v0|]. pose proof (tiny_norm _ Z). unfold ZERO in *. lra.
    + pose proof (not_tiny_nonzero v0 Z) as NZ.
      assert (N1 : vneg v0 <> vzero). { intros E. apply NZ. apply (f_equal vneg) in E. destruct v0 as [x y z]. cbn in E. injection E as E1 E2 E3. apply vec_ext; cbn; lra. }
      destruct (exact _ N1) as (v1&E1&S1). rewrite E1 in ST. destruct (Rleb (vdot v1 (vneg v0)) 0) eqn:L1; [discriminate|]. apply Rleb_false in L1.
      destruct (is_vector_zero (vcross v1 v0)) eqn:Z2.
      * destruct (obtuse v1 v0) as (d&Dd&L); [enough (vdot v1 (vneg v0) = - vdot v1 v0) by lra; vring|apply S1|exact D_v0|]. exists d. split; [exact Dd|]. pose proof (tiny_norm _ Z2). apply sq_le; [lra|]. unfold ZERO in *. lra.
      * destruct (support (vcross v1 v0)) as [v2|]; [|discriminate]. destruct (Rleb (vdot v2 (vcross v1 v0)) 0); [discriminate|]. destruct (Rltb 0 _); discriminate.
  - assert (FP : forall p, find_portal support v0 fuel1 u1 u2 m = Found p -> visited support v0 p) by (intros p E; constructor; exists fuel1, u1, u2, m; auto).
    unfold start in ST. destruct (is_vector_zero v0) eqn:Z; [discriminate|]. pose proof (not_tiny_nonzero v0 Z) as NZ.
    assert (N1 : vneg v0 <> vzero). { intros E. apply NZ. apply (f_equal vneg) in E. destruct v0 as [x y z]. cbn in E. injection E as E1 E2 E3. apply vec_ext; cbn; lra. }
    destruct (exact _ N1) as (v1&E1&S1). rewrite E1 in ST. destruct (Rleb (vdot v1 (vneg v0)) 0) eqn:L1; [discriminate|].
    destruct (is_vector_zero (vcross v1 v0)) eqn:Z2; [discriminate|]. pose proof (not_tiny_nonzero _ Z2) as N2. destruct (exact _ N2) as (v2&E2&S2). rewrite E2 in ST. destruct (Rleb (vdot v2 (vcross v1 v0)) 0) eqn:L2; [discriminate|]. apply Rleb_false in L2.
    assert (A : vdot (vcross v1 v2) v0 = - vdot v2 (vcross v1 v0)) by vring. assert (B : vdot (vcross (vsub v1 v0) (vsub v2 v0)) v0 = vdot (vcross v1 v2) v0) by vring.
    destruct (Rltb 0 (vdot (vcross (vsub v1 v0) (vsub v2 v0)) v0)) eqn:L3; [apply Rltb_true in L3; lra|]. injection ST as <- <- <-.
    pose proof (find_portal_spec 0 (Rle_refl 0) fuel1 v1 v2 _ (proj1 S1) (proj1 S2) eq_refl ltac:(lra)) as F. destruct (find_portal support v0 fuel1 v1 v2 _) as [| | |((w1&w2)&w3)]; try discriminate.
    destruct F as (F1&F2&F3&F4&F5&F6). intros H. exists vzero. split; [|rewrite vnorm_zero; lra]. apply (refine_hit t NT fuel2 (w1, w2, w3)); auto. unfold around. repeat split; lra.
Qed.
End Difference.
