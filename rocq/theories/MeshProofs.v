From Coq Require Import Reals List Arith Lia Lra Psatz.
From Verif Require Import GeomModel GeomProofs GeoModel RotSpec RotProofs XcModel XcSpec MeshModel MeshSpec OptModel.
Import ListNotations.
Open Scope R_scope.

Ltac vecs := intros; unfold vnorm2 in *; unfold vdot, vadd, vsub, vscale, vneg, vcross in *; cbn [vx vy vz] in *.
Lemma unit_dot v : unit_vec v <-> vdot v v = 1.
Proof.
  unfold unit_vec. split; intros H.
  - change (vdot v v) with (vnorm2 v). rewrite <- vnorm_sqr, H. lra.
  - unfold vnorm. change (vnorm2 v) with (vdot v v). rewrite H. apply sqrt_1.
Qed.
Lemma dot_le_1 a b : unit_vec a -> unit_vec b -> vdot a b <= 1.
Proof.
  rewrite !unit_dot. intros A B. pose proof (vnorm2_nonneg (vsub a b)) as N.
  assert (E : vnorm2 (vsub a b) = vdot a a + vdot b b - 2 * vdot a b) by (vecs; ring). lra.
Qed.
Lemma vdot_add_l a b c : vdot (vadd a b) c = vdot a c + vdot b c. Proof. vecs. ring. Qed.
Lemma vdot_add_r a b c : vdot a (vadd b c) = vdot a b + vdot a c. Proof. vecs. ring. Qed.
Lemma vdot_scale_l k a b : vdot (vscale k a) b = k * vdot a b. Proof. vecs. ring. Qed.
Lemma vdot_scale_r k a b : vdot a (vscale k b) = k * vdot a b. Proof. vecs. ring. Qed.
Lemma vdot_sub_r a b c : vdot a (vsub b c) = vdot a b - vdot a c. Proof. vecs. ring. Qed.
Lemma vadd_swap a b : vadd a b = vadd b a. Proof. apply vadd_comm. Qed.

(** *** Middles of arcs *)
Lemma middle_sym a b m : middle a b m -> middle b a m.
Proof. intros [U (k & K & S)]. split; [exact U|]. exists k. split; [exact K|]. rewrite vadd_swap. exact S. Qed.
Lemma middle_exists a b : unit_vec a -> unit_vec b -> 0 <= vdot a b -> exists m, normalized (vadd a b) = Some m /\ middle a b m.
Proof.
  rewrite !unit_dot. intros A B D.
  assert (N : vnorm2 (vadd a b) = 2 + 2 * vdot a b) by (change (vnorm2 (vadd a b)) with (vdot (vadd a b) (vadd a b)); rewrite !vdot_add_l, !vdot_add_r, (vdot_comm b a); lra).
  unfold normalized. destruct (Reqb (vnorm2 (vadd a b)) 0) eqn:Z; [apply Reqb_true in Z; lra|].
  eexists. split; [reflexivity|].
  assert (P : 0 < vnorm (vadd a b)) by (unfold vnorm; apply sqrt_lt_R0; lra).
  split.
  - apply unit_dot. rewrite vdot_scale_l, vdot_scale_r. change (vdot (vadd a b) (vadd a b)) with (vnorm2 (vadd a b)). rewrite <- vnorm_sqr. field. lra.
  - exists (vnorm (vadd a b)). split; [exact P|]. apply vec_ext; vecs; field; lra.
Qed.
Lemma middle_unique a b m m' : middle a b m -> middle a b m' -> m = m'.
Proof.
  intros [U (k & K & S)] [U' (k' & K' & S')]. apply unit_dot in U, U'. rewrite S in S'.
  assert (E : k * k = k' * k').
  { assert (X : vdot (vscale k m) (vscale k m) = vdot (vscale k' m') (vscale k' m')) by (rewrite S'; reflexivity).
    rewrite !vdot_scale_l, !vdot_scale_r, U, U' in X. lra. }
  assert (k = k') by nra. subst k'.
  injection S' as X Y Z. apply vec_ext; eapply Rmult_eq_reg_l; try eassumption; lra.
Qed.
Lemma middle_k a b m k : unit_vec a -> unit_vec b -> unit_vec m -> vadd a b = vscale k m -> k * k = 2 + 2 * vdot a b.
Proof.
  rewrite !unit_dot. intros A B M S.
  assert (X : vdot (vadd a b) (vadd a b) = vdot (vscale k m) (vscale k m)) by (rewrite S; reflexivity).
  rewrite !vdot_scale_l, !vdot_scale_r, !vdot_add_l, !vdot_add_r, (vdot_comm b a), A, B, M in X. lra.
Qed.
Lemma middle_near a b m e : unit_vec a -> unit_vec b -> middle a b m -> 1 - vdot a b <= e -> e <= 1 -> 1 - vdot a m <= e / 2.
Proof.
  intros A B [M (k & K & S)] E E1.
  pose proof (middle_k a b m k A B M S) as Q. pose proof (dot_le_1 a b A B) as D.
  assert (X : vdot a (vadd a b) = k * vdot a m) by (rewrite S; apply vdot_scale_r).
  rewrite vdot_add_r in X. apply unit_dot in A. rewrite A in X.
  assert (Y : vdot a m = k / 2) by (apply Rmult_eq_reg_l with k; lra).
  rewrite Y. assert (k <= 2) by nra. nra.
Qed.
Lemma middle_middle a b c ab bc e : unit_vec a -> unit_vec b -> unit_vec c -> middle a b ab -> middle b c bc ->
  1 - vdot a b <= e -> 1 - vdot b c <= e -> 1 - vdot c a <= e -> e <= 1 -> 1 - vdot ab bc <= e / 2.
Proof.
  intros A B C [M (k & K & S)] [M' (k' & K' & S')] E1 E2 E3 E.
  pose proof (middle_k a b ab k A B M S) as Q. pose proof (middle_k b c bc k' B C M' S') as Q'.
  pose proof (dot_le_1 _ _ A B). pose proof (dot_le_1 _ _ B C). pose proof (dot_le_1 _ _ C A).
  assert (X : vdot (vadd a b) (vadd b c) = k * k' * vdot ab bc) by (rewrite S, S', vdot_scale_l, vdot_scale_r; ring).
  rewrite !vdot_add_l, !vdot_add_r in X. apply unit_dot in B. rewrite B, (vdot_comm a c) in X.
  set (x := vdot ab bc) in *. set (p := vdot a b) in *. set (q := vdot b c) in *. set (r := vdot c a) in *.
  assert (KK : 0 < k * k') by (apply Rmult_lt_0_compat; assumption).
  assert (AM : k * k' <= 2 + p + q) by (pose proof (pow2_ge_0 (k - k')); lra).
  assert (PX : 0 < x) by (apply Rmult_lt_reg_l with (k * k'); lra).
  assert (L : k * k' * x <= (2 + p + q) * x) by (apply Rmult_le_compat_r; lra).
  assert (W : (2 + p + q) * (1 - x) <= e) by lra.
  destruct (Rle_dec x 1) as [X1|X1]; [|lra].
  assert (2 * (1 - x) <= (2 + p + q) * (1 - x)) by (apply Rmult_le_compat_r; lra). lra.
Qed.
Definition fine (e : R) (a b c : vec) : Prop :=
  unit_vec a /\ unit_vec b /\ unit_vec c /\ 1 - vdot a b <= e /\ 1 - vdot b c <= e /\ 1 - vdot c a <= e.
Lemma pow_half n : / 2 ^ S n = / 2 ^ n / 2.
Proof. cbn [pow]. field. apply pow_nonzero. lra. Qed.
Lemma pow_le_1 n : 0 < / 2 ^ n <= 1.
Proof.
  split; [apply Rinv_0_lt_compat, pow_lt; lra|].
  replace 1 with (/ 1) by field. apply Rinv_le_contravar; [lra|]. apply pow_R1_Rle. lra.
Qed.
Lemma facet_fine n a b c : facet n a b c -> fine (/ 2 ^ n) a b c.
Proof.
  induction 1 as [x y z X Y Z|n a b c ab ca F (A & B & C & D1 & D2 & D3) M1 M2|n a b c ab bc ca F (A & B & C & D1 & D2 & D3) M1 M2 M3
    |n a b c F (A & B & C & D1 & D2 & D3)|n a b c F (A & B & C & D1 & D2 & D3)].
  - unfold fine. rewrite !unit_dot. cbn [pow]. rewrite Rinv_1. vecs. destruct X as [->| ->], Y as [->| ->], Z as [->| ->]; repeat split; lra.
  - rewrite pow_half. destruct (pow_le_1 n) as [P0 P1]. split; [assumption|]. split; [apply M1|]. split; [apply M2|]. split; [|split].
    + apply (middle_near a b); assumption || lra.
    + rewrite vdot_comm. apply (middle_middle c a b); assumption || lra.
    + rewrite vdot_comm. apply (middle_near a c); try assumption; try (apply middle_sym; assumption). rewrite vdot_comm; lra.
  - rewrite pow_half. destruct (pow_le_1 n) as [P0 P1]. split; [apply M1|]. split; [apply M2|]. split; [apply M3|]. split; [|split].
    + apply (middle_middle a b c); assumption || lra.
    + apply (middle_middle b c a); assumption || lra.
    + apply (middle_middle c a b); assumption || lra.
  - repeat split; assumption.
  - rewrite (vdot_comm a b) in D1. rewrite (vdot_comm b c) in D2. rewrite (vdot_comm c a) in D3. repeat split; assumption.
Qed.
Lemma facet_middles n a b c : facet n a b c -> exists ab bc ca, middle a b ab /\ middle b c bc /\ middle c a ca /\
  normalized (vadd a b) = Some ab /\ normalized (vadd b c) = Some bc /\ normalized (vadd c a) = Some ca.
Proof.
  intros F. destruct (facet_fine _ _ _ _ F) as (A & B & C & D1 & D2 & D3). destruct (pow_le_1 n) as [P0 P1].
  destruct (middle_exists a b A B) as (ab & N1 & M1); [lra|]. destruct (middle_exists b c B C) as (bc & N2 & M2); [lra|].
  destruct (middle_exists c a C A) as (ca & N3 & M3); [lra|]. exists ab, bc, ca. tauto.
Qed.

(** *** Every direction is in the cone of a facet *)
Definition in_cone (u a b c : vec) : Prop :=
  exists x y z, 0 <= x /\ 0 <= y /\ 0 <= z /\ u = vadd (vscale x a) (vadd (vscale y b) (vscale z c)).
Lemma in_cone_turn u a b c : in_cone u a b c -> in_cone u b c a.
Proof. intros (x & y & z & X & Y & Z & E). exists y, z, x. repeat split; try assumption. rewrite E. apply vec_ext; vecs; ring. Qed.
Lemma sum_coords a b k m : vadd a b = vscale k m -> vx a + vx b = k * vx m /\ vy a + vy b = k * vy m /\ vz a + vz b = k * vz m.
Proof. intros H. injection H as X Y Z. tauto. Qed.
Lemma cover_corner u a b c ab ca x y z : 0 <= y -> 0 <= z -> y + z <= x -> u = vadd (vscale x a) (vadd (vscale y b) (vscale z c)) ->
  middle a b ab -> middle c a ca -> in_cone u a ab ca.
Proof.
  intros Y Z X E [_ (k & K & S)] [_ (k' & K' & S')]. apply sum_coords in S as (S1 & S2 & S3). apply sum_coords in S' as (T1 & T2 & T3).
  exists (x - y - z), (y * k), (z * k'). split; [lra|]. split; [nra|]. split; [nra|].
  rewrite E. apply vec_ext; vecs; nra.
Qed.
Lemma cover_inner u a b c ab bc ca x y z : x <= y + z -> y <= x + z -> z <= x + y -> u = vadd (vscale x a) (vadd (vscale y b) (vscale z c)) ->
  middle a b ab -> middle b c bc -> middle c a ca -> in_cone u ab bc ca.
Proof.
  intros X Y Z E [_ (k & K & S)] [_ (k' & K' & S')] [_ (l & L & T)].
  apply sum_coords in S as (S1 & S2 & S3). apply sum_coords in S' as (U1 & U2 & U3). apply sum_coords in T as (T1 & T2 & T3).
  exists ((x + y - z) / 2 * k), ((y + z - x) / 2 * k'), ((z + x - y) / 2 * l). split; [nra|]. split; [nra|]. split; [nra|].
  rewrite E. apply vec_ext; vecs; rewrite !Rmult_assoc; [rewrite <- S1, <- U1, <- T1|rewrite <- S2, <- U2, <- T2|rewrite <- S3, <- U3, <- T3]; field.
Qed.
Lemma facets_cover n u : exists a b c, facet n a b c /\ in_cone u a b c.
Proof.
  induction n as [|n (a & b & c & F & x & y & z & X & Y & Z & E)].
  - destruct u as [p q r].
    assert (Sg : forall t, exists s, sign s /\ 0 <= t * s /\ t = t * s * s).
    { intros t. destruct (Rle_dec 0 t); [exists 1|exists (-1)]; (split; [unfold sign; first [left; reflexivity|right; reflexivity]|]); split; lra. }
    destruct (Sg p) as (s1 & H1 & P1 & Q1). destruct (Sg q) as (s2 & H2 & P2 & Q2). destruct (Sg r) as (s3 & H3 & P3 & Q3).
    exists (V3 s1 0 0), (V3 0 s2 0), (V3 0 0 s3). split; [apply F_octahedron; assumption|].
    exists (p * s1), (q * s2), (r * s3). repeat split; try assumption. apply vec_ext; vecs; lra.
  - destruct (facet_middles _ _ _ _ F) as (ab & bc & ca & M1 & M2 & M3 & _).
    destruct (Rle_dec (y + z) x) as [C1|C1].
    { exists a, ab, ca. split; [eapply F_corner; eassumption|]. apply (cover_corner u a b c ab ca x y z); assumption. }
    destruct (Rle_dec (z + x) y) as [C2|C2].
    { exists b, bc, ab. split; [eapply F_corner; [apply F_turn; exact F|exact M2|exact M1]|].
      apply (cover_corner u b c a bc ab y z x); try assumption. rewrite E. apply vec_ext; vecs; ring. }
    destruct (Rle_dec (x + y) z) as [C3|C3].
    { exists c, ca, bc. split; [eapply F_corner; [apply F_turn, F_turn; exact F|exact M3|exact M2]|].
      apply (cover_corner u c a b ca bc z x y); try assumption. rewrite E. apply vec_ext; vecs; ring. }
    exists ab, bc, ca. split; [eapply F_inner; eassumption|]. apply (cover_inner u a b c ab bc ca x y z); assumption || lra.
Qed.
Lemma cone_near e u a b c : fine e a b c -> 0 <= e <= 1 -> unit_vec u -> in_cone u a b c -> 1 - vdot u a <= e.
Proof.
  intros (A & B & C & D1 & D2 & D3) E U (x & y & z & X & Y & Z & H).
  pose proof (dot_le_1 u a U A). pose proof (dot_le_1 u b U B). pose proof (dot_le_1 u c U C).
  assert (S : 1 = x * vdot u a + y * vdot u b + z * vdot u c).
  { apply unit_dot in U. rewrite <- U at 1. rewrite H at 2. rewrite !vdot_add_r, !vdot_scale_r. ring. }
  assert (S1 : 1 <= x + y + z) by nra.
  assert (T : vdot u a = x + y * vdot a b + z * vdot c a).
  { rewrite H, !vdot_add_l, !vdot_scale_l. apply unit_dot in A. rewrite A, (vdot_comm b a). ring. }
  rewrite T. nra.
Qed.
Lemma facet_neg n a b c : facet n a b c -> facet n (vneg a) (vneg b) (vneg c).
Proof.
  assert (MN : forall a b m, middle a b m -> middle (vneg a) (vneg b) (vneg m)).
  { intros p q m [U (k & K & S)]. split.
    - apply unit_dot in U. apply unit_dot. rewrite <- U. vecs. ring.
    - exists k. split; [exact K|]. apply sum_coords in S as (S1 & S2 & S3). apply vec_ext; vecs; lra. }
  induction 1 as [x y z X Y Z|n a b c ab ca F IH M1 M2|n a b c ab bc ca F IH M1 M2 M3|n a b c F IH|n a b c F IH].
  - unfold vneg. cbn [vx vy vz]. rewrite Ropp_0. apply F_octahedron; unfold sign in *; lra.
  - eapply F_corner; [exact IH| |]; apply MN; assumption.
  - eapply F_inner; [exact IH| | |]; apply MN; assumption.
  - apply F_turn, IH.
  - apply F_flip, IH.
Qed.
