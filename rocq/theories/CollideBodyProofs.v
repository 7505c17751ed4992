From Coq Require Import Reals List Bool Arith Lia Lra Psatz.
From Verif Require Import OptModel GeomModel GeomProofs SegErrorProofs GeoModel GeoProofs RotSpec RotProofs PackModel XcModel XcSpec XcPrimProofs XcRoundProofs XcOpProofs CollideModel CollideSpec CollideProofs.
Import ListNotations.
Open Scope R_scope.

Lemma any_rotated m n : rotation m -> any_direction n -> any_direction (mvec (mtrans m) n).
Proof. intros R N E. apply N. rewrite <- (rot_back m n R), E. apply vec_ext; cbn; ring. Qed.
Lemma any_neg n : any_direction n -> any_direction (vneg n).
Proof. intros N E. apply N. apply (f_equal vneg) in E. destruct n as [x y z]. cbn in E. injection E as E1 E2 E3. apply vec_ext; cbn; lra. Qed.
Section Bodies.
Variables g1 g2 : xc. Variables b1 b2 : body. Variables m1 m2 : mat. Variables p1 p2 : vec.
Hypothesis S1 : shaped any_direction g1 b1. Hypothesis S2 : shaped any_direction g2 b2. Hypothesis R1 : rotation m1. Hypothesis R2 : rotation m2.
Notation e1 := (Entry g1 p1 m1). Notation e2 := (Entry g2 p2 m2).
Notation D := (diff_body (placed b2 p2 m2) (placed b1 p1 m1)).
Lemma D_is_convex : convex D. Proof. apply diff_convex; apply placed_convex; [apply S2|apply S1]. Qed.
Lemma D_centre : D (vsub (entry_centre e2) (entry_centre e1)).
Proof. exists (entry_centre e2), (entry_centre e1). split; [apply (placed_centre any_direction); exact S2|]. split; [apply (placed_centre any_direction); exact S1|reflexivity]. Qed.
Lemma D_exact n : n <> vzero -> exists s, difference_support e1 e2 n = Some s /\ supports D n s.
Proof.
  intros N. destruct (placed_support any_direction g2 b2 p2 m2 n S2) as (s2&E2&V2); [apply any_rotated; auto|]. destruct (placed_support any_direction g1 b1 p1 m1 (vneg n) S1) as (s1&E1&V1); [apply any_rotated; auto; apply any_neg; auto|].
  exists (vsub s2 s1). unfold difference_support. rewrite E2. cbn [obind]. rewrite E1. split; [reflexivity|]. apply diff_supports; auto.
Qed.
Lemma below_apart t : below D t -> apart t (placed b1 p1 m1) (placed b2 p2 m2).
Proof. intros (u&U&H). exists u. split; [exact U|]. intros x y X Y. pose proof (H (vsub y x) (ex_intro _ y (ex_intro _ x (conj Y (conj X eq_refl))))) as L. replace (vdot (vsub y x) u) with (vdot y u - vdot x u) in L by vring. lra. Qed.
Lemma close_near t : close D t -> near t (placed b1 p1 m1) (placed b2 p2 m2).
Proof. intros (d&(y&x&Y&X&->)&L). exists x, y. auto. Qed.
Lemma intersect_spec fuel1 fuel2 t : 0 <= t -> intersect fuel1 fuel2 e1 e2 t <> Undefined /\
  (intersect fuel1 fuel2 e1 e2 t = Answer false -> apart t (placed b1 p1 m1) (placed b2 p2 m2)) /\
  (intersect fuel1 fuel2 e1 e2 t = Answer true -> no_ties (difference_support e1 e2) (vsub (entry_centre e2) (entry_centre e1)) -> near (2 / 10 ^ 6) (placed b1 p1 m1) (placed b2 p2 m2)).
Proof.
  intros T. pose proof (intersect_miss _ D _ D_centre D_exact t fuel1 fuel2 T) as M. unfold intersect. split; [intros E; rewrite E in M; exact M|]. split.
  - intros E. rewrite E in M. apply below_apart. exact M.
  - intros E NT. apply close_near. apply (intersect_hit _ D _ D_is_convex D_centre D_exact t fuel1 fuel2 NT E).
Qed.
(** The balls *)
Lemma outside_balls : covered g1 b1 -> covered g2 b2 -> 0 <= xc_circumsphere g1 + xc_circumsphere g2 -> (xc_circumsphere g1 + xc_circumsphere g2) * (xc_circumsphere g1 + xc_circumsphere g2) < vnorm2 (vsub p2 p1) -> forall t, 0 <= t -> apart t (placed b1 p1 m1) (placed b2 p2 m2).
Proof.
  intros C1 C2 C0 H t T. set (r := xc_circumsphere g1 + xc_circumsphere g2) in *. set (d := vsub p1 p2). assert (Q : vnorm2 (vsub p2 p1) = vnorm2 d) by (unfold d, vnorm2; vring). rewrite Q in H.
  assert (DN : r < vnorm d). { destruct (Rle_or_lt (vnorm d) r) as [L|L]; [|exact L]. exfalso. apply (norm_bound d r C0) in L. nra. }
  assert (NZ : d <> vzero) by (intros Z; rewrite Z, vnorm_zero in DN; lra). destruct (normalized_some d NZ) as (u&_&U&S). exists u. split; [exact U|]. intros x y X Y.
  pose proof (placed_covered g1 b1 p1 m1 x R1 C1 X) as L1. pose proof (placed_covered g2 b2 p2 m2 y R2 C2 Y) as L2.
  pose proof (cauchy_schwarz (vsub y p2) u) as K1. pose proof (cauchy_schwarz (vsub x p1) u) as K2. rewrite U in K1, K2.
  assert (A : forall v, Rabs (vdot v u) <= vnorm v * 1 -> - vnorm v <= vdot v u <= vnorm v). { intros v K. rewrite Rmult_1_r in K. split; [pose proof (Rle_abs (- vdot v u)) as Q2; rewrite Rabs_Ropp in Q2; lra|pose proof (Rle_abs (vdot v u)); lra]. }
  assert (DU : vdot d u = vnorm d). { assert (vdot u u = 1) by (change (vnorm2 u = 1); rewrite <- (sqrt_sqrt (vnorm2 u)) by apply vnorm2_nonneg; fold (vnorm u); rewrite U; ring). rewrite S at 1. replace (vdot (vscale (vnorm d) u) u) with (vnorm d * vdot u u) by vring. rewrite H0. ring. }
  apply A in K1. apply A in K2. replace (vdot (vsub y p2) u) with (vdot y u - vdot p2 u) in K1 by vring. replace (vdot (vsub x p1) u) with (vdot x u - vdot p1 u) in K2 by vring. replace (vdot d u) with (vdot p1 u - vdot p2 u) in DU by (unfold d; vring). unfold r in DN. lra.
Qed.
Lemma inside_balls : filled g1 b1 -> filled g2 b2 -> b1 vzero -> b2 vzero -> 0 <= xc_insphere g1 -> 0 <= xc_insphere g2 -> vnorm2 (vsub p2 p1) < (xc_insphere g1 + xc_insphere g2) * (xc_insphere g1 + xc_insphere g2) -> near 0 (placed b1 p1 m1) (placed b2 p2 m2).
Proof.
  intros F1 F2 Z1 Z2 N1 N2 H. set (d := vsub p2 p1) in *. set (a := xc_insphere g1) in *. set (c := xc_insphere g2) in *. pose proof (vnorm2_nonneg d).
  assert (QP : 0 < a + c) by (destruct (Rle_or_lt (a + c) 0); [|assumption]; assert (a = 0) by lra; assert (c = 0) by lra; nra).
  assert (L : vnorm d < a + c) by (apply norm_bound_lt; [lra|]; nra). pose proof (vnorm_nonneg d).
  set (z := vscale (/ (a + c)) d). assert (Z : vnorm z < 1). { unfold z. rewrite vnorm_scale, Rabs_pos_eq by (left; apply Rinv_0_lt_compat; exact QP). apply Rmult_lt_reg_l with (a + c); [exact QP|]. rewrite <- Rmult_assoc, Rinv_r, Rmult_1_l, Rmult_1_r by lra. exact L. }
  pose proof (vnorm_nonneg z). exists (vadd (vscale a z) p1), (vadd (vscale (- c) z) p2). split; [|split].
  - apply (placed_filled g1); auto. fold a. destruct N1 as [N1|N1]; [left; rewrite vnorm_scale, Rabs_pos_eq by lra; nra|right; rewrite <- N1; apply vec_ext; cbn; ring].
  - apply (placed_filled g2); auto. fold c. destruct N2 as [N2|N2]; [left; rewrite vnorm_scale, Rabs_Ropp, Rabs_pos_eq by lra; nra|right; rewrite <- N2; apply vec_ext; cbn; ring].
  - replace (vsub _ _) with vzero; [rewrite vnorm_zero; lra|]. symmetry. unfold z, d. apply vec_ext; cbn; field; lra.
Qed.
End Bodies.
Lemma near_le s t b1 b2 : s <= t -> near s b1 b2 -> near t b1 b2. Proof. intros H (x&y&X&Y&L). exists x, y. repeat split; auto. lra. Qed.

Lemma circ_nonneg g b : covered g b -> b vzero -> 0 <= xc_circumsphere g. Proof. intros C Z. pose proof (C _ Z) as H. rewrite vnorm_zero in H. exact H. Qed.
Lemma overlap_spec geometries bodies fuel1 fuel2 pos1 m1 i pos2 m2 j bc : good_shape geometries bodies -> rotation m1 -> rotation m2 ->
  let o := xc_overlapBetween fuel1 fuel2 geometries pos1 m1 i pos2 m2 j bc in
  let pos2' := vadd pos2 (bc_translation bc pos1 pos2) in
  let B1 := placed (bodies i) pos1 m1 in let B2 := placed (bodies j) pos2' m2 in
  o <> Undefined /\ (o = Answer false -> apart (/ 10 ^ 12) B1 B2) /\
  (o = Answer true -> no_ties (difference_support (Entry (geometries i) pos1 m1) (Entry (geometries j) pos2' m2)) (vsub (entry_centre (Entry (geometries j) pos2' m2)) (entry_centre (Entry (geometries i) pos1 m1))) -> near (2 / 10 ^ 6) B1 B2).
Proof.
  intros G R1 R2. cbn zeta. unfold xc_overlapBetween. destruct (G i) as (S1&C1&F1&Z1&N1), (G j) as (S2&C2&F2&Z2&N2).
  pose proof (circ_nonneg _ _ C1 Z1). pose proof (circ_nonneg _ _ C2 Z2). assert (T : 0 <= / 10 ^ 12) by (left; apply Rinv_0_lt_compat; lra).
  set (p2 := vadd pos2 (bc_translation bc pos1 pos2)). set (r := xc_circumsphere (geometries i) + xc_circumsphere (geometries j)). set (q := xc_insphere (geometries i) + xc_insphere (geometries j)).
  destruct (Rltb (r * r) (vnorm2 (vsub p2 pos1))) eqn:A; [|destruct (Rltb (vnorm2 (vsub p2 pos1)) (q * q)) eqn:B].
  - apply Rltb_true in A. split; [discriminate|]. split; [|discriminate]. intros _. apply (outside_balls (geometries i) (geometries j)); auto. lra.
  - apply Rltb_true in B. split; [discriminate|]. split; [discriminate|]. intros _ _. apply (near_le 0); [lra|]. apply (inside_balls (geometries i) (geometries j)); auto.
  - apply (intersect_spec (geometries i) (geometries j) (bodies i) (bodies j)); auto.
Qed.
(** Walls *)
Lemma wall_spec geometries bodies ok pos m i wallOrigin wallVector : shaped ok (geometries i) (bodies i) -> rotation m -> ok (vneg (mvec (mtrans m) wallVector)) ->
  exists b, xc_overlapWithWall geometries pos m i wallOrigin wallVector = Some b /\ (b = true <-> exists x, placed (bodies i) pos m x /\ vdot (vsub x wallOrigin) wallVector <= 0).
Proof.
  intros (_&_&S) R O. destruct (S _ O) as (s&E&I&M). unfold xc_overlapWithWall. rewrite E. cbn [obind]. eexists. split; [reflexivity|].
  assert (DW : forall x, vdot (vsub (vadd (mvec m x) pos) wallOrigin) wallVector = vdot x (mvec (mtrans m) wallVector) - vdot (mvec (mtrans m) (vsub wallOrigin pos)) (mvec (mtrans m) wallVector)).
  { intros x. rewrite <- (trans_dot m x wallVector). rewrite <- (trans_dot m (mvec (mtrans m) (vsub wallOrigin pos)) wallVector), rot_back by auto. vring. }
  set (n := mvec (mtrans m) wallVector) in *. set (o := mvec (mtrans m) (vsub wallOrigin pos)) in *.
  assert (N1 : vdot (vneg s) n = - vdot s n) by vring. assert (N2 : vdot (vneg o) n = - vdot o n) by vring. rewrite N1, N2, negb_true_iff, Rltb_false. split.
  - intros L. exists (vadd (mvec m s) pos). split; [exists s; auto|]. rewrite DW. lra.
  - intros (y&(x&X&->)&L). rewrite DW in L. specialize (M x X). assert (forall v, vdot v (vneg n) = - vdot v n) as Q by (intros v; vring). rewrite !Q in M. lra.
Qed.
(** The range *)
Lemma max_radius (f : nat -> R) l : forall r, r <= fold_left (fun a i => if Rltb a (f i) then f i else a) l r /\ forall i, In i l -> f i <= fold_left (fun a i => if Rltb a (f i) then f i else a) l r.
Proof.
  induction l as [|i l IH]; intros r; cbn [fold_left]; [split; [lra|intros ? []]|]. destruct (IH (if Rltb r (f i) then f i else r)) as (A&B).
  assert (r <= (if Rltb r (f i) then f i else r) /\ f i <= (if Rltb r (f i) then f i else r)) by (destruct (Rltb r (f i)) eqn:E; [apply Rltb_true in E|apply Rltb_false in E]; lra).
  split; [lra|]. intros k [<-|I]; [lra|auto].
Qed.
Lemma range_spec fuel1 fuel2 geometries centres pos1 m1 i pos2 m2 j bc : (i < Nat.max (length centres) 1)%nat -> (j < Nat.max (length centres) 1)%nat ->
  0 <= xc_circumsphere (geometries i) -> 0 <= xc_circumsphere (geometries j) ->
  xc_getRangeRadius geometries centres < vnorm (vsub (vadd pos2 (bc_translation bc pos1 pos2)) pos1) -> xc_overlapBetween fuel1 fuel2 geometries pos1 m1 i pos2 m2 j bc = Answer false.
Proof.
  intros I J CI CJ H. unfold xc_overlapBetween. rewrite (proj2 (Rltb_true _ _)); [reflexivity|]. unfold xc_getRangeRadius in H. cbv zeta in H.
  destruct (max_radius (fun i => xc_circumsphere (geometries i)) (seq 0 (Nat.max (length centres) 1)) 0) as (_&B).
  pose proof (B i ltac:(apply in_seq; lia)) as BI. pose proof (B j ltac:(apply in_seq; lia)) as BJ. cbn beta in *. set (d := vsub _ _) in *.
  assert (L : xc_circumsphere (geometries i) + xc_circumsphere (geometries j) < vnorm d) by lra. rewrite <- (pow2_sqrt (vnorm2 d)) by apply vnorm2_nonneg. fold (vnorm d). nra.
Qed.

(** More turns of the loops do not change an answer. *)
Lemma find_more s v0 fuel : forall more v1 v2 n, find_portal s v0 fuel v1 v2 n <> Searching -> find_portal s v0 (fuel + more) v1 v2 n = find_portal s v0 fuel v1 v2 n.
Proof.
  induction fuel as [|fuel IH]; intros more v1 v2 n H; [contradiction H; reflexivity|]. cbn [find_portal plus] in *. destruct (s n) as [v3|]; [|reflexivity]. destruct (Rleb _ 0); [reflexivity|]. destruct (Rltb _ 0); [apply IH; exact H|]. destruct (Rltb _ 0); [apply IH; exact H|reflexivity].
Qed.
Lemma refine_more s v0 t fuel : forall more p, refine_portal s v0 fuel t p <> Unfinished -> refine_portal s v0 (fuel + more) t p = refine_portal s v0 fuel t p.
Proof.
  induction fuel as [|fuel IH]; intros more p H; [contradiction H; reflexivity|]. cbn [refine_portal plus] in *. destruct p as ((v1&v2)&v3). destruct (Rleb 0 _); [reflexivity|]. destruct (s _) as [v4|]; [|reflexivity]. destruct (normalized _) as [u|]; [|reflexivity]. destruct (_ || _)%bool; [reflexivity|]. apply IH. exact H.
Qed.
Lemma more_spec fuel1 fuel2 more1 more2 geometries pos1 m1 i pos2 m2 j bc b : xc_overlapBetween fuel1 fuel2 geometries pos1 m1 i pos2 m2 j bc = Answer b -> xc_overlapBetween (fuel1 + more1) (fuel2 + more2) geometries pos1 m1 i pos2 m2 j bc = Answer b.
Proof.
  unfold xc_overlapBetween. destruct (Rltb _ _); [auto|]. destruct (Rltb _ _); [auto|]. unfold intersect, intersect_difference. destruct (start _ _) as [o|v1 v2 n]; [auto|]. intros H. rewrite find_more by (intros E; rewrite E in H; discriminate). destruct (find_portal _ _ _ _ _ _); try exact H. rewrite refine_more by (intros E; rewrite E in H; discriminate). exact H.
Qed.
