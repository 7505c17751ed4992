From Coq Require Import Reals ZArith List Bool Arith Lia Lra Psatz.
From Verif Require Import TextModel TextProofs GeomModel GeomProofs PbcModel PackSpec SegSpec ShapesModel XcSpec GeoModel GeoSpec GeoProofs GeoShapesProofs VolSpec BeadsModel BeadsSpec BeadsProofs BeadsChainProofs BananaModel BananaSpec BananaProofs OptModel.
Import ListNotations.
Open Scope R_scope.

Lemma direction_unit v u : vnorm v = 1 -> direction_of (Some v) u -> u = Some v.
Proof.
  intros N. destruct u as [u|]; [|intros []]. intros (U&k&K&E). f_equal. assert (k = 1). { rewrite E in N. unfold vnorm in N, U. replace (vnorm2 (vscale k u)) with (k ^ 2 * vnorm2 u) in N by (unfold vnorm2, vdot; cbn; ring). rewrite sqrt_mult in N by (try apply pow2_ge_0; apply vnorm2_nonneg). rewrite U, sqrt_pow2 in N by lra. lra. }
  subst k. rewrite E. apply vec_ext; cbn; ring.
Qed.
Lemma unit_norm v : vnorm2 v = 1 -> vnorm v = 1. Proof. intros H. unfold vnorm. rewrite H. apply sqrt_1. Qed.
Lemma unit_nonzero v : vnorm v = 1 -> Some v <> Some vzero.
Proof. intros H E. injection E as ->. unfold vnorm in H. replace (vnorm2 vzero) with 0 in H by (unfold vnorm2, vdot; cbn; ring). rewrite sqrt_0 in H. lra. Qed.
Lemma spheres_shape data p s v custom : vnorm p = 1 -> vnorm s = 1 -> data <> [] -> List.Forall (fun d => 0 < bd_radius d) data -> NoDup (names custom) -> (forall i, ~ In (numbered 115 i) (names custom)) ->
  exists g, polysphere_geometry data (Some p) (Some s) vzero (Some v) custom = Some g /\
    g_data g = data /\ g_primary g = Some p /\ g_secondary g = Some s /\ g_origin g = vzero /\ g_volume g = v /\
    forall name q, getNamedPoint g name = Some q <-> point_called (bead_point data) vzero custom name q.
Proof.
  intros UP US NE P ND NI. pose proof (polysphere_geometry_spec data (Some p) (Some s) vzero (Some v) custom) as (S&T). destruct (proj2 S) as (g&G).
  - split; [exact NE|]. split; [exact P|]. split; [|split; [discriminate|split; [exact ND|intros i _; apply NI]]]. split; [discriminate|]. split; apply unit_nonzero; assumption.
  - exists g. destruct (T g G) as (A&D1&D2&B&C&_&_). split; [exact G|]. split; [exact A|]. split; [apply direction_unit; assumption|]. split; [apply direction_unit; assumption|]. split; [exact B|]. split; [exact C|]. apply (polysphere_named _ _ _ _ _ _ _ G).
Qed.

(** *** Positions *)
Lemma arc_position_is R angle : arc_position R angle = on_arc R vzero angle.
Proof. unfold arc_position, on_arc. apply vec_ext; cbn; rewrite ?sin_0, ?cos_0; ring. Qed.
Lemma banana_length n : forall a s R, length (banana_loop n a s R) = n. Proof. induction n; intros; cbn; [reflexivity|f_equal; auto]. Qed.
Lemma banana_nth n : forall a s R i, (i < n)%nat -> nth_error (banana_loop n a s R) i = Some (on_arc R vzero (a + INR i * s)).
Proof.
  induction n as [|n IH]; intros a s R i L; [lia|]. destruct i as [|i].
  - cbn [banana_loop nth_error]. rewrite arc_position_is. f_equal. f_equal. cbn [INR]. ring.
  - cbn [banana_loop nth_error]. rewrite IH by lia. f_equal. f_equal. rewrite S_INR. ring.
Qed.
Definition centre_of (R A : R) : vec := if Rlt_dec A PI then V3 (R * cos (A / 2)) 0 0 else vzero.
Lemma centre_of_spec R A : arc_centre R A (centre_of R A). Proof. unfold arc_centre, centre_of. destruct (Rlt_dec A PI); split; intros; (reflexivity || lra). Qed.
Lemma centre_unique R A c : arc_centre R A c -> c = centre_of R A. Proof. intros (H1&H2). unfold centre_of. destruct (Rlt_dec A PI); auto. apply H2. lra. Qed.
Lemma on_arc_move R c a : vadd (on_arc R vzero a) c = on_arc R c a. Proof. apply vec_ext; cbn; ring. Qed.
Definition spheres_at (R A : R) (n : nat) : list vec :=
  let pos0 := banana_loop n (- A / 2) (A / INR (n - 1)) R in if Rltb A PI then map (fun pos => vadd pos (V3 (- vx (hd vzero pos0)) 0 0)) pos0 else pos0.
Lemma step_division R A c n i : (2 <= n)%nat -> on_arc R c (- A / 2 + INR i * (A / INR (n - 1))) = division R A c (n - 1) i.
Proof. intros N. unfold division. f_equal. f_equal. assert (1 <= INR (n - 1)) by (apply (le_INR 1); lia). field. lra. Qed.
Lemma spheres_length R A n : length (spheres_at R A n) = n. Proof. unfold spheres_at. destruct (Rltb A PI); [rewrite map_length|]; apply banana_length. Qed.
Lemma spheres_nth R A n i : (2 <= n)%nat -> (i < n)%nat -> nth_error (spheres_at R A n) i = Some (division R A (centre_of R A) (n - 1) i).
Proof.
  intros N L. unfold spheres_at, centre_of. destruct (Rltb A PI) eqn:E; [apply Rltb_true in E|apply Rltb_false in E]; destruct (Rlt_dec A PI); try lra.
  - rewrite nth_error_map, banana_nth by exact L. cbn [option_map]. rewrite step_division by exact N. f_equal. destruct n as [|n]; [lia|]. cbn [banana_loop hd]. rewrite arc_position_is. unfold division. rewrite <- on_arc_move with (c := V3 (R * cos (A / 2)) 0 0). f_equal. apply vec_ext; cbn; try ring. replace (- A / 2) with (- (A / 2)) by lra. rewrite cos_neg. ring.
  - rewrite banana_nth by exact L. rewrite step_division by exact N. reflexivity.
Qed.
Lemma arc_distance R c a b : 0 < R -> 0 <= b - a <= 2 * PI -> vnorm (vsub (on_arc R c a) (on_arc R c b)) = 2 * R * sin ((b - a) / 2).
Proof.
  intros P H. assert (0 <= sin ((b - a) / 2)) by (apply sin_ge_0; lra). unfold vnorm. replace (vnorm2 _) with ((2 * R * sin ((b - a) / 2)) ^ 2); [apply sqrt_pow2; nra|].
  assert (E : vnorm2 (vsub (on_arc R c a) (on_arc R c b)) = 2 * R ^ 2 * (1 - cos (b - a))).
  { rewrite cos_minus. unfold vnorm2, vdot, on_arc. cbn [vsub vadd vx vy vz]. generalize (sin2_cos2 a) (sin2_cos2 b). unfold Rsqr. generalize (sin a) (cos a) (sin b) (cos b). intros s k s' k' T T'. replace (2 * R ^ 2 * (1 - (k' * k + s' * s))) with (R ^ 2 * ((s * s + k * k) + (s' * s' + k' * k') - 2 * (k' * k + s' * s))) by (rewrite T, T'; ring). ring. }
  rewrite E. replace (b - a) with (2 * ((b - a) / 2)) at 2 by lra. rewrite cos_2a_sin. ring.
Qed.
Lemma sym_distance p q : vnorm (vsub p q) = vnorm (vsub q p). Proof. unfold vnorm. f_equal. unfold vnorm2, vdot. cbn. ring. Qed.

(** *** Volumes *)
Lemma common_exists r d : 0 < r -> 0 < d -> exists v, common_volume r d v /\ (d < 2 * r -> sphereIntersection r r d = Some v) /\ (2 * r <= d -> v = 0).
Proof.
  intros P D. destruct (Rlt_dec d (2 * r)) as [H|H].
  - destruct (intersection_spec r r d P P D) as (v&E&V); [rewrite Rminus_diag_eq, Rabs_R0 by reflexivity; lra|]. exists v. split; [split; [auto|lra]|]. split; [auto|lra].
  - exists 0. split; [split; [lra|reflexivity]|]. split; [lra|reflexivity].
Qed.
Section Banana.
Variables (R A r : R) (n : nat).
Hypothesis R0 : 0 < R. Hypothesis A0 : 0 < A < 2 * PI. Hypothesis r0 : 0 < r. Hypothesis n0 : (2 <= n)%nat.
Let c := centre_of R A.
Let data := map (fun pos => Bead pos r) (spheres_at R A n).
Lemma data_length : length data = n. Proof. unfold data. rewrite map_length. apply spheres_length. Qed.
Lemma data_nth i : (i < n)%nat -> nth_error data i = Some (Bead (division R A c (n - 1) i) r).
Proof. intros L. unfold data. rewrite nth_error_map, spheres_nth by lia. reflexivity. Qed.
Lemma data_radius d : In d data -> bd_radius d = r. Proof. unfold data. intros I. apply in_map_iff in I. destruct I as (p&<-&_). reflexivity. Qed.
Lemma gap_positive : 0 < 2 * R * sin (A / INR (n - 1) / 2).
Proof. assert (N : 1 <= INR (n - 1)) by (apply (le_INR 1); lia). assert (0 < A / INR (n - 1)) by (apply Rdiv_lt_0_compat; lra). assert (A / INR (n - 1) <= A). { apply Rmult_le_reg_r with (INR (n - 1)); [lra|]. unfold Rdiv. rewrite Rmult_assoc, Rinv_l by lra. nra. } assert (0 < sin (A / INR (n - 1) / 2)) by (apply sin_gt_0; lra). nra. Qed.
Lemma gap_distance i : vnorm (vsub (division R A c (n - 1) i) (division R A c (n - 1) (S i))) = 2 * R * sin (A / INR (n - 1) / 2).
Proof.
  assert (N : 1 <= INR (n - 1)) by (apply (le_INR 1); lia). assert (0 < A / INR (n - 1)) by (apply Rdiv_lt_0_compat; lra). assert (A / INR (n - 1) <= A). { apply Rmult_le_reg_r with (INR (n - 1)); [lra|]. unfold Rdiv. rewrite Rmult_assoc, Rinv_l by lra. nra. }
  assert (E : - A / 2 + INR (S i) / INR (n - 1) * A - (- A / 2 + INR i / INR (n - 1) * A) = A / INR (n - 1)) by (rewrite S_INR; field; lra). unfold division. rewrite arc_distance; rewrite ?E; lra || reflexivity.
Qed.
Lemma ends_distance : vnorm (vsub (division R A c (n - 1) 0) (division R A c (n - 1) (n - 1))) = 2 * R * sin (A / 2).
Proof.
  assert (N : 1 <= INR (n - 1)) by (apply (le_INR 1); lia). assert (E : - A / 2 + INR (n - 1) / INR (n - 1) * A - (- A / 2 + INR 0 / INR (n - 1) * A) = A) by (cbn [INR]; field; lra). unfold division. rewrite arc_distance; rewrite ?E; lra || reflexivity.
Qed.
Lemma banana_volume_spec : exists v1 v2,
  common_volume r (2 * R * sin (A / INR (n - 1) / 2)) v1 /\ (PI < A /\ (2 < n)%nat -> common_volume r (2 * R * sin (A / 2)) v2) /\ (~ (PI < A /\ (2 < n)%nat) -> v2 = 0) /\
  banana_volume data A = Some (INR n * ball_volume r - INR (n - 1) * v1 - v2).
Proof.
  destruct (common_exists r _ r0 gap_positive) as (v1&C1&S1&Z1). assert (E0 : 0 < 2 * R * sin (A / 2)) by (assert (0 < sin (A / 2)) by (apply sin_gt_0; lra); nra). destruct (common_exists r _ r0 E0) as (v2&C2&S2&Z2).
  exists v1, (if Rltb PI A && Nat.ltb 2 n then v2 else 0). split; [exact C1|].
  assert (B : banana_volume data A = (x <- Some (INR n * ball_volume r - INR (n - 1) * v1) ;; if Rltb PI A && Nat.ltb 2 n then Some (x - v2) else Some x)).
  { unfold banana_volume. rewrite (data_nth 0), (data_nth 1), data_length by lia. cbn [obind]. cbn [bd_pos bd_radius]. rewrite (data_nth (n - 1)) by lia. rewrite (gap_distance 0). cbn [obind bd_pos bd_radius]. rewrite ends_distance. replace (r + r) with (2 * r) by ring.
    assert (X : (if Rltb (2 * R * sin (A / INR (n - 1) / 2)) (2 * r) then overlapVolume <- sphereIntersection r r (2 * R * sin (A / INR (n - 1) / 2)) ;; Some (INR n * 4 / 3 * PI * r ^ 3 - INR (n - 1) * overlapVolume) else Some (INR n * 4 / 3 * PI * r ^ 3)) = Some (INR n * ball_volume r - INR (n - 1) * v1)).
    { unfold ball_volume. destruct (Rltb _ (2 * r)) eqn:L; [apply Rltb_true in L; rewrite (S1 L); cbn [obind]; f_equal; field|apply Rltb_false in L; rewrite Z1 by lra; f_equal; field]. }
    rewrite X. cbn [obind]. destruct (Rltb PI A && Nat.ltb 2 n); [|reflexivity]. destruct (Rltb (2 * R * sin (A / 2)) (2 * r)) eqn:L; [apply Rltb_true in L; rewrite (S2 L); reflexivity|apply Rltb_false in L; rewrite Z2 by lra; f_equal; ring]. }
  rewrite B. cbn [obind]. destruct (Rltb PI A) eqn:L; [apply Rltb_true in L|apply Rltb_false in L]; cbn [andb]; [destruct (Nat.ltb 2 n) eqn:L'; [apply Nat.ltb_lt in L'|apply Nat.ltb_ge in L']|].
  - split; [intros _; exact C2|]. split; [tauto|reflexivity].
  - split; [lia|]. split; [reflexivity|f_equal; ring].
  - split; [lra|]. split; [reflexivity|f_equal; ring].
Qed.
(** *** Counting balls *)
Hypothesis rR : r <= R.
Lemma data_has y i : (i < n)%nat -> bead_has data y i <-> in_ball (division R A c (n - 1) i) r y.
Proof. intros L. unfold bead_has. rewrite data_nth by exact L. split; [intros (d&E&H); injection E as <-; exact H|intros H; eexists; split; [reflexivity|exact H]]. Qed.
Lemma data_body y : beads_body data y <-> exists i, (i < n)%nat /\ in_ball (division R A c (n - 1) i) r y.
Proof.
  unfold beads_body. split.
  - intros (d&I&H). apply In_nth_error in I. destruct I as (i&I). assert (L : (i < n)%nat) by (rewrite <- data_length; apply nth_error_Some; congruence). exists i. split; [exact L|]. rewrite data_nth in I by exact L. injection I as <-. exact H.
  - intros (i&L&H). exists (Bead (division R A c (n - 1) i) r). split; [apply (nth_error_In _ i), data_nth, L|exact H].
Qed.
Lemma banana_count y k m e : y <> c -> number_of (bead_has data y) n k -> number_of (fun i => bead_has data y i /\ bead_has data y (S i)) (n - 1) m ->
  (PI < A /\ (2 < n)%nat /\ bead_has data y 0 /\ bead_has data y (n - 1) -> e = 1%nat) -> (~ (PI < A /\ (2 < n)%nat /\ bead_has data y 0 /\ bead_has data y (n - 1)) -> e = 0%nat) ->
  (beads_body data y -> k = (m + e + 1)%nat) /\ (~ beads_body data y -> k = 0%nat).
Proof.
  intros Y K M E1 E0. assert (N1 : (1 <= n - 1)%nat) by lia. pose proof (arc_ball R A r c (n - 1) y R0 (conj r0 rR)) as AB. set (p := fun i : nat => if Rle_dec (level R r (vsub y c)) (along (vx (vsub y c)) (vz (vsub y c)) (- A / 2 + INR i / INR (n - 1) * A)) then true else false) in *.
  assert (KT : k = tally p n). { apply (number_tally (bead_has data y)); [|exact K]. intros i L. rewrite data_has by exact L. symmetry. apply AB. }
  assert (MT : m = tally (both p) (n - 1)). { apply (number_tally (fun i => bead_has data y i /\ bead_has data y (S i))); [|exact M]. intros i L. rewrite !data_has by lia. unfold both. rewrite andb_true_iff, !AB. reflexivity. }
  split.
  - intros B. apply data_body in B. destruct B as (i&L&H). apply AB in H. assert (T : tally p n = (tally (both p) (n - 1) + 1 + if Rlt_dec PI A then if Nat.ltb 1 (n - 1) then if p 0%nat && p (n - 1)%nat then 1 else 0 else 0 else 0)%nat).
    { pose proof (arc_runs R A r c (n - 1) y A0 (conj r0 rR) N1 Y ltac:(exists i; split; [lia|exact H])) as T. replace (S (n - 1)) with n in T by lia. exact T. }
    rewrite KT, T, MT.
    rewrite !data_has in E1, E0 by lia. rewrite !AB in E1, E0. destruct (Rlt_dec PI A) as [LA|LA]; [|rewrite E0 by tauto; lia]. destruct (Nat.ltb 1 (n - 1)) eqn:LN; [apply Nat.ltb_lt in LN|apply Nat.ltb_ge in LN; rewrite E0 by lia; lia].
    destruct (p 0%nat) eqn:P0; [destruct (p (n - 1)%nat) eqn:PN|]; cbn [andb].
    + rewrite E1; [lia|]. split; [exact LA|]. split; [lia|]. auto.
    + rewrite E0; [lia|]. intros (_&_&_&X). congruence.
    + rewrite E0; [lia|]. intros (_&_&X&_). congruence.
  - intros B. rewrite KT. apply tally_zero. intros i L. destruct (p i) eqn:P; [|reflexivity]. exfalso. apply B, data_body. exists i. split; [exact L|]. apply AB, P.
Qed.
End Banana.
Lemma ends_middle R A c : arc_centre R A c -> A < PI -> vadd (on_arc R c (- A / 2)) (on_arc R c (A / 2)) = vzero.
Proof. intros (H&_) L. rewrite (H L). replace (- A / 2) with (- (A / 2)) by lra. apply vec_ext; cbn; rewrite ?cos_neg, ?sin_neg; ring. Qed.
Lemma arc_covered R A c a : 0 < R -> 0 < A -> arc_centre R A c -> - A / 2 <= a <= A / 2 -> (A < PI -> vnorm (on_arc R c a) <= R * sin (A / 2)) /\ (PI <= A -> vnorm (on_arc R c a) = R).
Proof.
  intros P Q (C1&C2) B. split; intros L.
  - rewrite (C1 L). assert (0 < sin (A / 2)) by (apply sin_gt_0; lra). unfold vnorm. rewrite <- (sqrt_pow2 (R * sin (A / 2))) by nra. apply sqrt_le_1_alt. assert (K : cos (A / 2) <= cos a). { destruct (Rle_dec 0 a); [apply cos_decr_1; lra|]. rewrite <- (cos_neg a). apply cos_decr_1; lra. }
    assert (0 < cos (A / 2)) by (apply cos_gt_0; lra). unfold vnorm2, vdot, on_arc. cbn [vadd vx vy vz]. generalize (sin2_cos2 a) (sin2_cos2 (A / 2)). unfold Rsqr. intros T1 T2.
    replace (_ + _ + _) with (R ^ 2 * (cos (A / 2) ^ 2 - 2 * cos (A / 2) * cos a + (sin a * sin a + cos a * cos a))) by ring. rewrite T1. replace ((R * sin (A / 2)) ^ 2) with (R ^ 2 * (sin (A / 2) * sin (A / 2))) by ring. apply Rmult_le_compat_l; [apply pow2_ge_0|]. nra.
  - rewrite (C2 L). unfold vnorm. rewrite <- (sqrt_pow2 R) at 2 by lra. f_equal. unfold vnorm2, vdot, on_arc. cbn [vadd vzero vx vy vz]. generalize (sin2_cos2 a). unfold Rsqr. intros T. replace (R ^ 2) with (R ^ 2 * (sin a * sin a + cos a * cos a)) by (rewrite T; ring). ring.
Qed.
Lemma cond_off (b : bool) (P : Prop) {X} (x : option X) (Q : X -> Prop) : (b = true <-> P) -> (P -> ((exists g, x = Some g) <-> P) /\ forall g, x = Some g -> Q g) -> ((exists g, (if b then x else None) = Some g) <-> P) /\ forall g, (if b then x else None) = Some g -> Q g.
Proof. intros B H. destruct b; [apply H, B; reflexivity|]. split; [|discriminate]. split; [intros (g&E); discriminate|]. intros p. apply B in p. discriminate. Qed.
Lemma banana_spec R A n r :
  ((exists g, banana_geometry R A n r = Some g) <-> 0 < R /\ 0 < A < 2 * PI /\ (2 <= n)%nat /\ 0 < r <= R) /\
  forall g, banana_geometry R A n r = Some g -> exists c, arc_centre R A c /\
    length (g_data g) = n /\ (forall i, (i < n)%nat -> nth_error (g_data g) i = Some (Bead (division R A c (n - 1) i) r)) /\
    g_primary g = Some (V3 0 0 1) /\ g_secondary g = Some (V3 (-1) 0 0) /\ g_origin g = vzero /\
    (A < PI -> vadd (division R A c (n - 1) 0) (division R A c (n - 1) (n - 1)) = vzero /\ forall d, In d (g_data g) -> vnorm (bd_pos d) <= R * sin (A / 2)) /\
    (PI <= A -> forall d, In d (g_data g) -> vnorm (bd_pos d) = R) /\
    (exists v1 v2, (forall i, (S i < n)%nat -> common_volume r (distance (division R A c (n - 1) i) (division R A c (n - 1) (S i))) v1) /\
       (PI < A /\ (2 < n)%nat -> common_volume r (distance (division R A c (n - 1) 0) (division R A c (n - 1) (n - 1))) v2) /\ (~ (PI < A /\ (2 < n)%nat) -> v2 = 0) /\
       g_volume g = INR n * ball_volume r - INR (n - 1) * v1 - v2) /\
    (forall y k m e, y <> c -> number_of (bead_has (g_data g) y) n k -> number_of (fun i => bead_has (g_data g) y i /\ bead_has (g_data g) y (S i)) (n - 1) m ->
       (PI < A /\ (2 < n)%nat /\ bead_has (g_data g) y 0 /\ bead_has (g_data g) y (n - 1) -> e = 1%nat) -> (~ (PI < A /\ (2 < n)%nat /\ bead_has (g_data g) y 0 /\ bead_has (g_data g) y (n - 1)) -> e = 0%nat) ->
       (beads_body (g_data g) y -> k = (m + e + 1)%nat) /\ (~ beads_body (g_data g) y -> k = 0%nat)) /\
    exists b, (r ^ 2 <= distance (division R A c (n - 1) 0) (division R A c (n - 1) 1) ^ 2 + (/ 10 ^ 12) ^ 2 -> exists m, middle (g_data g) m /\ b = [([99; 109]%Z, m)]) /\
      (distance (division R A c (n - 1) 0) (division R A c (n - 1) 1) ^ 2 + (/ 10 ^ 12) ^ 2 < r ^ 2 -> b = []) /\
      forall name v, getNamedPoint g name = Some v <->
        point_called (bead_point (g_data g)) vzero (([98; 101; 103]%Z, division R A c (n - 1) 0) :: ([101; 110; 100]%Z, division R A c (n - 1) (n - 1)) :: b) name v.
Proof.
  unfold banana_geometry. apply cond_off.
  { rewrite !andb_true_iff, !Rltb_true, Rleb_true, Nat.leb_le. tauto. }
  intros (R0&A0&n0&r0). cbv zeta. fold (spheres_at R A n). set (data := map (fun pos => Bead pos r) (spheres_at R A n)). set (c := centre_of R A).
  destruct (banana_volume_spec R A r n R0 A0 (proj1 r0) n0) as (v1&v2&C1&C2&C3&V). fold data in V. rewrite V. cbn [obind].
  set (v := INR n * ball_volume r - INR (n - 1) * v1 - v2) in *.
  pose proof (data_length R A r n) as L. fold data in L. pose proof (data_nth R A r n n0) as DN. fold data c in DN.
  pose proof (spheres_length R A n) as SL. pose proof (spheres_nth R A n) as SN. fold c in SN.
  assert (F : hd vzero (spheres_at R A n) = division R A c (n - 1) 0). { specialize (SN 0%nat n0 ltac:(lia)). destruct (spheres_at R A n); [discriminate|]. injection SN as ->. reflexivity. }
  assert (G : last (spheres_at R A n) vzero = division R A c (n - 1) (n - 1)).
  { assert (X : forall (l : list vec) x, nth_error l (length l - 1) = Some x -> last l vzero = x). { clear. intros l. induction l as [|a l IH]; intros x H; [discriminate|]. destruct l as [|b l]; [cbn in H |- *; congruence|]. cbn [last]. apply IH. cbn in H |- *. rewrite Nat.sub_0_r in *. exact H. } apply X. rewrite SL. apply SN; lia. }
  rewrite F, G.
  assert (HM : forall (gd : geometry bead), g_data gd = data -> has_mass_centre (g_data gd) = Rleb (r ^ 2) (distance (division R A c (n - 1) 0) (division R A c (n - 1) 1) ^ 2 + (/ 10 ^ 12) ^ 2)).
  { intros gd ->. unfold has_mass_centre. rewrite (DN 0%nat), (DN 1%nat) by lia. cbn [bd_pos bd_radius]. unfold distance. rewrite (sym_distance (division R A c (n - 1) 0)). f_equal; [ring|]. unfold vnorm. rewrite pow2_sqrt by apply vnorm2_nonneg. f_equal. ring. }
  set (cond := Rleb (r ^ 2) (distance (division R A c (n - 1) 0) (division R A c (n - 1) 1) ^ 2 + (/ 10 ^ 12) ^ 2)) in *.
  set (x := geometry <- polysphere_geometry data _ _ vzero (Some v) [] ;; _).
  assert (EX : x = polysphere_geometry data (Some (V3 0 0 1)) (Some (V3 (-1) 0 0)) vzero (Some v) ([(beg_name, division R A c (n - 1) 0); (end_name, division R A c (n - 1) (n - 1))] ++ if cond then [(cm_name, calculateMassCentre data)] else [])).
  { rewrite <- later_points. unfold x. destruct (polysphere_geometry data _ _ vzero (Some v) []) as [g1|] eqn:G1; [|reflexivity]. cbn [obind]. destruct (addCustomNamedPoints _ g1) as [g2|] eqn:G2; [|reflexivity]. cbn [obind]. rewrite HM; [reflexivity|]. unfold addCustomNamedPoints in G2. destruct (registerNamedPoints _ _); [|discriminate]. injection G2 as <-. cbn [g_data]. apply geometry_data in G1. exact G1. }
  set (b := if cond then [(cm_name, calculateMassCentre data)] else []) in *. assert (NE : data <> []) by (intros E; rewrite E in L; cbn in L; lia).
  assert (PF : List.Forall (fun d => 0 < bd_radius d) data) by (apply Forall_forall; intros d I; rewrite (data_radius R A r n d I); lra).
  destruct (spheres_shape data (V3 0 0 1) (V3 (-1) 0 0) v ([(beg_name, division R A c (n - 1) 0); (end_name, division R A c (n - 1) (n - 1))] ++ b)) as (g&E&D&P1&P2&O&VG&Q).
  - apply unit_norm. unfold vnorm2, vdot. cbn. ring.
  - apply unit_norm. unfold vnorm2, vdot. cbn. ring.
  - exact NE.
  - exact PF.
  - unfold b. destruct cond; cbn; repeat constructor; cbn; intuition discriminate.
  - intros i. unfold b. destruct cond; cbn; intros H; repeat (destruct H as [H|H]; [symmetry in H; revert H; apply other_letter; discriminate|]); destruct H.
  - rewrite EX. split; [split; [auto|intros _; exists g; exact E]|]. intros g' E'. assert (g' = g) by congruence. subst g'. exists c. split; [apply centre_of_spec|]. rewrite D, P1, P2, O, VG. split; [exact L|]. split; [exact DN|]. split; [reflexivity|]. split; [reflexivity|]. split; [reflexivity|].
    assert (AR : forall d, In d data -> exists a, - A / 2 <= a <= A / 2 /\ bd_pos d = on_arc R c a).
    { intros d I. apply In_nth_error in I. destruct I as (i&I). assert (LI : (i < n)%nat) by (rewrite <- L; apply nth_error_Some; congruence). rewrite DN in I by exact LI. injection I as <-. eexists. split; [|reflexivity]. apply arc_range; (lia || lra). }
    split; [|split; [|split; [|split]]].
    + intros LA. split. { rewrite <- (ends_middle R A c (centre_of_spec R A) LA). unfold division. assert (1 <= INR (n - 1)) by (apply (le_INR 1); lia). f_equal; f_equal; cbn [INR]; field; lra. }
      intros d I. destruct (AR d I) as (a&B&->). apply (arc_covered R A c a); (lra || apply centre_of_spec || assumption).
    + intros LA d I. destruct (AR d I) as (a&B&->). apply (arc_covered R A c a); (lra || apply centre_of_spec || assumption).
    + exists v1, v2. split; [|split; [|split; [exact C3|reflexivity]]].
      * intros i LI. unfold distance. pose proof (gap_distance R A n R0 A0 n0 i) as X. fold c in X. rewrite X. exact C1.
      * intros X. unfold distance. pose proof (ends_distance R A n R0 A0 n0) as X'. fold c in X'. rewrite X'. apply C2, X.
    + intros y k m e. apply (banana_count R A r n R0 A0 (proj1 r0) n0 (proj2 r0)).
    + exists b. unfold b. split; [|split].
      * intros H. apply Rleb_true in H. fold cond in H. rewrite H. eexists. split; [apply mass_centre_middle; assumption|reflexivity].
      * intros H. assert (X : cond = false) by (unfold cond; apply Rleb_false; lra). rewrite X. reflexivity.
      * exact Q.
Qed.
