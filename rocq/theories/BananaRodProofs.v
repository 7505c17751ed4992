From Coq Require Import Reals ZArith List Bool Arith Lia Lra Psatz.
From Coquelicot Require Import Coquelicot.
From Verif Require Import TextModel TextProofs GeomModel GeomProofs PbcModel PackSpec SegSpec ShapesModel XcSpec GeoModel GeoSpec GeoProofs GeoShapesProofs GeoAxisProofs VolSpec VolProofs BeadsModel BeadsSpec BeadsProofs BeadsChainProofs BananaModel BananaSpec BananaProofs BananaShapeProofs BananaLegacyProofs OptModel.
Import ListNotations.
Open Scope R_scope.

(** *** Volumes of the parts *)
Lemma volume_same (b b' : body) v : (forall y, b y <-> b' y) -> volume b v -> volume b' v.
Proof.
  intros H (area&a&c&L&B&S&I). exists area, a, c. split; [exact L|]. split; [intros y Y; apply B, H, Y|]. split; [|exact I]. intros z. specialize (S z). destruct S as [E|r P E|p q P Q E].
  - apply sec_empty. intros x y Y. apply (E x y), H, Y.
  - apply sec_disk; [exact P|]. intros x y. rewrite <- H. apply E.
  - apply sec_rectangle; [exact P|exact Q|]. intros x y. rewrite <- H. apply E.
Qed.
Lemma ball_has_volume r : 0 < r -> volume (in_ball vzero r) (ball_volume r).
Proof.
  intros P. pose proof (cap_volume r (2 * r) P ltac:(lra)) as V. replace (PI * _) with (ball_volume r) in V by (unfold ball_volume; field). revert V. apply volume_same. intros y. split; [tauto|]. intros H. split; [exact H|]. unfold in_ball in H.
  assert (vz y ^ 2 <= r ^ 2). { assert (vnorm2 (vsub y vzero) <= r ^ 2). { unfold vnorm in H. apply sqrt_le_0; [apply vnorm2_nonneg|apply pow2_ge_0|]. rewrite sqrt_pow2 by lra. exact H. } unfold vnorm2, vdot in H0. cbn in H0. nra. }
  nra.
Qed.
Lemma cylinder_has_volume r h : 0 < r -> 0 <= h -> volume (cylinder_body r h) (cylinder_volume r h).
Proof.
  intros P H. exists (fun z => if Rle_dec 0 z then if Rle_dec z h then PI * r ^ 2 else 0 else 0), 0, h. split; [exact H|]. split; [intros y (Y&_); exact Y|]. split.
  - intros z. destruct (Rle_dec 0 z); [destruct (Rle_dec z h)|].
    + apply sec_disk; [lra|]. intros x y. unfold cylinder_body. cbn. split; [tauto|intros; split; [lra|assumption]].
    + apply sec_empty. intros x y (Y&_). cbn in Y. lra.
    + apply sec_empty. intros x y (Y&_). cbn in Y. lra.
  - apply (int_on (fun _ => PI * r ^ 2)); [exact H| |].
    + intros z Z. destruct (Rle_dec 0 z); [|lra]. destruct (Rle_dec z h); [reflexivity|lra].
    + eapply int_eq; [apply @is_RInt_const|]. unfold cylinder_volume. unfold scal; cbn; unfold mult; cbn. ring.
Qed.
Lemma cut_int r t : 0 < r -> is_RInt (fun z => 4 * t * (z * sqrt (r ^ 2 - z ^ 2))) 0 r (4 / 3 * t * r ^ 3).
Proof.
  intros P. set (f := fun z => 4 * t * (z * sqrt (r ^ 2 - z ^ 2))).
  assert (C : forall z, continuous f z).
  { intros z. apply (continuous_scal_r (4 * t) (fun z => z * sqrt (r ^ 2 - z ^ 2)) z). apply (continuous_mult (fun z => z) (fun z => sqrt (r ^ 2 - z ^ 2)) z); [apply continuous_id|].
    apply (continuous_comp (fun z => r ^ 2 - z ^ 2) sqrt); [|apply continuous_sqrt]. apply (ex_derive_continuous (fun z => r ^ 2 - z ^ 2)). auto_derive. exact Logic.I. }
  assert (E : is_RInt f 0 r (RInt f 0 r)) by (apply @RInt_correct, @ex_RInt_continuous; intros z _; apply C).
  assert (V : RInt f 0 r = 4 / 3 * t * r ^ 3).
  { pose proof (is_RInt_comp f (fun u => r * sin u) (fun u => r * cos u) 0 (PI / 2)) as K. cbv beta in K. rewrite sin_0, sin_PI2, Rmult_0_r, Rmult_1_r in K.
    assert (K1 := K ltac:(intros; apply C)). clear K. assert (K2 := K1 ltac:(intros u _; split; [auto_derive; [exact Logic.I|ring]|apply (ex_derive_continuous (fun u => r * cos u)); auto_derive; exact Logic.I])). clear K1.
    assert (I0 : is_RInt (fun u => 4 * t * r ^ 3 * (sin u * cos u ^ 2)) 0 (PI / 2) (4 / 3 * t * r ^ 3)).
    { eapply int_eq; [apply (is_RInt_derive (fun u => - (4 / 3) * t * r ^ 3 * cos u ^ 3) (fun u => 4 * t * r ^ 3 * (sin u * cos u ^ 2)))|].
      - intros u _. auto_derive; [exact Logic.I|]. field.
      - intros u _. apply (ex_derive_continuous (fun u => 4 * t * r ^ 3 * (sin u * cos u ^ 2))). auto_derive. exact Logic.I.
      - unfold minus, plus, opp. cbn -[pow]. rewrite cos_PI2, cos_0. field. }
    assert (I1 : is_RInt (fun u => 4 * t * r ^ 3 * (sin u * cos u ^ 2)) 0 (PI / 2) (RInt f 0 r)).
    { eapply int_on; [pose proof PI_RGT_0; lra| |exact K2]. intros u U. unfold f. unfold scal; cbn -[pow]; unfold mult; cbn -[pow]. replace (r ^ 2 - (r * sin u) ^ 2) with ((r * cos u) ^ 2); [|pose proof (sin2_cos2 u) as T; unfold Rsqr in T; replace (r ^ 2) with (r ^ 2 * (sin u * sin u + cos u * cos u)) by (rewrite T; ring); ring]. assert (0 < cos u) by (apply cos_gt_0; lra). rewrite sqrt_pow2 by nra. ring. }
    rewrite <- (is_RInt_unique _ _ _ _ I0). symmetry. apply is_RInt_unique. exact I1. }
  rewrite <- V. exact E.
Qed.
Lemma cut_has_volume r angle : 0 < r -> 0 <= tan (angle / 2) -> volume (cut_body r angle) (4 / 3 * tan (angle / 2) * r ^ 3).
Proof.
  intros P T. set (t := tan (angle / 2)) in *. exists (fun z => if Rle_dec 0 z then if Rle_dec z r then 4 * t * (z * sqrt (r ^ 2 - z ^ 2)) else 0 else 0), 0, r. split; [lra|]. split; [intros y (Y&_); exact Y|]. split.
  - intros z. destruct (Rle_dec 0 z); [destruct (Rle_dec z r)|].
    + replace (4 * t * (z * sqrt (r ^ 2 - z ^ 2))) with ((2 * (z * t)) * (2 * sqrt (r ^ 2 - z ^ 2))) by ring. assert (S0 : 0 <= sqrt (r ^ 2 - z ^ 2)) by apply sqrt_pos. apply sec_rectangle; [nra|lra|]. intros x y. unfold cut_body. cbn [vx vy vz]. fold t. replace (2 * (z * t) / 2) with (z * t) by lra. replace (2 * sqrt (r ^ 2 - z ^ 2) / 2) with (sqrt (r ^ 2 - z ^ 2)) by lra.
      assert (Q : y ^ 2 + z ^ 2 <= r ^ 2 <-> Rabs y <= sqrt (r ^ 2 - z ^ 2)). { split; intros H. - rewrite <- (sqrt_pow2 (Rabs y)) by apply Rabs_pos. apply sqrt_le_1_alt. rewrite pow2_abs. lra. - assert (H' : Rabs y ^ 2 <= sqrt (r ^ 2 - z ^ 2) ^ 2) by (apply pow_incr; split; [apply Rabs_pos|exact H]). rewrite pow2_sqrt, pow2_abs in H' by nra. lra. }
      split; [intros (_&H1&H2); split; [exact H2|apply Q, H1]|intros (H1&H2); split; [lra|]; split; [apply Q, H2|exact H1]].
    + apply sec_empty. intros x y (Y&_). cbn in Y. lra.
    + apply sec_empty. intros x y (Y&_). cbn in Y. lra.
  - apply (int_on (fun z => 4 * t * (z * sqrt (r ^ 2 - z ^ 2)))); [lra| |apply cut_int; exact P].
    intros z Z. destruct (Rle_dec 0 z); [|lra]. destruct (Rle_dec z r); [reflexivity|lra].
Qed.

(** *** Segments *)
Lemma segment_rods_length R a st r s : length (segment_rods R a st r s) = s. Proof. unfold segment_rods. rewrite map_length. apply seq_length. Qed.
Lemma segment_rods_nth R a st r s j : (j < s)%nat -> exists d, nth_error (segment_rods R a st r s) j = Some d /\
  rod_between (part (on_arc R vzero (a - st / 2)) (on_arc R vzero (a + st / 2)) s j) (part (on_arc R vzero (a - st / 2)) (on_arc R vzero (a + st / 2)) s (S j)) r d.
Proof.
  intros L. unfold segment_rods. rewrite nth_error_map, (nth_error_nth' _ 0%nat) by (rewrite seq_length; exact L). rewrite seq_nth by exact L. eexists. split; [reflexivity|]. cbn [Nat.add]. rewrite !arc_position_is. generalize (on_arc R vzero (a - st / 2)) (on_arc R vzero (a + st / 2)). intros p q.
  assert (1 <= INR s) by (apply (le_INR 1); lia). unfold rod_between, part. cbn [rd_pos rd_half rd_radius]. rewrite S_INR. split; [|split; [|reflexivity]]; apply vec_ext; cbn; field; lra.
Qed.
Lemma rod_loop_length R st r s n : forall a, length (rod_banana_loop n R a st r s) = (n * s)%nat.
Proof. induction n as [|n IH]; intros a; [reflexivity|]. cbn [rod_banana_loop]. rewrite app_length, segment_rods_length, IH. lia. Qed.
Lemma rod_loop_nth R st r s n : forall a i j, (i < n)%nat -> (j < s)%nat -> exists d, nth_error (rod_banana_loop n R a st r s) (i * s + j) = Some d /\
  rod_between (part (on_arc R vzero (a + INR i * st - st / 2)) (on_arc R vzero (a + INR i * st + st / 2)) s j) (part (on_arc R vzero (a + INR i * st - st / 2)) (on_arc R vzero (a + INR i * st + st / 2)) s (S j)) r d.
Proof.
  induction n as [|n IH]; intros a i j LI LJ; [lia|]. cbn [rod_banana_loop]. destruct i as [|i].
  - rewrite nth_error_app1 by (rewrite segment_rods_length; lia). cbn [Nat.mul Nat.add]. replace (a + INR 0 * st) with a by (cbn [INR]; ring). apply segment_rods_nth, LJ.
  - rewrite nth_error_app2 by (rewrite segment_rods_length; lia). rewrite segment_rods_length. replace (S i * s + j - s)%nat with (i * s + j)%nat by lia. replace (a + INR (S i) * st) with (a + st + INR i * st) by (rewrite S_INR; ring). apply IH; lia.
Qed.
Definition moved_rod (c : vec) (d : rod) : rod := Rod (vadd (rd_pos d) c) (rd_half d) (rd_radius d).
Lemma moved_between c p q r d : rod_between p q r d -> rod_between (vadd p c) (vadd q c) r (moved_rod c d).
Proof. intros (P&Q&E). unfold rod_between, moved_rod. cbn [rd_pos rd_half rd_radius]. rewrite <- P, <- Q. split; [|split; [|exact E]]; apply vec_ext; cbn; ring. Qed.
Lemma part_move p q c n j : vadd (part p q n j) c = part (vadd p c) (vadd q c) n j. Proof. unfold part. apply vec_ext; cbn; ring. Qed.
Definition rods_at R A r (n s : nat) : list rod :=
  let scData := rod_banana_loop n R (- (A / INR n) * INR (n - 1) / 2) (A / INR n) r s in
  if Rltb A PI then map (fun d => Rod (vadd (rd_pos d) (V3 (- vx (vsub (rd_pos (hd (Rod vzero vzero 0) scData)) (rd_half (hd (Rod vzero vzero 0) scData)))) 0 0)) (rd_half d) (rd_radius d)) scData else scData.
Lemma rods_length R A r n s : length (rods_at R A r n s) = (n * s)%nat. Proof. unfold rods_at. destruct (Rltb A PI); [rewrite map_length|]; apply rod_loop_length. Qed.
Lemma loop_division R A r n s i j : (2 <= n)%nat -> (i < n)%nat -> (j < s)%nat -> exists d, nth_error (rod_banana_loop n R (- (A / INR n) * INR (n - 1) / 2) (A / INR n) r s) (i * s + j) = Some d /\
  rod_between (part (division R A vzero n i) (division R A vzero n (S i)) s j) (part (division R A vzero n i) (division R A vzero n (S i)) s (S j)) r d.
Proof.
  intros N LI LJ. destruct (rod_loop_nth R (A / INR n) r s n (- (A / INR n) * INR (n - 1) / 2) i j LI LJ) as (d&E&B). exists d. split; [exact E|]. assert (2 <= INR n) by (apply (le_INR 2); lia).
  assert (E1 : - (A / INR n) * INR (n - 1) / 2 + INR i * (A / INR n) - A / INR n / 2 = - A / 2 + INR i / INR n * A) by (rewrite minus_INR by lia; cbn [INR]; field; lra).
  assert (E2 : - (A / INR n) * INR (n - 1) / 2 + INR i * (A / INR n) + A / INR n / 2 = - A / 2 + INR (S i) / INR n * A) by (rewrite S_INR, minus_INR by lia; cbn [INR]; field; lra).
  rewrite E1, E2 in B. exact B.
Qed.
Lemma division_zero R A c n : (1 <= n)%nat -> division R A c n 0 = on_arc R c (- (A / 2)). Proof. intros N. unfold division. f_equal. cbn [INR]. assert (1 <= INR n) by (apply (le_INR 1); lia). field. lra. Qed.
Lemma division_last R A c n : (1 <= n)%nat -> division R A c n n = on_arc R c (A / 2). Proof. intros N. unfold division. f_equal. assert (1 <= INR n) by (apply (le_INR 1); lia). field. lra. Qed.
Lemma part_zero p q n : (1 <= n)%nat -> part p q n 0 = p. Proof. intros N. unfold part. cbn [INR]. assert (1 <= INR n) by (apply (le_INR 1); lia). apply vec_ext; cbn; field; lra. Qed.
Lemma part_last p q n : (1 <= n)%nat -> part p q n n = q. Proof. intros N. unfold part. assert (1 <= INR n) by (apply (le_INR 1); lia). apply vec_ext; cbn; field; lra. Qed.
Lemma rods_nth R A r n s i j : (2 <= n)%nat -> (i < n)%nat -> (j < s)%nat -> let c := centre_of R A in exists d, nth_error (rods_at R A r n s) (i * s + j) = Some d /\
  rod_between (part (division R A c n i) (division R A c n (S i)) s j) (part (division R A c n i) (division R A c n (S i)) s (S j)) r d.
Proof.
  intros N LI LJ c. destruct (loop_division R A r n s i j N LI LJ) as (d&E&B). unfold rods_at. unfold c, centre_of. destruct (Rltb A PI) eqn:LA; [apply Rltb_true in LA|apply Rltb_false in LA]; destruct (Rlt_dec A PI); try lra.
  2: { exists d. split; [exact E|exact B]. }
  destruct (loop_division R A r n s 0 0 N ltac:(lia) ltac:(lia)) as (d0&E0&B0&_). cbn [Nat.mul Nat.add] in E0. destruct (rod_banana_loop n R _ _ r s) as [|h l]; [discriminate|]. injection E0 as ->. cbn [hd]. rewrite B0, part_zero, division_zero by lia.
  set (t := V3 _ 0 0). rewrite nth_error_map, E. cbn [option_map]. exists (moved_rod t d). split; [reflexivity|]. apply (moved_between t) in B. rewrite !part_move in B. unfold division in B |- *. rewrite !on_arc_move in B.
  assert (T : t = V3 (R * cos (A / 2)) 0 0). { unfold t, on_arc. apply vec_ext; cbn; rewrite ?cos_neg; ring. } rewrite T in B |- *. exact B.
Qed.
(** *** Preconditions *)
Lemma validation_spec R A n r : basicValidation R A n r = true <-> 0 < R /\ 0 < A < 2 * PI /\ (2 <= n)%nat /\ 0 < r.
Proof. unfold basicValidation. rewrite !andb_true_iff, !Rltb_true, Nat.leb_le. tauto. Qed.
Lemma chord_distance R A n i t : 0 < R -> (1 <= n)%nat -> distance (vadd (division R A vzero n i) (vscale t (vsub (division R A vzero n (S i)) (division R A vzero n i)))) vzero ^ 2 =
  R ^ 2 * (cos (A / INR n / 2) ^ 2 + (1 - 2 * t) ^ 2 * sin (A / INR n / 2) ^ 2).
Proof.
  intros P N. unfold distance, vnorm. rewrite pow2_sqrt by apply vnorm2_nonneg. assert (1 <= INR n) by (apply (le_INR 1); lia). set (h := A / INR n / 2). set (m := - A / 2 + INR i / INR n * A + h).
  assert (E1 : division R A vzero n i = on_arc R vzero (m - h)) by (unfold division; f_equal; unfold m; ring). assert (E2 : division R A vzero n (S i) = on_arc R vzero (m + h)) by (unfold division; f_equal; unfold m, h; rewrite S_INR; field; lra).
  rewrite E1, E2. unfold on_arc, vnorm2, vdot. cbn [vadd vsub vscale vzero vx vy vz]. rewrite cos_plus, cos_minus, sin_plus, sin_minus. pose proof (sin2_cos2 m) as T. unfold Rsqr in T. revert T. generalize (sin m) (cos m) (sin h) (cos h). intros sm cm sh ch T.
  replace (R ^ 2 * (ch ^ 2 + (1 - 2 * t) ^ 2 * sh ^ 2)) with (R ^ 2 * ((sm * sm + cm * cm) * (ch ^ 2 + (1 - 2 * t) ^ 2 * sh ^ 2))) by (rewrite T; ring). ring.
Qed.
Lemma half_angle A n : 0 < A < 2 * PI -> (2 <= n)%nat -> 0 < A / INR n / 2 < PI / 2.
Proof. intros H N. assert (2 <= INR n) by (apply (le_INR 2); lia). split; [apply Rdiv_lt_0_compat; [apply Rdiv_lt_0_compat|]; lra|]. assert (A / INR n < PI); [|lra]. apply Rmult_lt_reg_r with (INR n); [lra|]. unfold Rdiv. rewrite Rmult_assoc, Rinv_l by lra. pose proof PI_RGT_0. nra. Qed.
Lemma eps_pos : 0 < / 10 ^ 12. Proof. apply Rinv_0_lt_compat, pow_lt. lra. Qed.
Lemma outside_spec R A n r : 0 < R -> 0 < A < 2 * PI -> (2 <= n)%nat -> 0 < r -> exists b, isArcOriginOutside R A n r = Some b /\
  (b = true <-> forall i t, (i < n)%nat -> 0 <= t <= 1 -> r <= (1 + / 10 ^ 12) * distance (vadd (division R A vzero n i) (vscale t (vsub (division R A vzero n (S i)) (division R A vzero n i)))) vzero).
Proof.
  intros P Q N S. unfold isArcOriginOutside. rewrite (proj2 (validation_spec R A n r)) by auto. eexists. split; [reflexivity|]. rewrite Rleb_true. pose proof (half_angle A n Q N) as HA. assert (C0 : 0 < cos (A / INR n / 2)) by (apply cos_gt_0; lra). pose proof eps_pos as EP. pose proof (chord_distance R A n) as CD.
  set (k := cos (A / INR n / 2)) in *. split.
  - intros H i t LI T. specialize (CD i t P ltac:(lia)). set (d := distance _ vzero) in *. assert (D0 : 0 <= d) by apply sqrt_pos. assert (R * k <= d). { assert (0 <= (1 - 2 * t) ^ 2 * sin (A / INR n / 2) ^ 2) by (apply Rmult_le_pos; apply pow2_ge_0). assert ((R * k) ^ 2 <= d ^ 2) by (rewrite CD; nra). nra. } nra.
  - intros H. specialize (H 0%nat (1 / 2) ltac:(lia) ltac:(lra)). specialize (CD 0%nat (1 / 2) P ltac:(lia)). set (d := distance _ vzero) in *. assert (D0 : 0 <= d) by apply sqrt_pos. assert (E : d ^ 2 = (R * k) ^ 2) by (rewrite CD; field). assert (d = R * k). { apply Rsqr_inj; [exact D0|nra|]. unfold Rsqr. lra. } nra.
Qed.
Lemma ends_apart R A c n : 0 < R -> 0 < A < 2 * PI -> (1 <= n)%nat -> distance (division R A c n 0) (division R A c n n) = 2 * R * sin (A / 2).
Proof. intros P Q N. unfold distance. rewrite division_zero, division_last by exact N. rewrite arc_distance by lra. f_equal. f_equal. lra. Qed.
Lemma open_spec R A n r : 0 < R -> 0 < A < 2 * PI -> (2 <= n)%nat -> 0 < r -> exists b, isArcOpen R A n r = Some b /\
  (b = true <-> A <= PI \/ 2 * r <= (1 + / 10 ^ 12) * distance (division R A vzero n 0) (division R A vzero n n)).
Proof.
  intros P Q N S. unfold isArcOpen. rewrite (proj2 (validation_spec R A n r)) by auto. rewrite ends_apart by (assumption || lia). destruct (Rleb A PI) eqn:L.
  - apply Rleb_true in L. eexists. split; [reflexivity|]. tauto.
  - apply Rleb_false in L. eexists. split; [reflexivity|]. rewrite Rleb_true. split; [intros H; right; lra|intros [H|H]; lra].
Qed.
Lemma refused_spec R A n r : ~ (0 < R /\ 0 < A < 2 * PI /\ (2 <= n)%nat /\ 0 < r) -> isArcOriginOutside R A n r = None /\ isArcOpen R A n r = None.
Proof. intros H. unfold isArcOriginOutside, isArcOpen. destruct (basicValidation R A n r) eqn:E; [apply validation_spec in E; contradiction|auto]. Qed.

(** *** The geometry *)
Lemma add_rod_points data p s o v c1 c2 : (g <- polyspherocylinder_geometry data p s o v c1 ;; addRodPoints c2 g) = polyspherocylinder_geometry data p s o v (c1 ++ c2).
Proof.
  unfold polyspherocylinder_geometry. destruct (forallb _ data); [|reflexivity]. unfold make_geometry. destruct data as [|d data]; [reflexivity|]. destruct (match p with None => _ | Some _ => _ end); [reflexivity|].
  destruct (normalized_axis p); [|reflexivity]. cbn [obind]. destruct (normalized_axis s); [|reflexivity]. cbn [obind]. destruct (match v with Some _ => _ | None => _ end); [|reflexivity]. cbn [obind].
  destruct (registerNamedPoints [] _) as [ps|]; [|reflexivity]. cbn [obind]. clear. assert (R : forall c1 c2 ps, registerNamedPoints ps (c1 ++ c2) = (ps' <- registerNamedPoints ps c1 ;; registerNamedPoints ps' c2)).
  { clear. induction c1 as [|c c1 IH]; intros c2 ps; [reflexivity|]. cbn [app registerNamedPoints]. destruct (registerNamedPoint ps c); [|reflexivity]. cbn [obind]. apply IH. }
  rewrite R. destruct (registerNamedPoints ps c1) as [ps1|]; [|reflexivity]. cbn [obind]. unfold addRodPoints. cbn [g_points]. destruct (registerNamedPoints ps1 c2); reflexivity.
Qed.
Lemma no_number c c' d t i : is_digit d = false -> numbered c i <> c' :: d :: t.
Proof. intros H E. injection E as _ E. pose proof (decimal_digits (Z.of_nat i)) as D. rewrite E in D. inversion D. congruence. Qed.
Definition outside_arc R A (n : nat) r : Prop := forall i t, (i < n)%nat -> 0 <= t <= 1 -> r <= (1 + / 10 ^ 12) * distance (vadd (division R A vzero n i) (vscale t (vsub (division R A vzero n (S i)) (division R A vzero n i)))) vzero.
Lemma rod_banana_spec R A n r s :
  ((exists g, rod_banana_geometry R A n r s = Some g) <->
   0 < R /\ 0 < A < 2 * PI /\ (2 <= n)%nat /\ 0 < r /\ (0 < s)%nat /\
   ((2 < n)%nat -> forall i t, (i < n)%nat -> 0 <= t <= 1 -> r <= (1 + / 10 ^ 12) * distance (vadd (division R A vzero n i) (vscale t (vsub (division R A vzero n (S i)) (division R A vzero n i)))) vzero) /\
   (A <= PI \/ 2 * r <= (1 + / 10 ^ 12) * distance (division R A vzero n 0) (division R A vzero n n))) /\
  forall g, rod_banana_geometry R A n r s = Some g -> exists c, arc_centre R A c /\
    length (g_data g) = (n * s)%nat /\
    (forall i j, (i < n)%nat -> (j < s)%nat -> exists d, nth_error (g_data g) (i * s + j) = Some d /\
       rod_between (part (division R A c n i) (division R A c n (S i)) s j) (part (division R A c n i) (division R A c n (S i)) s (S j)) r d) /\
    g_primary g = Some (V3 0 0 1) /\ g_secondary g = Some (V3 (-1) 0 0) /\ g_origin g = vzero /\
    (exists vb vc vw, volume (in_ball vzero r) vb /\ (forall i, (i < n)%nat -> volume (cylinder_body r (distance (division R A c n i) (division R A c n (S i)))) vc) /\ volume (cut_body r (A / INR n)) vw /\
       g_volume g = INR n * vc + vb + INR (n - 1) * (A / INR n / (2 * PI) * vb - vw)) /\
    ((2 < n)%nat -> r * tan (A / INR n / 2) <= (1 + / 10 ^ 12) * (distance (division R A c n 0) (division R A c n 1) / 2)) /\
    forall name v, getNamedPoint g name = Some v <->
      point_called (rod_point (g_data g)) vzero [([98; 101; 103]%Z, division R A c n 0); ([101; 110; 100]%Z, division R A c n n)] name v.
Proof.
  assert (REF : rod_banana_geometry R A n r s = None -> forall (P Q : Prop), (P -> Q -> False) -> P -> Q -> False) by auto. clear REF.
  unfold rod_banana_geometry. destruct (basicValidation R A n r) eqn:BV.
  2: { split; [|discriminate]. split; [intros (g&E); discriminate|]. intros (H1&H2&H3&H4&_). assert (basicValidation R A n r = true) by (apply validation_spec; auto). congruence. }
  apply validation_spec in BV. destruct BV as (P&Q&N&S). destruct (outside_spec R A n r P Q N S) as (bo&EO&SO). destruct (open_spec R A n r P Q N S) as (bp&EP&SP). rewrite EO, EP.
  set (outside := if Nat.ltb 2 n then Some bo else Some true). assert (OB : exists b, outside = Some b /\ (b = true <-> ((2 < n)%nat -> outside_arc R A n r))).
  { unfold outside. destruct (Nat.ltb 2 n) eqn:L; [apply Nat.ltb_lt in L; exists bo; split; [reflexivity|]; rewrite SO; unfold outside_arc; tauto|apply Nat.ltb_ge in L; exists true; split; [reflexivity|]; split; [lia|reflexivity]]. }
  destruct OB as (b&->&OB). cbn [obind]. destruct (b && bp && Nat.ltb 0 s) eqn:B.
  2: { split; [|discriminate]. split; [intros (g&E); discriminate|]. intros (_&_&_&_&H1&H2&H3). apply OB in H2. apply SP in H3. apply Nat.ltb_lt in H1. rewrite H1, H2, H3 in B. discriminate. }
  apply andb_prop in B. destruct B as (B&B3). apply andb_prop in B. destruct B as (B1&B2). apply Nat.ltb_lt in B3. pose proof (proj1 OB B1) as OB'. pose proof (proj1 SP B2) as SP'.
  cbv zeta. fold (rods_at R A r n s). set (data := rods_at R A r n s). set (c := centre_of R A).
  pose proof (rods_length R A r n s) as L. fold data in L. pose proof (fun i j => rods_nth R A r n s i j N) as DN. cbv zeta in DN. fold data c in DN.
  destruct (DN 0%nat 0%nat ltac:(lia) B3) as (d0&E0&(F0&_)). cbn [Nat.mul Nat.add] in E0. rewrite part_zero in F0 by lia.
  destruct (DN (n - 1)%nat (s - 1)%nat ltac:(lia) ltac:(lia)) as (d1&E1&(_&F1&_)). replace (Datatypes.S (s - 1)) with s in F1 by lia. replace (Datatypes.S (n - 1)) with n in F1 by lia. rewrite part_last in F1 by lia.
  assert (HD : hd (Rod vzero vzero 0) data = d0). { destruct data; [discriminate|]. injection E0 as ->. reflexivity. }
  assert (LA : last data (Rod vzero vzero 0) = d1).
  { assert (X : forall (l : list rod) x, nth_error l (length l - 1) = Some x -> last l (Rod vzero vzero 0) = x). { clear. intros l. induction l as [|a l IH]; intros x H; [discriminate|]. destruct l as [|b l]; [cbn in H |- *; congruence|]. cbn [last]. apply IH. cbn in H |- *. rewrite Nat.sub_0_r in *. exact H. } apply X. rewrite L, <- E1. f_equal. nia. }
  rewrite HD, LA, F0, F1, add_rod_points. cbn [app]. set (v := rod_banana_volume R A n r). set (custom := [(beg_name, _); (end_name, _)]).
  assert (U1 : vnorm (V3 0 0 1) = 1) by (apply unit_norm; unfold vnorm2, vdot; cbn; ring). assert (U2 : vnorm (V3 (-1) 0 0) = 1) by (apply unit_norm; unfold vnorm2, vdot; cbn; ring).
  destruct (rods_geometry_spec data (Some (V3 0 0 1)) (Some (V3 (-1) 0 0)) vzero (Some v) custom) as (S1&S2). destruct (proj2 S1) as (g&G).
  { split; [intros E; rewrite E in L; cbn in L; nia|]. split.
    - apply Forall_forall. intros d I. apply In_nth_error in I. destruct I as (k&I). assert (LK : (k < n * s)%nat) by (rewrite <- L; apply nth_error_Some; congruence). destruct (DN (k / s)%nat (k mod s)%nat) as (d'&E'&(_&_&E'')); [apply Nat.div_lt_upper_bound; lia|apply Nat.mod_upper_bound; lia|].
      replace (k / s * s + k mod s)%nat with k in E' by (rewrite (Nat.div_mod k s) at 1 by lia; lia). assert (d' = d) by congruence. subst d'. rewrite E''. exact S.
    - split; [split; [discriminate|split; apply unit_nonzero; assumption]|]. split; [discriminate|]. split; [cbn; repeat constructor; cbn; intuition discriminate|]. intros i letter _ _. cbn. intros [E|[E|[]]]; symmetry in E; revert E; apply no_number; reflexivity. }
  split; [split; [intros _|intros _; exists g; exact G]|].
  { split; [exact P|]. split; [exact Q|]. split; [exact N|]. split; [exact S|]. split; [exact B3|]. split; [exact OB'|exact SP']. }
  intros g' G'. assert (g' = g) by congruence. subst g'. destruct (S2 g G) as (D&A1&A2&O&V&NP). exists c. split; [apply centre_of_spec|]. rewrite D, O, V. split; [exact L|]. split; [exact DN|]. split; [apply direction_unit; assumption|]. split; [apply direction_unit; assumption|]. split; [reflexivity|].
  pose proof (half_angle A n Q N) as HA. assert (N2 : 2 <= INR n) by (apply (le_INR 2); lia).
  assert (CH : forall i, distance (division R A c n i) (division R A c n (Datatypes.S i)) = 2 * R * sin (A / INR n / 2)).
  { intros i. unfold distance, division. assert (E : - A / 2 + INR (Datatypes.S i) / INR n * A - (- A / 2 + INR i / INR n * A) = A / INR n) by (rewrite S_INR; field; lra). rewrite arc_distance; rewrite ?E; lra || reflexivity. }
  assert (S0 : 0 < sin (A / INR n / 2)) by (apply sin_gt_0; lra). assert (C0 : 0 < cos (A / INR n / 2)) by (apply cos_gt_0; lra).
  split; [|split].
  - exists (ball_volume r), (cylinder_volume r (2 * R * sin (A / INR n / 2))), (4 / 3 * tan (A / INR n / 2) * r ^ 3). split; [apply ball_has_volume; exact S|]. split; [intros i _; rewrite CH; apply cylinder_has_volume; nra|]. split; [apply cut_has_volume; [exact S|left; apply tan_gt_0; lra]|].
    unfold v, rod_banana_volume, ball_volume, cylinder_volume. cbv zeta. rewrite minus_INR by lia. cbn [INR]. field. pose proof PI_neq0 as PN. repeat split; lra || exact PN.
  - intros L2. rewrite CH. specialize (OB' L2 0%nat (1 / 2) ltac:(lia) ltac:(lra)). pose proof (chord_distance R A n 0 (1 / 2) P ltac:(lia)) as CD. set (d := distance _ vzero) in *. assert (D0 : 0 <= d) by apply sqrt_pos.
    assert (E : d = R * cos (A / INR n / 2)). { apply Rsqr_inj; [exact D0|nra|]. unfold Rsqr. replace (d * d) with (d ^ 2) by ring. rewrite CD. field. }
    unfold tan. replace (r * (sin (A / INR n / 2) / cos (A / INR n / 2))) with (r / cos (A / INR n / 2) * sin (A / INR n / 2)) by (field; lra). replace ((1 + / 10 ^ 12) * (2 * R * sin (A / INR n / 2) / 2)) with ((1 + / 10 ^ 12) * R * sin (A / INR n / 2)) by field. apply Rmult_le_compat_r; [lra|].
    apply Rmult_le_reg_r with (cos (A / INR n / 2)); [exact C0|]. unfold Rdiv at 1. rewrite Rmult_assoc, Rinv_l by lra. rewrite E in OB'. lra.
  - exact NP.
Qed.
Lemma no_mass_centre R A n r s g : rod_banana_geometry R A n r s = Some g -> getNamedPoint g [99; 109]%Z = None.
Proof.
  intros H. destruct (proj2 (rod_banana_spec R A n r s) g H) as (c&_&_&_&_&_&_&_&_&NP). destruct (getNamedPoint g [99; 109]%Z) as [v|] eqn:E; [|reflexivity]. exfalso. apply NP in E. destruct E as [(E&_)|(_&[E|E])].
  - discriminate.
  - destruct E as (i&d&_&[(E&_)|[(E&_)|(E&_)]]); discriminate.
  - cbn in E. destruct E as [E|[E|[]]]; discriminate.
Qed.
(** *** Wrong volume *)
Lemma PI_bound : PI <= 4 * (13 / 15). Proof. destruct (PI_ineq 1) as (_&H). cbn in H. unfold tg_alt, PI_tg in H. cbn in H. lra. Qed.
Lemma thick_banana : exists g p w, rod_banana_geometry 1 PI 2 100 1 = Some g /\ (forall y, in_ball p 100 y -> rods_body (g_data g) y) /\ volume (in_ball vzero 100) w /\ g_volume g < w.
Proof.
  pose proof PI_RGT_0 as P0. destruct (rod_banana_spec 1 PI 2 100 1) as (S1&S2). destruct (proj2 S1) as (g&G); [repeat (split; [lra || lia|]); left; lra|]. destruct (S2 g G) as (c&_&_&DN&_&_&_&(vb&vc&vw&VB&VC&VW&V)&_&_). destruct (DN 0%nat 0%nat ltac:(lia) ltac:(lia)) as (d&E&(_&_&RD)).
  exists g, (vadd (rd_pos d) (vscale 0 (rd_half d))), vb. split; [exact G|]. split; [|split; [exact VB|]].
  - intros y H. exists d, 0. split; [apply (nth_error_In _ _ E)|]. split; [lra|]. rewrite RD. exact H.
  - assert (EB : vb = ball_volume 100) by (apply (volume_unique _ _ _ VB), ball_has_volume; lra). specialize (VC 0%nat ltac:(lia)).
    assert (DI : distance (division 1 PI c 2 0) (division 1 PI c 2 1) = 2 * 1 * sin (PI / INR 2 / 2)). { unfold distance, division. cbn [INR]. rewrite arc_distance; [f_equal; f_equal; lra|lra|]. lra. }
    assert (SB : 0 <= sin (PI / INR 2 / 2) <= 1). { cbn [INR]. split; [apply sin_ge_0; lra|]. pose proof (SIN_bound (PI / (1 + 1) / 2)). lra. }
    rewrite DI in VC. assert (EC : vc = cylinder_volume 100 (2 * 1 * sin (PI / INR 2 / 2))) by (apply (volume_unique _ _ _ VC), cylinder_has_volume; lra).
    assert (T : tan (PI / INR 2 / 2) = 1) by (replace (PI / INR 2 / 2) with (PI / 4) by (cbn [INR]; lra); apply tan_PI4).
    assert (EW : vw = 4 / 3 * 1 * 100 ^ 3) by (rewrite <- T; apply (volume_unique _ _ _ VW), cut_has_volume; lra).
    rewrite V, EW, EC, EB. cbn [Nat.sub INR]. unfold ball_volume, cylinder_volume. pose proof PI_bound as PB. set (q := sin _) in *. replace (PI / (1 + 1) / (2 * PI) * (4 / 3 * PI * 100 ^ 3)) with (1 / 3 * PI * 100 ^ 3) by (field; lra).
    assert (PI * q <= 4 * (13 / 15)) by (cbn [INR] in *; nra). lra.
Qed.
