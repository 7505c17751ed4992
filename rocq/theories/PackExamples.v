(** Concrete packings: hard balls with a square well. *)
From Coq Require Import Reals ZArith List Bool Lia Lra Psatz.
From Verif Require Import GeomModel BoxModel BoxSpec RFloorModel PbcModel PbcSpec PbcTotalModel NGModel NGSpec GeomProofs BoxProofs RFloorProofs PbcProofs NGListProofs NGGeomProofs NGProofs.
From Verif Require Import PackModel PackSpec ParModel PackSumProofs NGPairProofs PackGridProofs PackCountProofs PackTotalProofs PackProofs PackInvProofs PackHistProofs PackContactProofs ParProofs PackFinalProofs.
Import ListNotations.
Open Scope R_scope.

(** Like src/core/shapes/SphereTraits.cpp:56-75 with diameter [D]; a well of depth 1 of the same range. *)
Definition ball (D : R) : interaction :=
  Inter true true true D D []
    (fun p1 _ _ p2 _ _ bc => Rltb (bc_distance2 bc p1 p2) (D * D))
    (fun p1 _ _ p2 _ _ bc => if Rleb (bc_distance2 bc p1 p2) (D * D) then -1 else 0)
    (fun p _ _ o w => Rltb (vdot (vsub p o) w) (D / 2)).
Definition ball_ov (D : R) : law bool := fun _ _ _ _ _ s => Rltb s (D * D).
Definition ball_en (D : R) : law R := fun _ _ _ _ _ s => if Rleb s (D * D) then -1 else 0.

Lemma vnorm_le d D : 0 < D -> vnorm2 d <= D * D -> vnorm d <= D.
Proof.
  intros HD H. unfold vnorm. rewrite <- (sqrt_square D) by lra. apply sqrt_le_1_alt. auto.
Qed.
Lemma ball_lawful D : 0 < D -> lawful (ball D) (ball_ov D) (ball_en D).
Proof.
  intros HD. split; [intros ? ? ? ? ? ? ?; reflexivity|]. split; [intros ? ? ? ? ? ?; reflexivity|].
  split; [intros ? ? ? ? ? ? ?; reflexivity|]. split; [intros ? ? ? ? ? ?; reflexivity|]. split; [exact HD|].
  split; [|split].
  - intros ? ? ? ? d H. apply (vnorm_le d D); auto. apply Rltb_true in H. lra.
  - intros ? ? ? ? d H. apply (vnorm_le d D); auto. unfold ball_en in H. destruct (Rleb (vnorm2 d) (D * D)) eqn:E; [apply Rleb_true in E; auto|exfalso; apply H; reflexivity].
  - discriminate.
Qed.

Definition upright (x y z : R) : shape := Shape (V3 x y z) (M33 1 0 0 0 1 0 0 0 1).

(** Grid exists unless one of the two tests on sizes forbids. *)
Lemma rebuild_grid pk pk' : rebuildNeighbourGrid pk = Some pk' ->
  (exists a, grid_cell_size (pk_box pk) (pk_range pk) (pk_size pk) * 4 <= box_height (pk_box pk) a) ->
  (forall a, grid_cell_size (pk_box pk) (pk_range pk) (pk_size pk) * CELL_SIZE_EPSILON <= box_height (pk_box pk) a) ->
  pk_ng pk' <> None.
Proof.
  unfold rebuildNeighbourGrid. intros E (a & Ha) Hm.
  destruct (Rltb (max3 _) _) eqn:E1.
  { apply Rltb_true in E1. exfalso. assert (box_height (pk_box pk) a <= max3 (box_height (pk_box pk))); [|lra].
    unfold max3. destruct a.
    - eapply Rle_trans; [apply Rmax_l|apply Rmax_l].
    - eapply Rle_trans; [apply Rmax_r|apply Rmax_l].
    - apply Rmax_r. }
  destruct (Rltb (min3 _) _) eqn:E2.
  { apply Rltb_true in E2. exfalso. unfold min3, Rmin in E2. pose proof (Hm AX). pose proof (Hm AY). pose proof (Hm AZ).
    destruct (Rle_dec (box_height (pk_box pk) AX) (box_height (pk_box pk) AY)); destruct (Rle_dec _ (box_height (pk_box pk) AZ)); lra. }
  destruct (match pk_ng pk with Some g => _ | None => _ end) as [g|]; [|discriminate]. cbn [obind] in E.
  destruct (add_all_centres _ _ g) as [g'|]; [|discriminate]. cbn [obind] in E. injection E as <-. discriminate.
Qed.
Lemma new_grid D threads shapes b pk : pk_new threads shapes b (ball D) = Some pk ->
  (exists a, grid_cell_size b D (length shapes) * 4 <= box_height b a) ->
  (forall a, grid_cell_size b D (length shapes) * CELL_SIZE_EPSILON <= box_height b a) -> pk_ng pk <> None.
Proof.
  unfold pk_new, pk_reset. intros E. destruct (Reqb _ _); [discriminate|]. destruct (negb (Rltb 0 _)); [discriminate|].
  destruct shapes as [|s l]; [discriminate|]. destruct (negb (areShapesWithinBox _ _)); [discriminate|].
  unfold setupForInteraction in E. cbv zeta in E.
  destruct (rebuildNeighbourGrid _) as [pk2|] eqn:Er; [|discriminate]. cbn [obind] in E.
  intros Ha Hm. assert (Hng : pk_ng pk2 <> None).
  { eapply rebuild_grid; [exact Er| |]; unfold pk_size, setup_parts; cbn [pk_parts pk_box pk_range in_rangeRadius ball]; rewrite !map_length; auto. }
  assert (Hc : pk_counting pk2 = false).
  { revert Er. unfold rebuildNeighbourGrid. destruct (Rltb _ _); [intros [= <-]; reflexivity|]. destruct (Rltb _ _); [intros [= <-]; reflexivity|].
    destruct (match pk_ng _ with Some g => _ | None => _ end); [|discriminate]. cbn [obind]. destruct (add_all_centres _ _ _); [|discriminate].
    cbn [obind]. intros [= <-]. reflexivity. }
  rewrite Hc in E. injection E as <-. auto.
Qed.
Lemma cell_size_range b D n : 0 < D -> valid_box b -> (0 < n)%nat -> box_volume b <= INR n * (125 * (D * D * D)) -> grid_cell_size b D n = D.
Proof.
  intros HD Hv Hn H. unfold grid_cell_size. assert (HI : 0 < INR n) by (apply lt_0_INR; lia). pose proof (volume_pos b Hv).
  set (x := box_volume b / INR n). assert (Hx : 0 < x) by (apply Rdiv_lt_0_compat; auto).
  assert (Hx2 : x <= 125 * (D * D * D)).
  { apply Rmult_le_reg_r with (INR n); auto. unfold x. unfold Rdiv. rewrite Rmult_assoc, Rinv_l by lra. lra. }
  pose proof (cbrt_cube x Hx) as E. pose proof (cbrt_pos x) as Hp. set (c := cbrt x) in *.
  destruct (Rltb D (c / 5)) eqn:F; auto. apply Rltb_true in F. exfalso.
  assert (5 * D < c) by lra. assert (25 * (D * D) < c * c) by nra. nra.
Qed.

(** Height along an axis from the faces. *)
Lemma height_ge b a h : valid_box b -> 0 <= h -> h * h * vnorm2 (box_face b a) <= box_volume b * box_volume b -> h <= box_height b a.
Proof.
  intros Hv Hh H. pose proof (height_area b a Hv) as E. pose proof (vnorm_pos _ (face_nonzero b a Hv)) as Hf.
  pose proof (volume_pos b Hv). rewrite <- vnorm_sqr in H.
  apply Rmult_le_reg_r with (vnorm (box_face b a)); auto. rewrite E.
  destruct (Rle_lt_dec (h * vnorm (box_face b a)) (box_volume b)) as [|C]; auto. exfalso. nra.
Qed.

Section Sided.
Variables (s0 s1 s2 : vec) (b : box).
Hypothesis Hb : box_of_sides s0 s1 s2 = Some b.
Lemma sided_valid : valid_box b.
Proof. apply constructed_valid. do 3 eexists; eauto. Qed.
Lemma sided_volume : box_volume b = Rabs (vdot s0 (vcross s1 s2)).
Proof. apply volume_triple, Hb. Qed.
Lemma sided_face a : box_face b a = match a with AX => vcross s1 s2 | AY => vcross s2 s0 | AZ => vcross s0 s1 end.
Proof. destruct (box_sides_given _ _ _ _ Hb) as (E0 & E1 & E2). unfold box_face. rewrite E0, E1, E2. reflexivity. Qed.
Lemma sided_in_box x y z : 0 <= x < 1 -> 0 <= y < 1 -> 0 <= z < 1 -> in_box b (lincomb s0 s1 s2 x y z).
Proof.
  intros Hx Hy Hz a. destruct (box_round_trip _ _ _ _ Hb) as (_ & Hr & Hl). rewrite <- Hl, Hr. destruct a; simpl; auto.
Qed.
Lemma sided_lattice i j k : lattice_vector b i j k = lincomb s0 s1 s2 (IZR i) (IZR j) (IZR k).
Proof. destruct (box_sides_given _ _ _ _ Hb) as (E0 & E1 & E2). unfold lattice_vector, lincomb. rewrite E0, E1, E2. reflexivity. Qed.
End Sided.

Lemma IZR_small i : -1 < IZR i < 1 -> i = 0%Z.
Proof. intros [H1 H2]. apply (lt_IZR (-1)) in H1. apply (lt_IZR _ 1) in H2. lia. Qed.

(** *** A box narrower than twice the range *)
Definition narrow_shapes : list shape := [upright 0 0 0; upright (3 / 4) 0 0].
Lemma narrow_box : exists b, box_of_sides (V3 1.5 0 0) (V3 0 10 0) (V3 0 0 10) = Some b.
Proof.
  apply (proj1 (box_constructible _ _ _)). intros x y z H. unfold lincomb, vzero in H. simpl in H. injection H; intros. lra.
Qed.
Lemma narrow_start b : box_of_sides (V3 1.5 0 0) (V3 0 10 0) (V3 0 0 10) = Some b -> legal_start b (ball 1) narrow_shapes.
Proof.
  intros Hb. split; [do 3 eexists; eauto|]. split; [discriminate|]. split; [|simpl; lia].
  intros s [<-|[<-|[]]]; simpl.
  - replace (V3 0 0 0) with (lincomb (V3 1.5 0 0) (V3 0 10 0) (V3 0 0 10) 0 0 0) by (apply vec_ext; simpl; lra). eapply sided_in_box; eauto; lra.
  - replace (V3 (3 / 4) 0 0) with (lincomb (V3 1.5 0 0) (V3 0 10 0) (V3 0 0 10) (1 / 2) 0 0) by (apply vec_ext; simpl; lra). eapply sided_in_box; eauto; lra.
Qed.
Lemma narrow_grid b threads pk : box_of_sides (V3 1.5 0 0) (V3 0 10 0) (V3 0 0 10) = Some b ->
  pk_new threads narrow_shapes b (ball 1) = Some pk -> pk_ng pk <> None.
Proof.
  intros Hb E. pose proof (sided_valid _ _ _ _ Hb) as Hv.
  assert (V : box_volume b = 150). { rewrite (sided_volume _ _ _ _ Hb). unfold vdot; simpl. rewrite Rabs_pos_eq; lra. }
  assert (C : grid_cell_size b 1 (length narrow_shapes) = 1).
  { apply cell_size_range; auto; try lra. - simpl; lia. - rewrite V. simpl. lra. }
  eapply new_grid; [exact E| |]; rewrite C.
  - exists AY. apply height_ge; auto; try lra. rewrite V, (sided_face _ _ _ _ Hb). unfold vnorm2, vdot; simpl. lra.
  - intros a. unfold CELL_SIZE_EPSILON. apply Rle_trans with 1.25; [lra|].
    apply height_ge; auto; try lra. rewrite V, (sided_face _ _ _ _ Hb). unfold vnorm2, vdot. destruct a; simpl; lra.
Qed.
Lemma narrow_contacts b : box_of_sides (V3 1.5 0 0) (V3 0 10 0) (V3 0 0 10) = Some b ->
  counts (overlapping (ball_ov 1) b (ball 1) narrow_shapes) 2.
Proof.
  intros Hb. exists [Contact 0 0 1 0 (lattice_vector b 0 0 0); Contact 0 0 1 0 (lattice_vector b (-1) 0 0)].
  split; [|split; [|reflexivity]].
  - constructor; [|constructor; [auto|constructor]]. intros [H|[]]. apply (f_equal ct_shift) in H. cbn [ct_shift] in H. rewrite !(sided_lattice _ _ _ _ Hb) in H.
    apply (f_equal vx) in H. simpl in H. lra.
  - assert (D : forall i j k, contact_value (ball_ov 1) (ball 1) narrow_shapes (Contact 0 0 1 0 (lattice_vector b i j k)) = true <->
       (IZR i * 1.5 + 3 / 4) * (IZR i * 1.5 + 3 / 4) + (IZR j * 10) * (IZR j * 10) + (IZR k * 10) * (IZR k * 10) < 1).
    { intros i j k. unfold contact_value, ball_ov. rewrite Rltb_true. unfold contact_displacement. cbn [ct_i ct_ci ct_j ct_cj ct_shift].
      rewrite (sided_lattice _ _ _ _ Hb). unfold vnorm2, vdot, site_position, lincomb. simpl. split; intros H.
      - match type of H with ?x < _ => match goal with |- ?y < _ => replace y with x by ring end end. lra.
      - match goal with |- ?x < _ => match type of H with ?y < _ => replace x with y by ring end end. lra. }
    intros c. split.
    + assert (L : forall i, (0 < 2)%nat /\ is_lattice_vector b (lattice_vector b i 0 0)) by (intros i; split; [lia|do 3 eexists; reflexivity]).
      intros [<-|[<-|[]]]; (split; [split; [simpl; lia|split; [simpl; unfold sites_no; simpl; lia|split; [simpl; unfold sites_no; simpl; lia|apply L]]]|]);
        apply D; simpl; lra.
    + intros ((H1 & H2 & H3 & i & j & k & H4) & H5). destruct c as [ci cci cj ccj sh]. cbn [ct_i ct_ci ct_j ct_cj ct_shift] in *.
      unfold sites_no in H2, H3. simpl in H1, H2, H3. assert (ci = 0%nat) by lia. assert (cj = 1%nat) by lia. assert (cci = 0%nat) by lia. assert (ccj = 0%nat) by lia.
      subst. apply D in H5. set (x := IZR i) in *. set (y := IZR j) in *. set (z := IZR k) in *.
      pose proof (Rle_0_sqr (x * 1.5 + 3 / 4)) as Q1. pose proof (Rle_0_sqr (y * 10)) as Q2. pose proof (Rle_0_sqr (z * 10)) as Q3. unfold Rsqr in Q1, Q2, Q3.
      assert (Y : y * y < 1) by lra. assert (Z : z * z < 1) by lra. assert (X : (x * 1.5 + 3 / 4) * (x * 1.5 + 3 / 4) < 1) by lra. clear Q1 Q2 Q3.
      assert (y = 0). { unfold y. rewrite (IZR_small j); auto. fold y. split; nra. }
      assert (z = 0). { unfold z. rewrite (IZR_small k); auto. fold z. split; nra. }
      clear H5. assert (Hx : -2 < x < 1) by (split; nra). unfold x, y, z in *.
      apply (eq_IZR j 0) in H. apply (eq_IZR k 0) in H0. subst. destruct Hx as [X1 X2]. apply (lt_IZR (-2)) in X1. apply (lt_IZR _ 1) in X2.
      assert (i = 0 \/ i = -1)%Z as [->| ->] by lia; simpl; auto.
Qed.
(** With the neighbour grid two overlaps are found, without it one. *)
Lemma narrow_differs : exists b pk m, reachable 1 narrow_shapes b (ball 1) [] pk /\ pk_ng pk <> None /\
  counts (overlapping (ball_ov 1) b (ball 1) narrow_shapes) 2 /\
  countTotalOverlaps pk (ball 1) false = Some 2%nat /\ countTotalOverlaps (set_ng pk None) (ball 1) false = Some m /\ (m <= 1)%nat.
Proof.
  destruct narrow_box as (b & Hb). pose proof (narrow_start b Hb) as Hs. assert (H01 : 0 < 1) by lra. pose proof (ball_lawful 1 H01) as HL.
  destruct (new_spec (ball 1) (ball_ov 1) (ball_en 1) HL 1 narrow_shapes b Hs) as (pk & E & Hi & Hsh & Hbx & Hw & Hc & Ht).
  pose proof (narrow_grid b 1 pk Hb E) as Hng.
  destruct (counts_contacts (ball 1) (ball_ov 1) (ball_en 1) HL pk Hi) as (n & w & En & Cn & Cw); [intros; contradiction|].
  rewrite Hbx, Hsh in Cn. pose proof (counts_unique _ _ _ Cn (narrow_contacts b Hb)) as ->.
  unfold countWallOverlaps, hasAnyWalls in Cw. rewrite Hw in Cw. injection Cw as <-.
  assert (L : length (pk_parts pk) = 2%nat) by (rewrite <- (map_length pt_shape); fold (shapes_of pk); rewrite Hsh; reflexivity).
  assert (K : pk_k pk = 0%nat) by apply (i_k _ _ Hi).
  assert (M : exists m, countTotalOverlaps (set_ng pk None) (ball 1) false = Some m /\ (m <= 1)%nat).
  { unfold countTotalOverlaps, countWallOverlaps, hasAnyWalls. cbn [pk_ng set_ng pk_wall pk_parts]. rewrite Hw. cbn [orb negb].
    destruct (pk_parts pk) as [|p [|q [|]]]; try discriminate. cbn [all_pairs_overlaps sum_exit].
    unfold pair_overlaps, particle_sites. cbn [pk_k set_ng]. rewrite K. cbn [Nat.eqb sum_exit obind then_exit].
    destruct (in_overlap _ _ _ _ _ _ _ _); simpl; eauto. }
  destruct M as (m & Em & Hm). exists b, pk, m. split; [split; [exact Hs|split; [exact I|exists pk; auto]]|].
  split; [exact Hng|]. split; [exact (narrow_contacts b Hb)|]. split; [exact En|]. split; [exact Em|exact Hm].
Qed.

(** *** Upscaling all sides of a skewed box brings two balls together *)
Lemma side_upscaled_scale o t : 0 < vnorm2 o -> 1 + UPSCALE_EPSILON <= t * t -> side_upscaled o (vscale t o) = true.
Proof.
  intros Ho Ht. unfold side_upscaled. rewrite andb_true_iff, !negb_true_iff, !Rltb_false.
  assert (Hd : vdot o (vscale t o) = t * vnorm2 o) by (unfold vnorm2, vdot; simpl; ring).
  assert (Hn : vnorm2 (vscale t o) = t * t * vnorm2 o) by (unfold vnorm2, vdot; simpl; ring).
  rewrite Hd, Hn. set (q := vnorm2 o) in *. unfold UPSCALE_EPSILON in *. assert (0 < t * t) by lra. assert (t <> 0) by (intros ->; lra).
  split.
  - replace (t * q * (t * q) / q / (t * t * q) - 1) with 0 by (field; split; lra). rewrite Rabs_R0. lra.
  - replace (t * q * (t * q) / q / q) with (t * t) by (field; lra). lra.
Qed.
Definition skew0 : vec := V3 10 0 0. Definition skew1 : vec := V3 (-8) 10 0. Definition skew2 : vec := V3 0 0 20.
Definition big0 : vec := vscale 1.01 skew0. Definition big1 : vec := vscale 2 skew1. Definition big2 : vec := vscale 1.01 skew2.
Definition skew_shapes : list shape := [upright 0 0 0; upright 3.2 1 0].
Definition scaling_diameter : R := 3.2.
Lemma skew_boxes : exists b b', box_of_sides skew0 skew1 skew2 = Some b /\ box_of_sides big0 big1 big2 = Some b'.
Proof.
  destruct (proj1 (box_constructible skew0 skew1 skew2)) as (b & Hb).
  { intros x y z H. unfold lincomb, vzero in H. simpl in H. injection H; intros. lra. }
  destruct (proj1 (box_constructible big0 big1 big2)) as (b' & Hb').
  { intros x y z H. unfold lincomb, vzero in H. simpl in H. injection H; intros. lra. }
  eauto.
Qed.
Section Skew.
Variables b b' : box.
Hypothesis (Hb : box_of_sides skew0 skew1 skew2 = Some b) (Hb' : box_of_sides big0 big1 big2 = Some b').
Lemma skew_start : legal_start b (ball scaling_diameter) skew_shapes.
Proof.
  split; [do 3 eexists; exact Hb|]. split; [discriminate|]. split; [|simpl; lia].
  intros s [<-|[<-|[]]]; simpl.
  - replace (V3 0 0 0) with (lincomb skew0 skew1 skew2 0 0 0) by (apply vec_ext; simpl; lra). eapply sided_in_box; eauto; lra.
  - replace (V3 3.2 1 0) with (lincomb skew0 skew1 skew2 (4 / 10) (1 / 10) 0) by (apply vec_ext; simpl; lra). eapply sided_in_box; eauto; lra.
Qed.
Lemma skew_volume : box_volume b = 2000.
Proof. rewrite (sided_volume _ _ _ _ Hb). unfold vdot; simpl. rewrite Rabs_pos_eq; lra. Qed.
Lemma big_volume : box_volume b' = 4080.4.
Proof. rewrite (sided_volume _ _ _ _ Hb'). unfold vdot; simpl. rewrite Rabs_pos_eq; lra. Qed.
Lemma skew_cell : grid_cell_size b scaling_diameter 2 = scaling_diameter.
Proof. apply cell_size_range; [unfold scaling_diameter; lra|apply (sided_valid _ _ _ _ Hb)|lia|rewrite skew_volume; unfold scaling_diameter; simpl; lra]. Qed.
Lemma big_cell : grid_cell_size b' scaling_diameter 2 = scaling_diameter.
Proof. apply cell_size_range; [unfold scaling_diameter; lra|apply (sided_valid _ _ _ _ Hb')|lia|rewrite big_volume; unfold scaling_diameter; simpl; lra]. Qed.
Lemma skew_heights a : 3.5 <= box_height b a.
Proof.
  apply height_ge; [apply (sided_valid _ _ _ _ Hb)|lra|]. rewrite skew_volume, (sided_face _ _ _ _ Hb). unfold vnorm2, vdot. destruct a; simpl; lra.
Qed.
Lemma skew_height_z : 12.8 <= box_height b AZ.
Proof.
  apply height_ge; [apply (sided_valid _ _ _ _ Hb)|lra|]. rewrite skew_volume, (sided_face _ _ _ _ Hb). unfold vnorm2, vdot. simpl; lra.
Qed.
Lemma big_heights a : 3.5 <= box_height b' a.
Proof.
  apply height_ge; [apply (sided_valid _ _ _ _ Hb')|lra|]. rewrite big_volume, (sided_face _ _ _ _ Hb'). unfold vnorm2, vdot. destruct a; simpl; lra.
Qed.
Lemma big_height_z : 12.8 <= box_height b' AZ.
Proof.
  apply height_ge; [apply (sided_valid _ _ _ _ Hb')|lra|]. rewrite big_volume, (sided_face _ _ _ _ Hb'). unfold vnorm2, vdot. simpl; lra.
Qed.
Lemma skew_upscaled : isBoxUpscaled b b' = true.
Proof.
  destruct (box_sides_given _ _ _ _ Hb) as (E0 & E1 & E2). destruct (box_sides_given _ _ _ _ Hb') as (F0 & F1 & F2).
  unfold isBoxUpscaled. rewrite E0, E1, E2, F0, F1, F2. unfold big0, big1, big2.
  rewrite !andb_true_iff. repeat split; apply side_upscaled_scale; unfold UPSCALE_EPSILON, vnorm2, vdot; simpl; lra.
Qed.
Lemma skew_free : counts (overlapping (ball_ov scaling_diameter) b (ball scaling_diameter) skew_shapes) 0.
Proof.
  exists []. split; [constructor|]. split; [|reflexivity]. intros c. split; [intros []|].
  intros ((H1 & H2 & H3 & i & j & k & H4) & H5). exfalso. destruct c as [ci cci cj ccj sh]. cbn [ct_i ct_ci ct_j ct_cj ct_shift] in *.
  unfold sites_no in H2, H3. simpl in H1, H2, H3. assert (ci = 0%nat) by lia. assert (cj = 1%nat) by lia. assert (cci = 0%nat) by lia. assert (ccj = 0%nat) by lia.
  subst. unfold contact_value, ball_ov in H5. apply Rltb_true in H5. unfold contact_displacement in H5. cbn [ct_i ct_ci ct_j ct_cj ct_shift] in H5.
  rewrite (sided_lattice _ _ _ _ Hb) in H5. unfold vnorm2, vdot, site_position, lincomb, scaling_diameter in H5. simpl in H5.
  set (x := IZR i) in *. set (y := IZR j) in *. set (z := IZR k) in *.
  match type of H5 with ?t < _ => replace t with
    ((3.2 + 10 * x - 8 * y) * (3.2 + 10 * x - 8 * y) + (1 + 10 * y) * (1 + 10 * y) + (20 * z) * (20 * z)) in H5 by ring end.
  pose proof (Rle_0_sqr (3.2 + 10 * x - 8 * y)) as Q1. pose proof (Rle_0_sqr (1 + 10 * y)) as Q2. pose proof (Rle_0_sqr (20 * z)) as Q3.
  unfold Rsqr in Q1, Q2, Q3.
  assert (Y : (1 + 10 * y) * (1 + 10 * y) < 10.24) by lra.
  assert (y = 0). { unfold y. rewrite (IZR_small j); auto. fold y. split; nra. }
  rewrite H in *. assert (X : (3.2 + 10 * x) * (3.2 + 10 * x) < 9.24) by lra.
  assert (X0 : -1 < x < 1) by (split; nra). apply IZR_small in X0. unfold x in X. rewrite X0 in X. simpl in X. lra.
Qed.
Lemma big_overlap pk1 : pk_box pk1 = b' -> shapes_of pk1 =
  map (fun s => Shape (relativeToAbsolute b' (absoluteToRelative b (sh_pos s))) (sh_rot s)) skew_shapes ->
  overlapping (ball_ov scaling_diameter) b' (ball scaling_diameter) (shapes_of pk1) (Contact 0 0 1 0 (lattice_vector b' 0 0 0)).
Proof.
  intros Eb Es. destruct (box_round_trip _ _ _ _ Hb) as (_ & Hr & Hl). destruct (box_round_trip _ _ _ _ Hb') as (_ & Hr' & Hl').
  assert (P0 : relativeToAbsolute b' (absoluteToRelative b (V3 0 0 0)) = V3 0 0 0).
  { replace (V3 0 0 0) with (lincomb skew0 skew1 skew2 0 0 0) by (apply vec_ext; simpl; lra). rewrite <- Hl, Hr, Hl'. apply vec_ext; simpl; lra. }
  assert (P1 : relativeToAbsolute b' (absoluteToRelative b (V3 3.2 1 0)) = V3 2.44 2 0).
  { replace (V3 3.2 1 0) with (lincomb skew0 skew1 skew2 (4 / 10) (1 / 10) 0) by (apply vec_ext; simpl; lra). rewrite <- Hl, Hr, Hl'. apply vec_ext; simpl; lra. }
  rewrite Es. simpl map. rewrite P0, P1. split.
  - split; [simpl; lia|]. split; [unfold sites_no; simpl; lia|]. split; [unfold sites_no; simpl; lia|]. do 3 eexists; reflexivity.
  - unfold contact_value, ball_ov. apply Rltb_true. unfold contact_displacement. cbn [ct_i ct_ci ct_j ct_cj ct_shift].
    rewrite (sided_lattice _ _ _ _ Hb'). unfold vnorm2, vdot, site_position, lincomb, scaling_diameter. simpl. lra.
Qed.
End Skew.
Lemma scaling_grid newBox D pk pk1 e : 0 < D -> tryScaling newBox (ball D) pk = Some (pk1, e) -> pk_range pk = D -> pk_size pk = 2%nat ->
  grid_cell_size newBox D 2 = D -> 4 * D <= box_height newBox AZ -> (forall a, D * CELL_SIZE_EPSILON <= box_height newBox a) -> pk_ng pk1 <> None.
Proof.
  intros HD E Hr Hs Hc Hz Ha. unfold tryScaling in E. destruct (Reqb _ _); [discriminate|]. destruct (negb _); [discriminate|].
  destruct (getTotalEnergy pk _); [|discriminate]. cbn [obind] in E.
  destruct (rebuildNeighbourGrid _) as [pk2|] eqn:Er; [|discriminate]. cbn [obind in_hard ball negb in_convex andb] in E.
  assert (Hng : pk_ng pk2 <> None).
  { assert (L : forall pl, pk_size (Packing newBox (recalculate_all newBox (map pl (pk_parts pk))) (pk_temps pk) (pk_k pk) (pk_range pk) (pk_tempNg pk) (pk_ng pk)
                 (pk_counting pk) (pk_overlaps pk) (pk_box pk) (map pt_shape (pk_parts pk)) (pk_overlaps pk) (pk_wall pk)) = 2%nat).
    { intros pl. unfold pk_size, recalculate_all in *. cbn [pk_parts]. rewrite !map_length. auto. }
    eapply rebuild_grid; [exact Er| |]; cbn [pk_box pk_range]; rewrite L, Hr, Hc; [exists AZ; lra|exact Ha]. }
  destruct (pk_counting pk2).
  - destruct (countTotalOverlaps pk2 _ _); [|discriminate]. cbn [obind] in E.
    destruct (_ <? 0)%Z; [injection E as <- _; exact Hng|]. destruct (0 <? _)%Z; [injection E as <- _; exact Hng|].
    destruct (getTotalEnergy _ _); [|discriminate]. injection E as <- _. exact Hng.
  - destruct (isBoxUpscaled _ _).
    + destruct (getTotalEnergy _ _); [|discriminate]. injection E as <- _. exact Hng.
    + destruct (countTotalOverlaps pk2 _ _); [|discriminate]. cbn [obind] in E. destruct (Nat.ltb _ _); [injection E as <- _; exact Hng|].
      destruct (getTotalEnergy _ _); [|discriminate]. injection E as <- _. exact Hng.
Qed.
(** Scaling which ends with an overlap is reported as possible. *)
Lemma upscaling_overlaps : exists b b' pk pk1 e n, reachable 1 skew_shapes b (ball scaling_diameter) [] pk /\
  tryScaling b' (ball scaling_diameter) pk = Some (pk1, Fin e) /\
  countTotalOverlaps pk (ball scaling_diameter) false = Some 0%nat /\
  countTotalOverlaps pk1 (ball scaling_diameter) false = Some n /\ (0 < n)%nat.
Proof.
  destruct skew_boxes as (b & b' & Hb & Hb'). pose proof (skew_start b Hb) as Hs.
  assert (HD : 0 < scaling_diameter) by (unfold scaling_diameter; lra). pose proof (ball_lawful _ HD) as HL.
  destruct (new_spec _ _ _ HL 1 skew_shapes b Hs) as (pk & E & Hi & Hsh & Hbx & Hw & Hc & Ht).
  assert (Hb'c : constructed b') by (do 3 eexists; eauto).
  destruct (scaling_theorem _ _ _ HL pk b' Hi Hb'c) as (pk1 & e & n0 & n1 & e0 & e1 & E1 & B1 & S1 & W1 & C1 & _ & N0 & N1 & _ & _ & _ & Hshort).
  rewrite Hbx in *. rewrite (Hshort Hc eq_refl (skew_upscaled b b' Hb Hb')) in E1.
  assert (Hn : pk_ng pk <> None).
  { eapply new_grid; [exact E| |]; cbn [length skew_shapes]; rewrite (skew_cell b Hb).
    - exists AZ. pose proof (skew_height_z b Hb). unfold scaling_diameter. lra.
    - intros a. pose proof (skew_heights b Hb a). unfold scaling_diameter, CELL_SIZE_EPSILON. lra. }
  assert (Hn1 : pk_ng pk1 <> None).
  { eapply (scaling_grid b' scaling_diameter pk pk1); [exact HD|exact E1|apply (i_range _ _ Hi)| | | |].
    - unfold pk_size. rewrite <- (map_length pt_shape). fold (shapes_of pk). rewrite Hsh. reflexivity.
    - apply big_cell; auto.
    - pose proof (big_height_z b' Hb'). unfold scaling_diameter. lra.
    - intros a. pose proof (big_heights b' Hb' a). unfold scaling_diameter, CELL_SIZE_EPSILON. lra. }
  assert (Hi1 : inv (ball scaling_diameter) pk1).
  { destruct (scaling_spec _ _ _ HL b' pk Hi (proj1 (constructed_valid b') Hb'c)) as (pk1' & e' & E1' & Hi1 & _). rewrite E1 in E1'.
    assert (pk1 = pk1') as -> by congruence. exact Hi1. }
  exists b, b', pk, pk1, (e1 - e0), n1. split; [split; [exact Hs|split; [exact I|exists pk; auto]]|]. split; [exact E1|].
  assert (n0 = 0%nat).
  { destruct (counts_contacts _ _ _ HL pk Hi) as (n & w & En & Cn & Cw); [intros; contradiction|]. rewrite Hbx, Hsh in Cn.
    pose proof (counts_unique _ _ _ Cn (skew_free b Hb)) as ->.
    unfold countWallOverlaps, hasAnyWalls in Cw. rewrite Hw in Cw. injection Cw as <-. rewrite N0 in En. injection En; auto. }
  subst n0. split; [exact N0|]. split; [exact N1|].
  destruct (counts_contacts _ _ _ HL pk1 Hi1) as (n & w & En & Cn & Cw); [intros; contradiction|].
  rewrite B1 in Cn. pose proof (big_overlap b b' Hb Hb' pk1 B1) as Ho. rewrite S1, Hsh in Ho. specialize (Ho eq_refl).
  destruct Cn as (l & _ & Hl & <-). rewrite S1, Hsh in Hl. apply Hl in Ho. rewrite N1 in En. injection En as ->.
  destruct l; [destruct Ho|simpl; lia].
Qed.

Lemma balls_history : lawful (ball 1) (ball_ov 1) (ball_en 1) /\
  exists b, legal_start b (ball 1) narrow_shapes /\
    exists pk, reachable 2 narrow_shapes b (ball 1)
      [DoTranslation 0 1 (V3 0 3 0) None true; DoCounting true; DoRotation 1 0 (M33 0 (-1) 0 1 0 0 0 0 1) true;
       DoMove 1 0 (V3 0 0 5) (M33 1 0 0 0 0 (-1) 0 1 0) None false; DoScaling b true; DoCounting false; DoWall AX true;
       DoRenormalize 1 true; DoRenormalize 0 false] pk.
Proof.
  assert (H01 : 0 < 1) by lra. split; [exact (ball_lawful 1 H01)|]. destruct narrow_box as (b & Hb). exists b.
  pose proof (narrow_start b Hb) as Hs. split; [exact Hs|].
  apply (reachable_exists (ball 1) (ball_ov 1) (ball_en 1) (ball_lawful 1 H01) 2 narrow_shapes b); [exact Hs|].
  assert (constructed b) by (do 3 eexists; eauto). simpl. repeat split; try lia; auto.
Qed.
