(** Wall overlaps are pairs of interaction centres and walls through which they stick out. *)
From Coq Require Import Reals ZArith List Bool Lia Lra.
From Verif Require Import GeomModel GeomProofs BoxModel BoxSpec BoxProofs PbcModel PackModel PackSpec PackSumProofs PackGridProofs PackProofs RotSpec WallSpec WallHistProofs.
Import ListNotations.
Open Scope R_scope.

(** *** Geometry of walls *)
Lemma face_cross b a : vcross (box_side b (next_axis a)) (box_side b (next_axis (next_axis a))) = box_face b a.
Proof. destruct a; reflexivity. Qed.
Lemma wall_vector_unit b a : valid_box b -> vnorm (wall_vector b a) = 1.
Proof.
  intros V. unfold wall_vector. cbv zeta. rewrite face_cross. pose proof (vnorm_pos _ (face_nonzero b a V)) as P. set (f := box_face b a) in *.
  unfold vnorm at 1. replace (vnorm2 (vscale (/ vnorm f) f)) with (/ vnorm f * / vnorm f * vnorm2 f) by (unfold vnorm2, vdot; cbn; ring).
  rewrite <- vnorm_sqr. replace (/ vnorm f * / vnorm f * (vnorm f * vnorm f)) with 1 by (field; lra). apply sqrt_1.
Qed.
Lemma right_handed_det b : right_handed b <-> 0 < mdet (dims b).
Proof. unfold right_handed. rewrite triple_det. tauto. Qed.
Lemma wall_coordinate b a q : valid_box b -> right_handed b -> vdot (wall_vector b a) q = vget (absoluteToRelative b q) a * box_height b a.
Proof.
  intros V H. apply right_handed_det in H. unfold wall_vector. cbv zeta. rewrite face_cross. pose proof (vnorm_pos _ (face_nonzero b a V)) as P.
  unfold box_height. rewrite volume_det, Rabs_pos_eq by lra.
  replace (vget (absoluteToRelative b q) a * (mdet (dims b) / vnorm (box_face b a))) with (vget (absoluteToRelative b q) a * mdet (dims b) / vnorm (box_face b a)) by (unfold Rdiv; ring).
  rewrite rel_face by auto. unfold vdot, Rdiv; cbn; ring.
Qed.
Lemma sum3_corner b : sum3 b = relativeToAbsolute b (V3 1 1 1).
Proof. unfold sum3. rewrite !side_col. unfold relativeToAbsolute. apply vec_ext; cbn; ring. Qed.
Lemma sum3_height b a : valid_box b -> right_handed b -> vdot (wall_vector b a) (sum3 b) = box_height b a.
Proof. intros V H. rewrite wall_coordinate, sum3_corner, rel_abs by auto. destruct a; cbn; ring. Qed.
Lemma vdot_sub u v w : vdot u (vsub v w) = vdot u v - vdot u w.
Proof. unfold vdot; cbn; ring. Qed.
Lemma vdot_add u v w : vdot u (vadd v w) = vdot u v + vdot u w.
Proof. unfold vdot; cbn; ring. Qed.
Lemma vdot_neg u v : vdot (vneg u) v = - vdot u v.
Proof. unfold vdot; cbn; ring. Qed.

Section Count.
Variables (inter : interaction) (B : body).
Hypothesis (Solid : solid_walls inter B) (Bounded : bounded inter B).

Definition wall_origin (b : box) (far : bool) : vec := if far then sum3 b else vzero.
Definition wall_normal (b : box) (a : axis) (far : bool) : vec := if far then vneg (wall_vector b a) else wall_vector b a.
Definition hit (b : box) (s : shape) (a : axis) (far : bool) (c : nat) : bool :=
  in_wall inter (site_position inter s c) (sh_rot s) c (wall_origin b far) (wall_normal b a far).

Lemma wall_normal_unit b a far : valid_box b -> vnorm (wall_normal b a far) = 1.
Proof.
  intros V. pose proof (wall_vector_unit b a V) as U. destruct far; cbn [wall_normal]; auto. rewrite <- U. unfold vnorm. f_equal. unfold vnorm2, vdot; cbn; ring.
Qed.
Lemma behind b a far q : valid_box b -> right_handed b -> (vdot (wall_normal b a far) (vsub q (wall_origin b far)) < 0 <-> outside b a far q).
Proof.
  intros V H. pose proof (height_pos b a V) as P. unfold outside. cbv zeta. destruct far; cbn [wall_normal wall_origin].
  - rewrite vdot_neg, vdot_sub, wall_coordinate, sum3_height by auto. split; intros; nra.
  - rewrite vdot_sub, wall_coordinate by auto. replace (vdot (wall_vector b a) vzero) with 0 by (unfold vdot; cbn; ring). split; intros; nra.
Qed.
Lemma hit_outside b s a far c : valid_box b -> right_handed b -> (c < sites_no inter)%nat ->
  (hit b s a far c = true <-> exists x, B c (sh_rot s) x /\ outside b a far (vadd (site_position inter s c) x)).
Proof.
  intros V H C. unfold hit. etransitivity; [apply (Solid (site_position inter s c) (sh_rot s) c (wall_origin b far) (wall_normal b a far) C (wall_normal_unit b a far V))|].
  split; intros (x&X&O); exists x; (split; [exact X|]); apply (behind b a far); auto.
Qed.
(** A particle behind a wall passes the preliminary test. *)
Lemma hit_near b s a far c : valid_box b -> right_handed b -> rotation (sh_rot s) -> (c < sites_no inter)%nat -> hit b s a far c = true ->
  vdot (wall_normal b a far) (vsub (sh_pos s) (wall_origin b far)) < in_totalRange inter / 2.
Proof.
  intros V H Rot C E. unfold hit in E. apply Solid in E; [|exact C|apply wall_normal_unit, V]. destruct E as (x&X&O).
  pose proof (Bounded (sh_rot s) c x Rot C X) as N. pose proof (wall_normal_unit b a far V) as U. set (w := wall_normal b a far) in *. set (y := vadd (mvec (sh_rot s) (nth c (site_vectors inter) vzero)) x) in *.
  pose proof (cauchy_schwarz w y) as CS. rewrite U, Rmult_1_l in CS.
  replace (vadd (site_position inter s c) x) with (vadd (sh_pos s) y) in O by (unfold site_position, y; apply vec_ext; cbn; ring).
  rewrite vdot_sub, vdot_add in O. rewrite vdot_sub. pose proof (Rle_abs (- vdot w y)) as A. rewrite Rabs_Ropp in A. lra.
Qed.

Lemma esum_filter {A} (f : A -> bool) l : esum false (fun x => b2n (f x)) l = length (filter f l).
Proof. induction l as [|x l IH]; cbn; auto. rewrite IH. destruct (f x); reflexivity. Qed.
Lemma enumerate_nth {A} (d : A) l : enumerate l = map (fun i => (i, nth i l d)) (seq 0 (length l)).
Proof.
  unfold enumerate. replace l with (map (fun i => nth i l d) (seq 0 (length l))) at 2.
  - induction (seq 0 (length l)) as [|i s IH]; cbn; f_equal; auto.
  - apply (nth_ext _ _ d d); [rewrite map_length, seq_length; reflexivity|]. rewrite map_length, seq_length. intros n N.
    rewrite (nth_indep _ d (nth 0 l d)) by (rewrite map_length, seq_length; lia). rewrite (map_nth (fun i => nth i l d)), seq_nth by lia. reflexivity.
Qed.
Lemma sites_sum walls pk ee p o w : kept inter walls pk -> centred inter p ->
  wall_sites_overlaps pk inter ee p o w = Some (esum ee (fun c => b2n (in_wall inter (site_position inter (pt_shape p) c) (pt_rot p) c o w)) (seq 0 (sites_no inter))).
Proof.
  intros [_ K _ _] C. unfold wall_sites_overlaps, sites_no, site_vectors, site_position. rewrite K. unfold site_vectors. unfold centred in C. destruct (in_centres inter) as [|x cs] eqn:E.
  - cbn. f_equal. change (sh_pos (pt_shape p)) with (pt_pos p). replace (vadd (pt_pos p) _) with (pt_pos p) by (apply vec_ext; cbn; ring). destruct (in_wall _ _ _ _ _ _); destruct ee; reflexivity.
  - change (Nat.eqb (length (x :: cs)) 0) with false. cbv iota.
    rewrite (sum_exit_total _ _ (fun c : nat * vec => b2n (in_wall inter (vadd (pt_pos p) (snd c)) (pt_rot p) (fst c) o w))) by reflexivity. f_equal.
    rewrite (enumerate_nth vzero), esum_map, C, map_length. apply esum_ext. intros c I. apply in_seq in I. cbn [fst snd].
    rewrite (nth_indep _ vzero (mvec (pt_rot p) vzero)) by (rewrite map_length; lia). rewrite map_nth. reflexivity.
Qed.
Lemma axis_hits walls pk p a : kept inter walls pk -> right_handed (pk_box pk) -> centred inter p -> rotation (pt_rot p) -> (walls a = true -> in_totalRange inter <= box_height (pk_box pk) a) ->
  wax pk inter false p a = esum false (fun far => esum false (fun c => b2n (walls a && hit (pk_box pk) (pt_shape p) a far c)) (seq 0 (sites_no inter))) [false; true].
Proof.
  intros K H C Rot Wide. pose proof (k_box _ _ _ K) as V. unfold wax, wall_axis_overlaps. rewrite (k_wall _ _ _ K a). destruct (walls a); cbn [negb andb].
  2: { cbn [esum andb]. rewrite (proj2 (esum_zero false (fun _ => b2n false) (seq 0 (sites_no inter)))) by reflexivity. reflexivity. }
  specialize (Wide eq_refl). cbv zeta. pose proof (sum3_height (pk_box pk) a V H) as SH. rewrite !(sites_sum walls) by auto.
  assert (Z : forall far, ~ vdot (wall_normal (pk_box pk) a far) (vsub (pt_pos p) (wall_origin (pk_box pk) far)) < in_totalRange inter / 2 ->
    esum false (fun c => b2n (hit (pk_box pk) (pt_shape p) a far c)) (seq 0 (sites_no inter)) = 0%nat).
  { intros far N. apply esum_zero. intros c I. apply in_seq in I. destruct (hit (pk_box pk) (pt_shape p) a far c) eqn:E; [|reflexivity]. exfalso. apply N.
    apply (hit_near (pk_box pk) (pt_shape p) a far c V H Rot); [lia|exact E]. }
  cbn [esum andb].
  assert (E0 : vdot (wall_normal (pk_box pk) a false) (vsub (pt_pos p) (wall_origin (pk_box pk) false)) = vdot (pt_pos p) (wall_vector (pk_box pk) a)) by (unfold vdot; cbn; ring).
  assert (E1 : vdot (wall_normal (pk_box pk) a true) (vsub (pt_pos p) (wall_origin (pk_box pk) true)) = vdot (vsub (sum3 (pk_box pk)) (pt_pos p)) (wall_vector (pk_box pk) a)) by (unfold vdot; cbn; ring).
  assert (S : vdot (pt_pos p) (wall_vector (pk_box pk) a) + vdot (vsub (sum3 (pk_box pk)) (pt_pos p)) (wall_vector (pk_box pk) a) = box_height (pk_box pk) a) by (rewrite <- SH; unfold vdot; cbn; ring).
  destruct (Rltb (vdot (pt_pos p) (wall_vector (pk_box pk) a)) _) eqn:T0.
  - apply Rltb_true in T0. rewrite (Z true) by lra. rewrite !Nat.add_0_r. reflexivity.
  - apply Rltb_false in T0. rewrite (Z false) by lra. destruct (Rltb _ _) eqn:T1.
    + rewrite Nat.add_0_r. reflexivity.
    + apply Rltb_false in T1. rewrite (Z true) by lra. reflexivity.
Qed.

(** *** Counting *)
Definition all_site_walls (n : nat) : list site_wall :=
  flat_map (fun i => flat_map (fun a => flat_map (fun far => map (fun c => SiteWall i c a far) (seq 0 (sites_no inter))) [false; true]) [AX; AY; AZ]) (seq 0 n).
Lemma in_all n s : In s (all_site_walls n) <-> (sw_i s < n)%nat /\ (sw_c s < sites_no inter)%nat.
Proof.
  unfold all_site_walls. rewrite in_flat_map. split.
  - intros (i&I&H). apply in_flat_map in H. destruct H as (a&_&H). apply in_flat_map in H. destruct H as (f&_&H). apply in_map_iff in H. destruct H as (c&<-&C). apply in_seq in I. apply in_seq in C. cbn. lia.
  - destruct s as [i c a f]. cbn [sw_i sw_c]. intros [I C]. exists i. split; [apply in_seq; lia|]. apply in_flat_map. exists a. split; [destruct a; cbn; auto|].
    apply in_flat_map. exists f. split; [destruct f; cbn; auto|]. apply in_map_iff. exists c. split; auto. apply in_seq. lia.
Qed.
Lemma NoDup_flat {A C} (f : A -> list C) l : NoDup l -> (forall x, NoDup (f x)) -> (forall x y z, In z (f x) -> In z (f y) -> x = y) -> NoDup (flat_map f l).
Proof.
  induction l as [|x l IH]; cbn; intros N F D; [constructor|]. inversion N; subst.
  assert (G : forall l1 l2 : list C, NoDup l1 -> NoDup l2 -> (forall z, In z l1 -> ~ In z l2) -> NoDup (l1 ++ l2)).
  { induction l1 as [|y l1 IH1]; cbn; intros l2 N1 N2 Disj; auto. inversion N1; subst. constructor.
    - rewrite in_app_iff. intros [?|?]; [auto|]. apply (Disj y); auto.
    - apply IH1; auto. }
  apply G; auto. intros z Hz Hz'. apply in_flat_map in Hz'. destruct Hz' as (y&Y&Z). rewrite (D x y z Hz Z) in *. auto.
Qed.
Lemma all_nodup n : NoDup (all_site_walls n).
Proof.
  unfold all_site_walls. apply NoDup_flat.
  - apply seq_NoDup.
  - intros i. apply NoDup_flat; [repeat constructor; cbn; intuition congruence| |].
    + intros a. apply NoDup_flat; [repeat constructor; cbn; intuition congruence| |].
      * intros f. apply FinFun.Injective_map_NoDup; [|apply seq_NoDup]. intros x y E. congruence.
      * intros f g z H H'. apply in_map_iff in H. apply in_map_iff in H'. destruct H as (c&<-&_), H' as (c'&E&_). congruence.
    + intros a a' z H H'. apply in_flat_map in H. apply in_flat_map in H'. destruct H as (f&_&H), H' as (f'&_&H'). apply in_map_iff in H. apply in_map_iff in H'. destruct H as (c&<-&_), H' as (c'&E&_). congruence.
  - intros i i' z H H'. apply in_flat_map in H. apply in_flat_map in H'. destruct H as (a&_&H), H' as (a'&_&H'). apply in_flat_map in H. apply in_flat_map in H'. destruct H as (f&_&H), H' as (f'&_&H').
    apply in_map_iff in H. apply in_map_iff in H'. destruct H as (c&<-&_), H' as (c'&E&_). congruence.
Qed.
Definition hits (walls : axis -> bool) (b : box) (shapes : list shape) (s : site_wall) : bool :=
  walls (sw_axis s) && hit b (nth (sw_i s) shapes no_shape) (sw_axis s) (sw_far s) (sw_c s).
Lemma esum_nth {A} (d : A) (v : A -> nat) l : esum false v l = esum false (fun i => v (nth i l d)) (seq 0 (length l)).
Proof.
  transitivity (esum false v (map (fun i => nth i l d) (seq 0 (length l)))); [|apply esum_map]. apply (f_equal (esum false v)).
  apply (nth_ext _ _ d d); [rewrite map_length, seq_length; reflexivity|]. intros n N.
  rewrite (nth_indep (map _ _) d (nth 0 l d)) by (rewrite map_length, seq_length; lia). rewrite (map_nth (fun i => nth i l d)), seq_nth by lia. reflexivity.
Qed.
Lemma walls_hits walls pk : kept inter walls pk -> right_handed (pk_box pk) -> Forall (fun s => rotation (sh_rot s)) (shapes_of pk) ->
  (forall a, walls a = true -> in_totalRange inter <= box_height (pk_box pk) a) ->
  PackProofs.walls pk inter false = length (filter (hits walls (pk_box pk) (shapes_of pk)) (all_site_walls (length (shapes_of pk)))).
Proof.
  intros K H Rot Wide. rewrite <- esum_filter. unfold all_site_walls. rewrite <- esum_flat. unfold PackProofs.walls.
  rewrite (esum_nth (Particle no_shape [] [])). replace (length (shapes_of pk)) with (length (pk_parts pk)) by (unfold shapes_of; rewrite map_length; reflexivity). apply esum_ext. intros i I. apply in_seq in I.
  assert (In (nth i (pk_parts pk) (Particle no_shape [] [])) (pk_parts pk)) as P by (apply nth_In; lia).
  assert (E : nth i (shapes_of pk) no_shape = pt_shape (nth i (pk_parts pk) (Particle no_shape [] []))) by (unfold shapes_of; change no_shape with (pt_shape (Particle no_shape [] [])) at 1; apply map_nth).
  set (p := nth i (pk_parts pk) (Particle no_shape [] [])) in *.
  rewrite <- esum_flat. unfold wallv. apply esum_ext. intros a _. rewrite <- esum_flat. rewrite (axis_hits walls).
  - apply esum_ext. intros far _. rewrite esum_map. apply esum_ext. intros c _. unfold hits. cbn [sw_i sw_axis sw_far sw_c]. rewrite E. reflexivity.
  - exact K.
  - exact H.
  - destruct K as [_ _ K _]. rewrite Forall_forall in K. auto.
  - rewrite Forall_forall in Rot. apply (Rot (pt_shape p)). apply in_map, P.
  - apply Wide.
Qed.
Lemma hits_stick walls b shapes s : valid_box b -> right_handed b -> (In s (filter (hits walls b shapes) (all_site_walls (length shapes))) <-> sticks_out walls b inter B shapes s).
Proof.
  intros V H. rewrite filter_In, in_all. unfold hits, sticks_out. rewrite andb_true_iff. split.
  - intros ((I&C)&W&E). apply hit_outside in E; auto.
  - intros (I&C&W&E). apply hit_outside in E; auto.
Qed.
Theorem walls_counted threads shapes b os pk : reachable threads shapes b inter os pk -> right_handed (pk_box pk) ->
  Forall (fun s => rotation (sh_rot s)) (shapes_of pk) -> (forall a, wall_after os a = true -> in_totalRange inter <= box_height (pk_box pk) a) ->
  exists n, countWallOverlaps pk inter false = Some n /\ counts (sticks_out (wall_after os) (pk_box pk) inter B (shapes_of pk)) n.
Proof.
  intros Rch H Rot Wide. pose proof (reachable_kept inter threads shapes b os pk Rch) as K. exists (PackProofs.walls pk inter false). split; [apply walls_total|].
  rewrite (walls_hits (wall_after os)) by auto. exists (filter (hits (wall_after os) (pk_box pk) (shapes_of pk)) (all_site_walls (length (shapes_of pk)))).
  split; [apply NoDup_filter, all_nodup|]. split; [|reflexivity]. intros s. apply hits_stick; [apply K|exact H].
Qed.
Theorem walls_exit threads shapes b os pk : reachable threads shapes b inter os pk -> right_handed (pk_box pk) ->
  Forall (fun s => rotation (sh_rot s)) (shapes_of pk) -> (forall a, wall_after os a = true -> in_totalRange inter <= box_height (pk_box pk) a) ->
  exists n, countWallOverlaps pk inter true = Some n /\ ((0 < n)%nat <-> exists s, sticks_out (wall_after os) (pk_box pk) inter B (shapes_of pk) s).
Proof.
  intros Rch H Rot Wide. destruct (walls_counted threads shapes b os pk Rch H Rot Wide) as (m&E&C). rewrite walls_total in E. injection E as E.
  exists (PackProofs.walls pk inter true). split; [apply walls_total|]. pose proof (walls_zero pk inter true false) as Z. rewrite E in Z.
  destruct C as (l&N&I&L). split.
  - intros P. destruct l as [|s l]; [cbn in L; lia|]. exists s. apply I. left; reflexivity.
  - intros (s&S). apply I in S. destruct l; [contradiction|]. cbn in L. lia.
Qed.
End Count.
