(** The loops over the grid or over all pairs give sums over pairs of sites; what a move of one particle changes. *)
From Coq Require Import Reals ZArith List Bool Lia Lra Permutation.
From Verif Require Import GeomModel BoxModel BoxSpec RFloorModel PbcModel PbcSpec PbcTotalModel NGModel NGSpec GeomProofs BoxProofs RFloorProofs PbcProofs NGListProofs NGGeomProofs NGProofs.
From Verif Require Import PackModel PackSpec PackSumProofs NGPairProofs PackGridProofs PackCountProofs.
Import ListNotations.
Open Scope nat_scope.

Lemma sums_to_strengthen {A} (P Q : A -> Prop) w s : (forall x, Q x -> P x) -> (forall x, P x -> w x <> 0%R -> Q x) ->
  sums_to P w s -> sums_to Q w s.
Proof.
  intros H1 H2 (l & N & I & C & ->). exists (filter (nz w) l). split; [apply NoDup_filter; auto|]. split; [|split].
  - intros x Hx. apply filter_In in Hx. destruct Hx as [Hx Hn]. apply nz_true in Hn. auto.
  - intros x Hx Hn. apply filter_In. split; [auto|]. apply nz_true; auto.
  - symmetry. apply Rsum_nz.
Qed.

Lemma trans_z_odd d : trans_z (- d) = (- trans_z d)%Z.
Proof.
  unfold trans_z. destruct (Rlt_dec (1/2) d), (Rlt_dec (1/2) (-d)), (Rlt_dec d (-1/2)), (Rlt_dec (-d) (-1/2)); try lra; try lia.
  - rewrite Ropp_involutive. lia.
Qed.
Lemma translation_swap b p1 p2 : translation b p2 p1 = vneg (translation b p1 p2).
Proof.
  unfold translation. set (r1 := absoluteToRelative b p1). set (r2 := absoluteToRelative b p2).
  assert (E : vmake (fun a => IZR (trans_z (vget r1 a - vget r2 a))) = vneg (vmake (fun a => IZR (trans_z (vget r2 a - vget r1 a))))).
  { apply vec_ext_axis. intros a. rewrite vget_vneg, !vget_vmake.
    replace (vget r1 a - vget r2 a)%R with (- (vget r2 a - vget r1 a))%R by ring. rewrite trans_z_odd, opp_IZR. reflexivity. }
  rewrite E. unfold relativeToAbsolute. apply vec_ext; simpl; ring.
Qed.
Lemma distance2_swap b p1 p2 : distance2 b p2 p1 = distance2 b p1 p2.
Proof.
  unfold distance2, dist_rel. do 2 f_equal. apply vec_ext_axis. intros a. rewrite !vget_vmake.
  rewrite Rabs_minus_sym. reflexivity.
Qed.
Lemma lattice_norm b t : valid_box b -> is_lattice_vector b t -> t <> vzero ->
  (exists a, box_height b a <= vnorm t)%R.
Proof.
  intros Hv (i & j & k & ->) Hn.
  assert (E : absoluteToRelative b (lattice_vector b i j k) = V3 (IZR i) (IZR j) (IZR k)) by (apply a2r_lattice; auto).
  assert (H : forall a z, vget (absoluteToRelative b (lattice_vector b i j k)) a = IZR z -> z <> 0%Z ->
                (box_height b a <= vnorm (lattice_vector b i j k))%R).
  { intros a z Ez Hz. pose proof (height_bound b a (lattice_vector b i j k) Hv) as Hb. rewrite Ez in Hb.
    pose proof (height_pos b a Hv). assert (1 <= Rabs (IZR z))%R by (rewrite <- abs_IZR; apply IZR_le; lia). nra. }
  rewrite E in H. destruct (Z.eq_dec i 0) as [->|Hi]; [|exists AX; apply (H AX i); auto].
  destruct (Z.eq_dec j 0) as [->|Hj]; [|exists AY; apply (H AY j); auto].
  destruct (Z.eq_dec k 0) as [->|Hk]; [|exists AZ; apply (H AZ k); auto].
  exfalso. apply Hn. unfold lattice_vector. apply vec_ext; simpl; ring.
Qed.

Section Sums.
Variables (W : vec -> mat -> nat -> vec -> mat -> nat -> bcond -> R) (wl : law R) (range : R).
Hypothesis HW : follows W wl.
Hypothesis Hsym : symmetric_law wl.
Hypothesis Hrange : forall r1 c1 r2 c2 d, (wl r1 c1 r2 c2 d (vnorm2 d) <> 0 -> vnorm d <= range)%R.

Lemma vnorm2_neg d : vnorm2 (vneg d) = vnorm2 d.
Proof. unfold vnorm2, vdot; simpl. ring. Qed.
Lemma W_hard p1 r1 c1 p2 r2 c2 t :
  W p1 r1 c1 p2 r2 c2 (hardcoded t) = wl r1 c1 r2 c2 (vsub (vadd p2 t) p1) (vnorm2 (vsub (vadd p2 t) p1)).
Proof. rewrite HW. reflexivity. Qed.
Lemma W_hard_sym p1 r1 c1 p2 r2 c2 t :
  W p1 r1 c1 p2 r2 c2 (hardcoded t) = W p2 r2 c2 p1 r1 c1 (hardcoded (vneg t)).
Proof.
  rewrite !W_hard, Hsym. assert (E : vneg (vsub (vadd p2 t) p1) = vsub (vadd p1 (vneg t)) p2) by (apply vec_ext; simpl; ring).
  rewrite <- E, vnorm2_neg. reflexivity.
Qed.
Lemma W_hard_range p1 r1 c1 p2 r2 c2 t : W p1 r1 c1 p2 r2 c2 (hardcoded t) <> 0%R -> (vnorm (vsub (vadd p2 t) p1) <= range)%R.
Proof. rewrite W_hard. apply Hrange. Qed.
Lemma W_per_sym b p1 r1 c1 p2 r2 c2 : W p1 r1 c1 p2 r2 c2 (periodic b) = W p2 r2 c2 p1 r1 c1 (periodic b).
Proof.
  rewrite !HW. cbn [periodic bc_translation bc_distance2]. rewrite Hsym, (distance2_swap b p1 p2).
  rewrite (translation_swap b p1 p2). f_equal. apply vec_ext; simpl; ring.
Qed.
Lemma bc_sym pk p1 r1 c1 p2 r2 c2 t : W p1 r1 c1 p2 r2 c2 (bc_of pk t) = W p2 r2 c2 p1 r1 c1 (bc_of pk (vneg t)).
Proof. unfold bc_of. destruct (pk_ng pk); [apply W_hard_sym|apply W_per_sym]. Qed.
Lemma tv_sym pk a b t : tv 0%R W pk (a, b, t) = tv 0%R W pk (b, a, vneg t).
Proof. unfold tv, rawv. rewrite (Nat.eqb_sym (b / _)). destruct (_ =? _); auto. apply bc_sym. Qed.
Lemma shift_ok_neg pk t : shift_ok pk t -> shift_ok pk (vneg t).
Proof.
  unfold shift_ok. destruct (pk_ng pk); [apply vneg_is_lattice|]. intros ->. apply vec_ext; simpl; ring.
Qed.

(** The term the grid loop uses for one particle without centres and its own image is zero. *)
Lemma cellr_tv pk g x : pgood pk -> (range <= pk_range pk)%R -> pk_ng pk = Some g -> In x (all_terms g) ->
  cellr pk W x = tv 0%R W pk x.
Proof.
  intros Hg Hr E Hx. destruct x as [[a b] t]. destruct (grid_terms pk Hg g E) as (s & E1 & E2 & E3 & G & Hin & Hc).
  unfold cellr, tv, rawv, bc_of. rewrite E. destruct (Nat.eqb_spec (pk_k pk) 0) as [Hk|Hk]; simpl; [|destruct (_ =? _); auto].
  destruct (Nat.eqb_spec (a / dims_of pk) (b / dims_of pk)) as [Eab|]; auto.
  rewrite (sites_of_0 _ Hk) in *. rewrite !Nat.div_1_r in Eab. subst b.
  pose proof (all_terms_self _ s g _ _ G Hin Hc a t Hx) as Ht.
  destruct (all_terms_lattice _ s g _ _ G Hin Hc a a t Hx) as (_ & _ & Hl). rewrite E1 in Hl.
  destruct (Req_EM_T (W (spos pk a) (srot pk a) (a mod 1) (spos pk a) (srot pk a) (a mod 1) (hardcoded t)) 0) as [|Hn]; auto.
  exfalso. apply W_hard_range in Hn. replace (vsub (vadd (spos pk a) t) (spos pk a)) with t in Hn by (apply vec_ext; simpl; ring).
  destruct (lattice_norm (pk_box pk) t) as (ax & Hax); auto; [apply Hg|]. specialize (E3 ax). lra.
Qed.

Lemma total_sum pk : pgood pk -> (range <= pk_range pk)%R ->
  sums_to (term_ok pk) (tv 0%R W pk) (Rsum (tv 0%R W pk) (total_list pk)).
Proof.
  intros Hg Hr. pose proof (sites_of_pos (pk_k pk)) as HK. unfold total_list. destruct (pk_ng pk) as [g|] eqn:E.
  - destruct (grid_terms pk Hg g E) as (s & E1 & E2 & E3 & G & Hin & Hc).
    apply (sums_to_strengthen (id_pair s (sites_total pk))).
    + intros [[a b] t] (H1 & H2 & H3). unfold shift_ok in H3. rewrite E in H3. split; auto. rewrite E1; auto.
    + intros [[a b] t] [H1 H2] Hn. unfold tv in Hn. destruct (Nat.eqb_spec (a / dims_of pk) (b / dims_of pk)); [lra|].
      split; auto. split; auto. unfold shift_ok. rewrite E, <- E1. auto.
    + apply (all_terms_sum _ s g _ (spos pk) G Hin Hc).
      * intros a b t _ _. apply tv_sym.
      * intros a b t Ha Hb Hab Ht Hn. unfold tv, rawv, bc_of in Hn. rewrite E in Hn.
        destruct (_ =? _); [lra|]. apply W_hard_range in Hn. lra.
      * intros a t _ _ _. unfold tv. rewrite Nat.eqb_refl. auto.
  - apply sums_to_list.
    + apply NoDup_flat_map; [apply NoDup_pairs_from|intros; apply NoDup_expand|].
      intros [i j] [i' j'] [[a b] t] _ _ H H'. apply in_expand in H, H'. cbn [fst snd] in *.
      destruct H as (c1 & c2 & H1 & H2 & -> & -> & ->), H' as (d1 & d2 & H3 & H4 & E1 & E2 & _).
      assert (i = i') by (apply (f_equal (fun n => n / dims_of pk)) in E1; rewrite !div_mul_add in E1 by lia; auto).
      assert (j = j') by (apply (f_equal (fun n => n / dims_of pk)) in E2; rewrite !div_mul_add in E2 by lia; auto).
      congruence.
    + intros [[a b] t] H. apply in_flat_map in H. destruct H as ([i j] & H & Hx). apply in_pairs_from in H.
      apply in_expand in Hx. cbn [fst snd] in Hx. destruct Hx as (c1 & c2 & H1 & H2 & -> & -> & ->).
      unfold term_ok, shift_ok. rewrite E, !div_mul_add by auto. repeat split; try lia.
      * apply (div_lt (dims_of pk)); auto. rewrite !div_mul_add by auto. lia.
      * apply div_lt_total. rewrite div_mul_add by auto. lia.
    + intros [[a b] t] (H1 & H2 & H3) _. unfold shift_ok in H3. rewrite E in H3. subst t. apply in_flat_map.
      exists (a / dims_of pk, b / dims_of pk). split.
      * apply in_pairs_from. destruct H1 as [H1 H1']. pose proof (div_ne_lt (dims_of pk) a b HK H1 H2) as Hlt.
        apply div_lt_total in H1'. split; [split; [apply Nat.le_0_l|exact Hlt]|exact H1'].
      * apply in_expand. cbn [fst snd]. exists (a mod dims_of pk), (b mod dims_of pk).
        split; [apply Nat.mod_upper_bound; lia|]. split; [apply Nat.mod_upper_bound; lia|].
        split; [apply div_mod_split; auto|]. split; [apply div_mod_split; auto|reflexivity].
Qed.

Lemma part_sum pk i p : pgood pk -> (range <= pk_range pk)%R -> part_good pk p ->
  sums_to (part_ok pk i) (pv 0%R W pk i p) (Rsum (pv 0%R W pk i p) (part_list pk p)).
Proof.
  intros Hg Hr [Hl Hp]. pose proof (sites_of_pos (pk_k pk)) as HK.
  apply (sums_to_strengthen (fun x => let '(c, b, t) := x in c < dims_of pk /\ b < sites_total pk /\ shift_ok pk t)).
  { intros [[c b] t] (H1 & H2 & H3 & H4). auto. }
  { intros [[c b] t] (H1 & H2 & H3) Hn. unfold pv in Hn. destruct (Nat.eqb_spec (b / dims_of pk) i); [lra|].
    unfold part_ok. auto. }
  unfold part_list. destruct (pk_ng pk) as [g|] eqn:E.
  - destruct (grid_terms pk Hg g E) as (s & E1 & E2 & E3 & G & Hin & Hc).
    assert (Hb : forall c, c < dims_of pk -> in_box (st_box s) (nth c (sitepos (pk_k pk) p) vzero)).
    { intros c H. rewrite E1. apply Hp, nth_In. lia. }
    apply sums_to_list.
    + apply NoDup_flat_map; [apply seq_NoDup| |].
      * intros c H. apply in_seq in H. apply NoDup_map_inj_on.
        -- apply (near_NoDup _ s g G). apply Hb. lia.
        -- intros [] [] _ _ Eq. cbn [fst snd] in Eq. apply pair_eq in Eq. destruct Eq as [Eq ->]. injection Eq as ->. auto.
      * intros c c' [[x y] t] _ _ H H'. apply in_map_iff in H, H'. destruct H as (u & Eu & _), H' as (v & Ev & _).
        apply pair_eq in Eu, Ev. destruct Eu as [Eu _], Ev as [Ev _]. injection Eu as <- _. injection Ev as <- _. auto.
    + intros [[c b] t] H. apply in_flat_map in H. destruct H as (c' & Hc' & H). apply in_seq in Hc'. apply in_map_iff in H.
      destruct H as ([b' t'] & Eq & H). cbn [fst snd] in Eq. apply pair_eq in Eq. destruct Eq as [Eq ->]. injection Eq as -> ->.
      apply (near_sound _ s g _ (spos pk) G Hc) in H; [|apply Hb; lia]. destruct H as [H1 H2]. split; [lia|]. split; auto.
      unfold shift_ok. rewrite E, <- E1. auto.
    + intros [[c b] t] (H1 & H2 & H3) Hn. unfold shift_ok in H3. rewrite E, <- E1 in H3. apply in_flat_map. exists c.
      split; [apply in_seq; lia|]. apply in_map_iff. exists (b, t). split; auto.
      apply (near_complete _ s g _ (spos pk) G Hin Hc); auto.
      unfold pv, bc_of in Hn. rewrite E in Hn. destruct (_ =? _); [lra|]. apply W_hard_range in Hn. lra.
  - apply sums_to_list.
    + apply NoDup_flat_map; [apply seq_NoDup|intros; apply NoDup_expand|].
      intros j j' [[a b] t] _ _ H H'. apply in_expand in H, H'.
      destruct H as (c1 & c2 & H1 & H2 & -> & -> & ->), H' as (d1 & d2 & H3 & H4 & _ & E2 & _).
      apply (f_equal (fun n => n / dims_of pk)) in E2; rewrite !div_mul_add in E2 by lia; auto.
    + intros [[a b] t] H. apply in_flat_map in H. destruct H as (j & H & Hx). apply in_seq in H.
      apply in_expand in Hx. destruct Hx as (c1 & c2 & H1 & H2 & -> & -> & ->).
      unfold shift_ok. rewrite E. repeat split; try lia. apply div_lt_total. rewrite div_mul_add by auto. lia.
    + intros [[c b] t] (H1 & H2 & H3) _. unfold shift_ok in H3. rewrite E in H3. subst t. apply in_flat_map.
      exists (b / dims_of pk). apply div_lt_total in H2. split.
      { apply in_seq. split; [apply Nat.le_0_l|exact H2]. }
      apply in_expand. exists c, (b mod dims_of pk). split; [auto|]. split; [apply Nat.mod_upper_bound; lia|]. split; [reflexivity|].
      split; [apply div_mod_split; auto|reflexivity].
Qed.

(** *** Replacing a particle *)
Definition replaced (pk pk' : packing) (i : nat) (p' : particle) : Prop :=
  pk_box pk' = pk_box pk /\ pk_k pk' = pk_k pk /\ pk_range pk' = pk_range pk /\
  (pk_ng pk' = None <-> pk_ng pk = None) /\ i < pk_size pk /\ set_nth (pk_parts pk) i p' = Some (pk_parts pk').
Lemma replaced_size pk pk' i p' : replaced pk pk' i p' -> pk_size pk' = pk_size pk.
Proof. intros (_ & _ & _ & _ & _ & H). unfold pk_size. apply (set_nth_length _ _ _ _ H). Qed.
Lemma replaced_total pk pk' i p' : replaced pk pk' i p' -> sites_total pk' = sites_total pk.
Proof. intros H. unfold sites_total. rewrite (replaced_size _ _ _ _ H). destruct H as (_ & -> & _). auto. Qed.
Lemma replaced_bc pk pk' i p' t : replaced pk pk' i p' -> bc_of pk' t = bc_of pk t.
Proof.
  intros (E & _ & _ & H & _). unfold bc_of. rewrite E. destruct (pk_ng pk'), (pk_ng pk); auto.
  - discriminate (proj2 H eq_refl).
  - discriminate (proj1 H eq_refl).
Qed.
Lemma replaced_shift pk pk' i p' t : replaced pk pk' i p' -> shift_ok pk' t <-> shift_ok pk t.
Proof.
  intros (E & _ & _ & H & _). unfold shift_ok. rewrite E. destruct (pk_ng pk'), (pk_ng pk); try tauto.
  - discriminate (proj2 H eq_refl).
  - discriminate (proj1 H eq_refl).
Qed.
Lemma replaced_other pk pk' i p' b : pgood pk -> pgood pk' -> replaced pk pk' i p' -> b < sites_total pk ->
  b / dims_of pk <> i -> spos pk' b = spos pk b /\ srot pk' b = srot pk b.
Proof.
  intros Hg Hg' H Hb Hn. pose proof (replaced_total _ _ _ _ H) as Et. pose proof H as (_ & Ek & _ & _ & _ & Hs).
  destruct (spos_nth pk b Hg Hb) as (p & E1 & E2 & E3).
  destruct (spos_nth pk' b Hg') as (q & F1 & F2 & F3); [lia|]. rewrite Ek in F1, F2.
  rewrite (set_nth_get _ _ _ _ _ Hs) in F1. destruct (Nat.eqb_spec (b / dims_of pk) i); [contradiction|].
  rewrite E1 in F1. injection F1 as <-. rewrite E2 in F2. injection F2 as <-. rewrite E3, F3. auto.
Qed.
Lemma replaced_this pk pk' i p' c : pgood pk' -> replaced pk pk' i p' -> c < dims_of pk ->
  spos pk' (i * dims_of pk + c) = nth c (sitepos (pk_k pk) p') vzero /\ srot pk' (i * dims_of pk + c) = pt_rot p'.
Proof.
  intros Hg' H Hc. pose proof H as (_ & Ek & _ & _ & _ & Hs).
  destruct (sitepos_nth pk' Hg' i p' c) as (E1 & E2 & _).
  - rewrite (set_nth_get _ _ _ _ _ Hs), Nat.eqb_refl. auto.
  - rewrite Ek; auto.
  - rewrite Ek in *. rewrite <- E1, E2. auto.
Qed.

Definition involves (K i : nat) (x : nat * nat * vec) : bool := let '(a, b, _) := x in (a / K =? i) || (b / K =? i).
Lemma involve_sum pk pk' i p' : pgood pk -> pgood pk' -> (range <= pk_range pk)%R -> part_good pk p' -> replaced pk pk' i p' ->
  sums_to (fun x => term_ok pk' x /\ involves (dims_of pk) i x = true) (tv 0%R W pk')
          (Rsum (pv 0%R W pk i p') (part_list pk p')).
Proof.
  intros Hg Hg' Hr Hp H. pose proof (sites_of_pos (pk_k pk)) as HK.
  pose proof (replaced_total _ _ _ _ H) as Et. pose proof H as (_ & Ek & _ & _ & Hi & Hs).
  set (f := fun x : nat * nat * vec => let '(c, b, t) := x in canon (i * dims_of pk + c, b, t)).
  assert (Hne : forall c b, c < dims_of pk -> b / dims_of pk <> i -> i * dims_of pk + c <> b).
  { intros c b Hc Hb E. subst b. rewrite div_mul_add in Hb; auto. }
  apply (sums_to_map (part_ok pk i) _ f (pv 0%R W pk i p') _ _); [| | | |apply part_sum; auto].
  - intros [[c b] t] (H1 & H2 & H3 & H4). unfold f, canon. pose proof (Hne c b H1 H3).
    assert (Hac : i * dims_of pk + c < sites_total pk) by (apply div_lt_total; rewrite div_mul_add; auto).
    destruct (Nat.ltb_spec (i * dims_of pk + c) b); unfold term_ok, involves; rewrite Ek, Et, div_mul_add, Nat.eqb_refl by auto.
    + rewrite (replaced_shift _ _ _ _ t H). simpl. repeat split; auto; lia.
    + rewrite (replaced_shift _ _ _ _ _ H), orb_true_r. repeat split; auto; try lia. apply shift_ok_neg; auto.
  - intros [[c b] t] [[c' b'] t'] (H1 & H2 & H3 & H4) (H1' & H2' & H3' & H4') E. unfold f, canon in E.
    pose proof (Hne c b H1 H3). pose proof (Hne c' b' H1' H3').
    assert (D : forall x y, x = y -> x / dims_of pk = y / dims_of pk) by congruence.
    destruct (Nat.ltb_spec (i * dims_of pk + c) b), (Nat.ltb_spec (i * dims_of pk + c') b');
      apply pair_eq in E; destruct E as [E Ett]; apply pair_eq in E; destruct E as [Ea Eb].
    + subst. f_equal. f_equal. lia.
    + exfalso. apply H3. rewrite Eb. apply div_mul_add; auto.
    + exfalso. apply H3. rewrite Ea. apply div_mul_add; auto.
    + apply (f_equal vneg) in Ett. rewrite !vneg_invol in Ett. subst. f_equal. f_equal. lia.
  - intros [[a b] t] [(H1 & H2 & H3) H4] _. rewrite Ek, Et in *. unfold involves in H4. apply orb_true_iff in H4.
    apply (replaced_shift _ _ _ _ t H) in H3.
    rewrite !Nat.eqb_eq in H4. pose proof (Nat.mod_upper_bound a (dims_of pk)). pose proof (Nat.mod_upper_bound b (dims_of pk)).
    pose proof (div_mod_split (dims_of pk) a HK). pose proof (div_mod_split (dims_of pk) b HK).
    destruct H4 as [H4|H4].
    + exists (a mod dims_of pk, b, t). split.
      * unfold part_ok. rewrite H4 in *. repeat split; auto; lia.
      * unfold f, canon. rewrite <- H4. rewrite <- H6. destruct (Nat.ltb_spec a b); [auto|lia].
    + exists (b mod dims_of pk, a, vneg t). split.
      * unfold part_ok. rewrite H4 in *. repeat split; auto; try lia. apply shift_ok_neg; auto.
      * unfold f, canon. rewrite <- H4. rewrite <- H7. destruct (Nat.ltb_spec b a); [lia|]. rewrite vneg_invol. auto.
  - intros [[c b] t] (H1 & H2 & H3 & H4). unfold f.
    assert (E : tv 0%R W pk' (canon (i * dims_of pk + c, b, t)) = tv 0%R W pk' (i * dims_of pk + c, b, t)).
    { unfold canon. destruct (_ <? _); auto. symmetry. apply tv_sym. }
    rewrite E. unfold tv, rawv, pv. rewrite Ek, div_mul_add, mod_mul_add by auto.
    destruct (Nat.eqb_spec (b / dims_of pk) i); [contradiction|]. destruct (Nat.eqb_spec i (b / dims_of pk)); [congruence|].
    destruct (replaced_this pk pk' i p' c Hg' H H1) as [-> ->]. destruct (replaced_other pk pk' i p' b Hg Hg' H H2 H3) as [-> ->].
    rewrite (replaced_bc _ _ _ _ t H). reflexivity.
Qed.

Lemma set_nth_same {A} (l : list A) i x : nth_error l i = Some x -> set_nth l i x = Some l.
Proof.
  revert i. induction l as [|y l IH]; intros [|i] H; simpl in *; try discriminate.
  - injection H as ->. auto.
  - rewrite (IH i H). auto.
Qed.
Lemma replaced_refl pk i p : nth_error (pk_parts pk) i = Some p -> replaced pk pk i p.
Proof.
  intros H. unfold replaced. repeat split; auto; try tauto.
  - apply nth_error_Some. congruence.
  - apply set_nth_same; auto.
Qed.

Lemma delta_sum pk pk' i p p' : pgood pk -> pgood pk' -> (range <= pk_range pk)%R -> part_good pk p -> part_good pk p' ->
  nth_error (pk_parts pk) i = Some p -> replaced pk pk' i p' ->
  (Rsum (tv 0%R W pk') (total_list pk') - Rsum (tv 0%R W pk) (total_list pk) =
   Rsum (pv 0%R W pk i p') (part_list pk p') - Rsum (pv 0%R W pk i p) (part_list pk p))%R.
Proof.
  intros Hg Hg' Hr Hp Hp' Hi H.
  pose proof (involve_sum pk pk' i p' Hg Hg' Hr Hp' H) as A1. pose proof (involve_sum pk pk i p Hg Hg Hr Hp (replaced_refl pk i p Hi)) as A2.
  pose proof (total_sum pk Hg Hr) as T2. assert (Hr' : (range <= pk_range pk')%R) by (destruct H as (_ & _ & -> & _); auto).
  pose proof (total_sum pk' Hg' Hr') as T1.
  pose proof (sums_to_split _ _ _ _ _ T1 A1) as R1. pose proof (sums_to_split _ _ _ _ _ T2 A2) as R2.
  assert (E : sums_to (fun x => term_ok pk' x /\ involves (dims_of pk) i x = false) (tv 0%R W pk')
    (Rsum (tv 0%R W pk) (total_list pk) - Rsum (pv 0%R W pk i p) (part_list pk p))).
  { eapply sums_to_ext; [| |exact R2].
    - intros [[a b] t]. unfold term_ok. pose proof H as (_ & Ek & _). rewrite Ek, (replaced_total _ _ _ _ H), (replaced_shift _ _ _ _ t H). tauto.
    - intros [[a b] t] [(H1 & H2 & H3) Hn]. unfold involves in Hn. apply orb_false_iff in Hn. destruct Hn as [Na Nb].
      apply Nat.eqb_neq in Na, Nb. unfold tv, rawv. pose proof H as (_ & Ek & _). rewrite Ek.
      destruct (replaced_other pk pk' i p' a Hg Hg' H) as [-> ->]; auto; try lia.
      destruct (replaced_other pk pk' i p' b Hg Hg' H) as [-> ->]; auto; try lia.
      rewrite (replaced_bc _ _ _ _ t H). reflexivity. }
  pose proof (sums_to_unique _ _ _ _ R1 E). lra.
Qed.
End Sums.
