(** Non-emptiness, uniqueness, retries for packings, and a packing without a neighbour grid. *)
From Coq Require Import Reals ZArith List Bool Lia Lra.
From Verif Require Import GeomModel BoxModel BoxSpec RFloorModel PbcModel PbcSpec PbcTotalModel NGModel NGSpec GeomProofs BoxProofs RFloorProofs PbcProofs NGListProofs.
From Verif Require Import PackModel PackSpec PackCountProofs PackInvProofs PackHistProofs PackFinalProofs PackExamples.
From Verif Require Import DomModel DomSpec DomProofs DomFinalProofs DomRunProofs.
Import ListNotations.
Open Scope R_scope.

Section M.
Variables (pk : packing) (inter : interaction) (div : axis -> nat) (ng : axis -> Z) (origin : vec).
Hypothesis HP : well_placed pk.
Hypothesis Hr : in_rangeRadius inter <= in_totalRange inter.
Hypothesis HL : legal_decomposition pk inter div ng origin.
Variable d : decomposition.
Hypothesis Hd : makeDecomposition pk inter div ng origin = DdReady d.
Notation b := (pk_box pk).

Lemma nonempty c : valid_coords div c -> exists ad p, getActiveDomainBounds d c = Some ad /\ in_box b p /\ isInside ad p = true.
Proof.
  intros Hc. pose proof (decomposition_spec pk inter div ng origin HP Hr HL) as H. rewrite Hd in H.
  destruct H as (_ & _ & _ & cells & _ & Hgap & H). destruct (H c Hc) as (ad & E & _ & Hin & _).
  set (m := fun a => (cell_middle (ng a) (cells a (c a)) + cell_middle (ng a) (cells a (S (c a)))) / 2).
  set (x := fun a => m a - IZR (Rfl (m a))).
  assert (Hx : forall a, 0 <= x a < 1) by (intros a; unfold x; pose proof (Rfl_spec (m a)); lra).
  set (p := relativeToAbsolute b (V3 (x AX) (x AY) (x AZ))).
  assert (Ep : forall a, vget (absoluteToRelative b p) a = x a).
  { intros a. unfold p. rewrite (rel_abs b _ (wp_valid pk HP)). destruct a; reflexivity. }
  assert (Hp : in_box b p) by (intros a; rewrite Ep; apply Hx).
  exists ad, p. split; [exact E|]. split; [exact Hp|]. apply (Hin p Hp). intros a Ha. rewrite Ep. exists (Rfl (m a)).
  pose proof (Hgap a (c a) Ha (Hc a)) as Hg. unfold x. replace (m a - IZR (Rfl (m a)) + IZR (Rfl (m a))) with (m a) by ring. unfold m. lra.
Qed.

Lemma one_domain c c' ad ad' p : valid_coords div c -> valid_coords div c' -> getActiveDomainBounds d c = Some ad ->
  getActiveDomainBounds d c' = Some ad' -> in_box b p -> isInside ad p = true -> isInside ad' p = true -> forall a, c a = c' a.
Proof.
  intros Hc Hc' E E' Hp I1 I2 a. destruct (Nat.eq_dec (c a) (c' a)) as [|Hne]; auto. exfalso.
  pose proof (apart_distance pk inter div ng origin HP Hr HL d Hd c c' ad ad' p p Hc Hc' E E' Hp Hp I1 I2 a vzero Hne (PackContactProofs.lattice_0 b)) as A.
  replace (vsub (vadd p vzero) p) with vzero in A by (apply vec_ext; simpl; ring). rewrite vnorm_0 in A.
  assert (Hn : (1 <= ng a)%Z) by apply (HL a). apply IZR_le in Hn. pose proof (height_pos b a (wp_valid pk HP)) as Hh.
  assert (0 < box_height b a / IZR (ng a)) by (apply Rdiv_lt_0_compat; lra). lra.
Qed.
Lemma lists c : valid_coords div c -> exists ad l, getActiveDomainBounds d c = Some ad /\ getParticlesInRegion d c = Some l /\
  l = filter (fun i => isInside ad (nth i (map pt_pos (pk_parts pk)) vzero)) (seq 0 (pk_size pk)).
Proof.
  intros Hc. pose proof (decomposition_spec pk inter div ng origin HP Hr HL) as H. rewrite Hd in H.
  destruct H as (_ & _ & _ & cells & _ & _ & H). destruct (H c Hc) as (ad & E & _ & _ & El). eauto.
Qed.
End M.

(** *** Reachable packings *)
Section R.
Variables (inter : interaction) (ov : law bool) (en : law R).
Hypothesis HW : lawful inter ov en.
Hypothesis Hr : in_rangeRadius inter <= in_totalRange inter.
Variables (threads : nat) (shapes : list shape) (b : box) (os : list pack_op) (pk : packing).
Hypothesis HR : reachable threads shapes b inter os pk.
Hypothesis Hng : pk_ng pk <> None.
Lemma reach_retry div0 origins : (forall a, (1 <= div0 a)%nat) -> (forall k, in_box (pk_box pk) (origins k)) ->
  exists ng div' sq, (match pk_ng pk with Some g => ng = cget (getCellDivisions g) | None => False end) /\
    terminates_with (fun fuel => performMoves fuel 0 (fun k div => narrow_along (decompose pk inter div (origins k))) div0) (div', sq) /\
    (forall a, best_division (box_height (pk_box pk) a) (in_rangeRadius inter) (in_totalRange inter) (ng a) (div0 a) (div' a)) /\
    (sq = true <-> forall a, div' a = 1%nat) /\
    forall origin, in_box (pk_box pk) origin -> exists d, decompose pk inter div' origin = DdReady d.
Proof.
  intros Hdiv Ho. destruct (reach_inv inter ov en HW _ _ _ _ _ HR) as (Hi & _). unfold decompose.
  destruct (pk_ng pk) as [g|] eqn:Eg; [|contradiction]. exists (cget (getCellDivisions g)).
  destruct (retry_loop pk inter (cget (getCellDivisions g)) origins (inv_well_placed _ _ Hi) Hr Ho div0 (total div0) div0 0%nat eq_refl)
    as (div' & sq & H1 & H2 & H3 & H4).
  - intros a. destruct (inv_divisions inter pk g Hi Eg a) as [A1 A2]. split; [apply Hdiv|]. split; [exact A1|]. intros _; exact A2.
  - intros a. split; [lia|]. intros m' Hm'. lia.
  - exists div', sq. split; [reflexivity|]. split; [exists (total div0); exact H1|]. split; [exact H2|]. split; [exact H3|exact H4].
Qed.
Lemma reach_decompose div origin : (forall a, (1 <= div a)%nat) -> in_box (pk_box pk) origin ->
  exists ng, decompose pk inter div origin = makeDecomposition pk inter div ng origin /\ well_placed pk /\
    legal_decomposition pk inter div ng origin.
Proof.
  intros Hdiv Ho. destruct (reach_inv inter ov en HW _ _ _ _ _ HR) as (Hi & _). unfold decompose.
  destruct (pk_ng pk) as [g|] eqn:Eg; [|contradiction]. exists (cget (getCellDivisions g)). split; [reflexivity|].
  split; [exact (inv_well_placed _ _ Hi)|]. exact (run_legal inter pk g div origin Hi Eg Hdiv Ho).
Qed.
End R.

(** *** A box too small for a neighbour grid *)
Lemma small_box : exists b pk, reachable 1 [upright 1 1 1] b (ball 1) [] pk /\ in_box (pk_box pk) vzero /\
  forall div, decompose pk (ball 1) div vzero = DdFailed.
Proof.
  destruct (proj1 (box_constructible (V3 3 0 0) (V3 0 3 0) (V3 0 0 3))) as (b & Hb).
  { intros x y z H. unfold lincomb, vzero in H. simpl in H. injection H; intros. lra. }
  assert (H01 : 0 < 1) by lra. pose proof (ball_lawful 1 H01) as HL. pose proof (sided_valid _ _ _ _ Hb) as Hv.
  assert (Hs : legal_start b (ball 1) [upright 1 1 1]).
  { split; [do 3 eexists; exact Hb|]. split; [discriminate|]. split; [|simpl; lia]. intros s [<-|[]]. cbn [upright sh_pos].
    replace (V3 1 1 1) with (lincomb (V3 3 0 0) (V3 0 3 0) (V3 0 0 3) (1/3) (1/3) (1/3)) by (apply vec_ext; simpl; lra). eapply sided_in_box; eauto; lra. }
  destruct (new_spec (ball 1) (ball_ov 1) (ball_en 1) HL 1 [upright 1 1 1] b Hs) as (pk & E & Hi & Hsh & Hbx & Hw & Hc & Ht).
  assert (V : box_volume b = 27). { rewrite (sided_volume _ _ _ _ Hb). unfold vdot; simpl. rewrite Rabs_pos_eq; lra. }
  assert (Hh : forall a, box_height b a < 4).
  { intros a. pose proof (height_area b a Hv) as A. rewrite V in A. pose proof (height_pos b a Hv).
    assert (F : vnorm (box_face b a) = 9).
    { unfold vnorm. rewrite (sided_face _ _ _ _ Hb). replace (vnorm2 _) with (9 * 9) by (destruct a; unfold vnorm2, vdot; simpl; ring).
      apply sqrt_square. lra. }
    rewrite F in A. lra. }
  exists b, pk. split; [split; [exact Hs|split; [exact I|exists pk; auto]]|].
  split. { rewrite Hbx. replace vzero with (lincomb (V3 3 0 0) (V3 0 3 0) (V3 0 0 3) 0 0 0) by (apply vec_ext; simpl; ring). eapply sided_in_box; eauto; lra. }
  intros div. unfold decompose. replace (pk_ng pk) with (@None grid); [reflexivity|].
  revert E. unfold pk_new, pk_reset. destruct (Reqb _ _); [discriminate|]. destruct (negb (Rltb 0 _)); [discriminate|].
  destruct (negb (areShapesWithinBox _ _)); [discriminate|]. unfold setupForInteraction. cbv zeta.
  unfold rebuildNeighbourGrid. cbn [pk_box pk_range pk_size].
  destruct (Rltb (max3 _) _) eqn:E1.
  - cbn [obind set_ng pk_counting]. intros [= <-]. reflexivity.
  - exfalso. apply Rltb_false in E1. unfold pk_size, setup_parts in E1. cbn [pk_parts map length in_rangeRadius ball] in E1.
    rewrite cell_size_range in E1; [|lra|exact Hv|lia|rewrite V; simpl; lra].
    assert (max3 (box_height b) < 4); [|lra]. unfold max3. apply Rmax_lub_lt; [apply Rmax_lub_lt|]; apply Hh.
Qed.
