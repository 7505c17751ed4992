(** Overlap counts, energies and moves of a packing. *)
From Coq Require Import Reals ZArith List Bool Lia Lra Permutation.
From Verif Require Import GeomModel BoxModel BoxSpec RFloorModel PbcModel PbcSpec PbcTotalModel NGModel NGSpec GeomProofs BoxProofs RFloorProofs PbcProofs NGListProofs NGGeomProofs NGProofs.
From Verif Require Import PackModel PackSpec PackSumProofs NGPairProofs PackGridProofs PackCountProofs PackTotalProofs.
Import ListNotations.
Open Scope nat_scope.

(** *** Walls *)
Definition wax (pk : packing) (inter : interaction) (ee : bool) (p : particle) (a : axis) : nat :=
  match wall_axis_overlaps pk inter ee p a with Some n => n | None => 0 end.
Definition wallv (pk : packing) (inter : interaction) (ee : bool) (p : particle) : nat :=
  esum ee (wax pk inter ee p) [AX; AY; AZ].
Lemma wall_sites_total pk inter ee p o w : exists n, wall_sites_overlaps pk inter ee p o w = Some n.
Proof.
  unfold wall_sites_overlaps. destruct (pk_k pk =? 0); [eauto|]. eexists. apply sum_exit_total. reflexivity.
Qed.
Lemma wall_sites_zero pk inter ee ee' p o w : wall_sites_overlaps pk inter ee p o w = Some 0 ->
  wall_sites_overlaps pk inter ee' p o w = Some 0.
Proof.
  unfold wall_sites_overlaps. destruct (pk_k pk =? 0); auto.
  rewrite !(sum_exit_total _ _ (fun c : nat * vec => b2n (in_wall inter (vadd (pt_pos p) (snd c)) (pt_rot p) (fst c) o w))) by auto.
  intros E. injection E as E. f_equal. apply (esum_ee_zero ee ee'); auto.
Qed.
Lemma wall_axis_total pk inter ee p a : wall_axis_overlaps pk inter ee p a = Some (wax pk inter ee p a).
Proof.
  unfold wax. assert (H : exists n, wall_axis_overlaps pk inter ee p a = Some n).
  { unfold wall_axis_overlaps. destruct (negb _); [eauto|]. cbv zeta. destruct (Rltb _ _); [apply wall_sites_total|].
    destruct (Rltb _ _); [apply wall_sites_total|eauto]. }
  destruct H as (n & ->). auto.
Qed.
Lemma wax_zero pk inter ee ee' p a : wax pk inter ee p a = 0 -> wax pk inter ee' p a = 0.
Proof.
  intros H. pose proof (wall_axis_total pk inter ee p a) as E. rewrite H in E.
  pose proof (wall_axis_total pk inter ee' p a) as E'. enough (X : wall_axis_overlaps pk inter ee' p a = Some 0) by congruence.
  clear E' H. revert E. unfold wall_axis_overlaps. destruct (negb _); auto. cbv zeta.
  destruct (Rltb _ _); [apply wall_sites_zero|]. destruct (Rltb _ _); [apply wall_sites_zero|auto].
Qed.
Lemma wall_total pk inter ee p : countParticleWallOverlaps pk inter ee p = Some (wallv pk inter ee p).
Proof. apply sum_exit_total. intros a _. apply wall_axis_total. Qed.
Lemma wallv_zero pk inter ee ee' p : wallv pk inter ee p = 0 <-> wallv pk inter ee' p = 0.
Proof.
  unfold wallv. rewrite !esum_zero. split; intros H a Ha; [apply (wax_zero _ _ ee)|apply (wax_zero _ _ ee')]; apply H; auto.
Qed.
Lemma wallv_none pk inter ee p : hasAnyWalls pk = false -> wallv pk inter ee p = 0.
Proof.
  unfold hasAnyWalls. intros H. apply orb_false_iff in H. destruct H as [H Hz]. apply orb_false_iff in H. destruct H as [Hx Hy].
  apply esum_zero. intros a _. unfold wax, wall_axis_overlaps. destruct a; rewrite ?Hx, ?Hy, ?Hz; reflexivity.
Qed.
Lemma wall_or_none pk inter ee p : (if hasAnyWalls pk then countParticleWallOverlaps pk inter ee p else Some 0) = Some (wallv pk inter ee p).
Proof. destruct (hasAnyWalls pk) eqn:E; [apply wall_total|]. rewrite wallv_none; auto. Qed.
Definition walls (pk : packing) (inter : interaction) (ee : bool) : nat := esum ee (wallv pk inter ee) (pk_parts pk).
Lemma walls_total pk inter ee : countWallOverlaps pk inter ee = Some (walls pk inter ee).
Proof.
  unfold countWallOverlaps, walls. destruct (hasAnyWalls pk) eqn:E; simpl.
  - apply sum_exit_total. intros p _. apply wall_total.
  - symmetry. f_equal. apply esum_zero. intros p _. apply wallv_none; auto.
Qed.
Lemma walls_zero pk inter ee ee' : walls pk inter ee = 0 <-> walls pk inter ee' = 0.
Proof.
  unfold walls. rewrite !esum_zero. split; intros H a Ha; apply (wallv_zero _ _ ee ee'); auto.
Qed.
Lemma wallv_same pk pk' inter ee p : pk_k pk' = pk_k pk -> pk_box pk' = pk_box pk -> pk_wall pk' = pk_wall pk ->
  wallv pk' inter ee p = wallv pk inter ee p.
Proof.
  intros E1 E2 E3. unfold wallv. apply esum_ext. intros a _. unfold wax, wall_axis_overlaps, wall_sites_overlaps.
  rewrite E1, E2, E3. reflexivity.
Qed.

(** *** Values *)
Definition tot (pk : packing) (inter : interaction) : nat := esum false (tv 0 (ovf inter) pk) (total_list pk).
Definition part (pk : packing) (inter : interaction) (i : nat) (p : particle) : nat :=
  esum false (pv 0 (ovf inter) pk i p) (part_list pk p).
Definition wgt (inter : interaction) p1 r1 c1 p2 r2 c2 bc : R := INR (ovf inter p1 r1 c1 p2 r2 c2 bc).
Lemma INR_tv inter pk x : INR (tv 0 (ovf inter) pk x) = tv 0%R (wgt inter) pk x.
Proof. destruct x as [[a b] t]. unfold tv. destruct (_ =? _); reflexivity. Qed.
Lemma INR_pv inter pk i p x : INR (pv 0 (ovf inter) pk i p x) = pv 0%R (wgt inter) pk i p x.
Proof. destruct x as [[a b] t]. unfold pv. destruct (_ =? _); reflexivity. Qed.
Lemma INR_tot pk inter : INR (tot pk inter) = Rsum (tv 0%R (wgt inter) pk) (total_list pk).
Proof. unfold tot. rewrite esum_false. apply Rsum_ext. intros; apply INR_tv. Qed.
Lemma INR_part pk inter i p : INR (part pk inter i p) = Rsum (pv 0%R (wgt inter) pk i p) (part_list pk p).
Proof. unfold part. rewrite esum_false. apply Rsum_ext. intros; apply INR_pv. Qed.

Section Lawful.
Variables (inter : interaction) (ov : law bool) (en : law R).
Hypothesis HL : lawful inter ov en.
Notation range := (in_rangeRadius inter).

Definition wov : law R := fun r1 c1 r2 c2 d s => INR (b2n (ov r1 c1 r2 c2 d s)).
Lemma wgt_follows : follows (wgt inter) wov.
Proof. destruct HL as (H & _). intros p1 r1 c1 p2 r2 c2 bc. unfold wgt, ovf, wov. rewrite H. reflexivity. Qed.
Lemma wov_sym : symmetric_law wov.
Proof. destruct HL as (_ & H & _). intros r1 c1 r2 c2 d s. unfold wov. rewrite H. reflexivity. Qed.
Lemma wov_range r1 c1 r2 c2 d : (wov r1 c1 r2 c2 d (vnorm2 d) <> 0 -> vnorm d <= range)%R.
Proof.
  destruct HL as (_ & _ & _ & _ & _ & H & _). unfold wov. intros Hn. apply (H r1 c1 r2 c2).
  destruct (ov r1 c1 r2 c2 d (vnorm2 d)); [reflexivity|]. exfalso. simpl in Hn. lra.
Qed.
Lemma en_follows : follows (in_energy inter) en. Proof. apply HL. Qed.
Lemma en_sym : symmetric_law en. Proof. apply HL. Qed.
Lemma en_range r1 c1 r2 c2 d : (en r1 c1 r2 c2 d (vnorm2 d) <> 0 -> vnorm d <= range)%R.
Proof. apply HL. Qed.

Lemma INR_cellv pk x : INR (cellv pk (ovf inter) x) = cellr pk (wgt inter) x.
Proof. destruct x as [[a b] t]. unfold cellv, cellr. destruct (_ && _); reflexivity. Qed.
Lemma cellv_tv pk g x : pgood pk -> (range <= pk_range pk)%R -> pk_ng pk = Some g -> In x (all_terms g) ->
  cellv pk (ovf inter) x = tv 0 (ovf inter) pk x.
Proof.
  intros Hg Hr E Hx. apply INR_eq. rewrite INR_cellv, INR_tv. eapply cellr_tv; eauto.
  - apply wgt_follows.
  - apply wov_range.
Qed.

Lemma count_total pk ee : pgood pk -> (range <= pk_range pk)%R -> exists n,
  countTotalOverlaps pk inter ee = Some n /\ (ee = false -> n = tot pk inter + walls pk inter false) /\
  (n = 0 <-> tot pk inter + walls pk inter false = 0).
Proof.
  intros Hg Hr. unfold countTotalOverlaps. rewrite walls_total.
  assert (Hz : forall n m, (n = 0 <-> tot pk inter = 0) -> m = walls pk inter ee -> (ethen ee n m = 0 <-> tot pk inter + walls pk inter false = 0)).
  { intros n m Hn ->. pose proof (walls_zero pk inter ee false). unfold ethen. destruct ee; simpl; [|lia].
    destruct (Nat.ltb_spec 0 n); lia. }
  destruct (pk_ng pk) as [g|] eqn:E.
  - rewrite (grid_overlaps_value pk inter Hg ee g E). cbn [obind]. rewrite then_exit_total.
    rewrite (esum_ext ee (cellv pk (ovf inter)) (tv 0 (ovf inter) pk)) by (intros; eapply cellv_tv; eauto).
    assert (T : total_list pk = all_terms g) by (unfold total_list; rewrite E; auto). rewrite <- T.
    pose proof (esum_ee_zero ee false (tv 0 (ovf inter) pk) (total_list pk)) as Q. fold (tot pk inter) in Q.
    eexists. split; [reflexivity|]. split.
    + intros ->. unfold ethen. simpl. reflexivity.
    + apply Hz; auto. destruct (ee && (0 <? _)) eqn:B; [|exact Q]. apply andb_true_iff in B. destruct B as [_ B].
      apply Nat.ltb_lt in B. lia.
  - rewrite (all_pairs_value pk inter Hg ee (pk_parts pk) 0 E) by reflexivity. fold (pk_size pk). rewrite then_exit_total.
    assert (T : total_list pk = flat_map (fun ij => expand (dims_of pk) (fst ij) (snd ij)) (pairs_from 0 (pk_size pk)))
      by (unfold total_list; rewrite E; auto). rewrite <- T.
    pose proof (esum_ee_zero ee false (tv 0 (ovf inter) pk) (total_list pk)) as Q. fold (tot pk inter) in Q.
    eexists. split; [reflexivity|]. split.
    + intros ->. unfold ethen. simpl. reflexivity.
    + apply Hz; auto.
Qed.
Lemma count_part pk ee i p : pgood pk -> part_good pk p -> exists n,
  countParticleOverlaps pk inter ee i p = Some n /\ (ee = false -> n = part pk inter i p + wallv pk inter false p) /\
  (n = 0 <-> part pk inter i p + wallv pk inter false p = 0).
Proof.
  intros Hg Hp. unfold countParticleOverlaps. rewrite wall_or_none, (part_overlaps_value pk inter Hg ee i p Hp), then_exit_total.
  eexists. split; [reflexivity|]. pose proof (esum_ee_zero ee false (pv 0 (ovf inter) pk i p) (part_list pk p)) as Q. fold (part pk inter i p) in Q.
  pose proof (wallv_zero pk inter ee false p). split.
  - intros ->. reflexivity.
  - unfold ethen. destruct ee; simpl; [|lia]. destruct (Nat.ltb_spec 0 (esum true (pv 0 (ovf inter) pk i p) (part_list pk p))); lia.
Qed.
Definition etot (pk : packing) : R := if in_soft inter then Rsum (tv 0%R (in_energy inter) pk) (total_list pk) else 0%R.
Definition epart (pk : packing) (i : nat) (p : particle) : R :=
  if in_soft inter then Rsum (pv 0%R (in_energy inter) pk i p) (part_list pk p) else 0%R.
Lemma energy_total pk : pgood pk -> (range <= pk_range pk)%R -> getTotalEnergy pk inter = Some (etot pk).
Proof.
  intros Hg Hr. unfold getTotalEnergy, etot. destruct (in_soft inter); simpl; auto. unfold total_list.
  destruct (pk_ng pk) as [g|] eqn:E.
  - rewrite (grid_energy_value pk inter Hg g E). f_equal. apply Rsum_ext. intros x Hx. eapply cellr_tv; eauto.
    + apply en_follows.
    + apply en_range.
  - apply (all_pairs_energy_value pk inter Hg (pk_parts pk) 0 E). reflexivity.
Qed.
Lemma energy_part pk i p : pgood pk -> part_good pk p -> i < pk_size pk -> calculateParticleEnergy pk inter i p = Some (epart pk i p).
Proof.
  intros Hg Hp Hi. unfold calculateParticleEnergy, epart. destruct (Nat.ltb_spec i (pk_size pk)); [|lia]. simpl.
  destruct (in_soft inter); simpl; auto. apply part_energy_value; auto.
Qed.

(** What a replacement changes. *)
Lemma walls_replace pk pk' i p p' : nth_error (pk_parts pk) i = Some p -> set_nth (pk_parts pk) i p' = Some (pk_parts pk') ->
  pk_k pk' = pk_k pk -> pk_box pk' = pk_box pk -> pk_wall pk' = pk_wall pk ->
  walls pk' inter false + wallv pk inter false p = walls pk inter false + wallv pk inter false p'.
Proof.
  intros Hi Hs E1 E2 E3. unfold walls. rewrite (esum_ext false (wallv pk' inter false) (wallv pk inter false)).
  2: { intros; apply wallv_same; auto. }
  revert Hs Hi. generalize (pk_parts pk'). generalize (pk_parts pk). intros l. revert i. clear.
  induction l as [|q l IH]; intros [|i] l' Hs Hi; simpl in *; try discriminate.
  - injection Hs as <-. injection Hi as ->. simpl. lia.
  - destruct (set_nth l i p') as [l2|] eqn:E; [|discriminate]. injection Hs as <-. simpl. specialize (IH i l2 E Hi). lia.
Qed.
Lemma count_replace pk pk' i p p' : pgood pk -> pgood pk' -> (range <= pk_range pk)%R -> part_good pk p -> part_good pk p' ->
  nth_error (pk_parts pk) i = Some p -> replaced pk pk' i p' -> pk_wall pk' = pk_wall pk ->
  tot pk' inter + walls pk' inter false + (part pk inter i p + wallv pk inter false p) =
  tot pk inter + walls pk inter false + (part pk inter i p' + wallv pk inter false p').
Proof.
  intros Hg Hg' Hr Hp Hp' Hi H Hw.
  pose proof (delta_sum (wgt inter) wov range wgt_follows wov_sym wov_range pk pk' i p p' Hg Hg' Hr Hp Hp' Hi H) as D.
  rewrite <- !INR_tot, <- !INR_part in D.
  assert (D' : tot pk' inter + part pk inter i p = tot pk inter + part pk inter i p').
  { apply INR_eq. rewrite !plus_INR. lra. }
  pose proof H as (E2 & E1 & _ & _ & _ & Hs). pose proof (walls_replace pk pk' i p p' Hi Hs E1 E2 Hw). lia.
Qed.
Lemma energy_replace pk pk' i p p' : pgood pk -> pgood pk' -> (range <= pk_range pk)%R -> part_good pk p -> part_good pk p' ->
  nth_error (pk_parts pk) i = Some p -> replaced pk pk' i p' ->
  (etot pk' - etot pk = epart pk i p' - epart pk i p)%R.
Proof.
  intros Hg Hg' Hr Hp Hp' Hi H. unfold etot, epart. destruct (in_soft inter); [|lra].
  apply (delta_sum (in_energy inter) en range en_follows en_sym en_range pk pk' i p p' Hg Hg' Hr Hp Hp' Hi H).
Qed.
End Lawful.
