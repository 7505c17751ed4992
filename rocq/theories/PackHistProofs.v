(** Preservation of the invariant by set-up, scaling, renormalisation; histories. *)
From Coq Require Import Reals ZArith List Bool Lia Lra Permutation.
From Verif Require Import GeomModel BoxModel BoxSpec RFloorModel PbcModel PbcSpec PbcTotalModel NGModel NGSpec GeomProofs BoxProofs RFloorProofs PbcProofs NGListProofs NGGeomProofs NGProofs.
From Verif Require Import PackModel PackSpec PackSumProofs NGPairProofs PackGridProofs PackCountProofs PackTotalProofs PackProofs PackInvProofs.
Import ListNotations.
Open Scope nat_scope.

Lemma in_box_test b p : in_box b p <-> (let r := absoluteToRelative b p in
  coord_in_box (vx r) && coord_in_box (vy r) && coord_in_box (vz r) = true).
Proof.
  cbv zeta. rewrite !andb_true_iff. unfold coord_in_box.
  assert (T : forall r, negb (Rltb r 0) && negb (Rleb 1 r) = true <-> (0 <= r < 1)%R).
  { intros r. rewrite andb_true_iff, !negb_true_iff, Rltb_false, Rleb_false. lra. }
  rewrite !T. unfold in_box. split.
  - intros H. split; [split; [apply (H AX)|apply (H AY)]|apply (H AZ)].
  - intros [[Hx Hy] Hz] a. destruct a; auto.
Qed.
Lemma within_box_test shapes b : areShapesWithinBox shapes b = true <-> forall s, In s shapes -> in_box b (sh_pos s).
Proof.
  unfold areShapesWithinBox. rewrite forallb_forall. split; intros H s Hs.
  - apply in_box_test. exact (H s Hs).
  - apply (proj1 (in_box_test b (sh_pos s))). auto.
Qed.
Lemma volume_nonzero b : valid_box b -> Reqb (box_volume b) 0 = false.
Proof.
  intros H. apply Reqb_false. intros E. pose proof (volume_pos b H). lra.
Qed.

Section Hist.
Variables (inter : interaction) (ov : law bool) (en : law R).
Hypothesis HL : lawful inter ov en.
Notation range := (in_rangeRadius inter).
Notation inv := (inv inter).


Lemma range_pos : (0 < range)%R. Proof. apply HL. Qed.

(** *** Set-up *)
Lemma setup_parts_inv b centres parts : (forall p, In p parts -> in_box b (pt_pos p)) -> Forall (part_inv b centres) (setup_parts b centres parts).
Proof.
  intros H. apply Forall_forall. intros p Hp. apply in_map_iff in Hp. destruct Hp as (q & <- & Hq). split; [|split]; try reflexivity. exact (H q Hq).
Qed.
Lemma setup_spec pk : valid_box (pk_box pk) -> 0 < pk_size pk -> few_enough (pk_size pk) ->
  (forall p, In p (pk_parts pk) -> in_box (pk_box pk) (pt_pos p)) ->
  let total := sites_of (length (in_centres inter)) * pk_size pk in
  grid_shaped total (pk_ng pk) -> grid_shaped total (pk_tempNg pk) ->
  (in_hard inter = false -> Forall (fun tm => tm_delta tm = 0%Z) (pk_temps pk)) ->
  exists pk', setupForInteraction inter pk = Some pk' /\ inv pk' /\ shapes_of pk' = shapes_of pk /\
    pk_box pk' = pk_box pk /\ pk_wall pk' = pk_wall pk /\ pk_counting pk' = pk_counting pk /\ pk_temps pk' = pk_temps pk.
Proof.
  intros Hv Hn Hf Hin total Hg Ht Hd. unfold setupForInteraction.
  set (pk1 := Packing _ _ _ _ _ _ _ _ _ _ _ _ _).
  assert (Hsz : pk_size pk1 = pk_size pk) by (unfold pk_size; simpl; apply map_length).
  pose proof (setup_parts_inv (pk_box pk) (in_centres inter) (pk_parts pk) Hin) as Hp.
  destruct (parts_sites inter pk1 Hv eq_refl Hp) as [P1 P2].
  destruct (rebuild_spec pk1) as (og & E & Hog); auto; try (rewrite Hsz; auto).
  { apply range_pos. }
  cbv zeta. rewrite E. cbn [obind]. set (pk2 := set_ng pk1 og) in *.
  assert (Hg2 : pgood pk2) by (split; auto).
  destruct (count_total inter ov en HL pk2 false Hg2 (Rle_refl _)) as (n & En & Hnn & _).
  assert (Hsh : shapes_of pk2 = shapes_of pk).
  { unfold shapes_of. simpl. unfold setup_parts. rewrite map_map. apply map_ext. auto. }
  change (pk_counting pk2) with (pk_counting pk). destruct (pk_counting pk) eqn:C.
  - rewrite En. cbn [obind]. eexists. split; [reflexivity|]. split; auto. constructor; auto; try (unfold total in *; rewrite <- Hsz in *; assumption).
    + intros _. simpl. f_equal. apply Hnn. auto.
  - eexists. split; [reflexivity|]. split; auto. constructor; auto; try (unfold total in *; rewrite <- Hsz in *; assumption).
    + simpl. congruence.
Qed.
Lemma map_shape_parts shapes : map pt_shape (map (fun s => Particle s [] []) shapes) = shapes.
Proof. rewrite map_map. apply map_id. Qed.
Lemma reset_spec pk shapes b : valid_box b -> shapes <> [] -> few_enough (length shapes) ->
  (forall s, In s shapes -> in_box b (sh_pos s)) ->
  let total := sites_of (length (in_centres inter)) * length shapes in
  grid_shaped total (pk_ng pk) -> grid_shaped total (pk_tempNg pk) ->
  (in_hard inter = false -> Forall (fun tm => tm_delta tm = 0%Z) (pk_temps pk)) ->
  exists pk', pk_reset shapes b inter pk = Some pk' /\ inv pk' /\ shapes_of pk' = shapes /\
    pk_box pk' = b /\ pk_wall pk' = pk_wall pk /\ pk_counting pk' = pk_counting pk /\ pk_temps pk' = pk_temps pk.
Proof.
  intros Hv Hne Hf Hin total Hg Ht Hd. unfold pk_reset. unfold total in *. clear total. rewrite (volume_nonzero b Hv).
  assert (E : Rltb 0 range = true) by (apply Rltb_true, range_pos). rewrite E. cbn [negb].
  assert (Ew : areShapesWithinBox shapes b = true) by (apply within_box_test; auto). rewrite Ew. cbn [negb].
  replace (match shapes with [] => None | _ :: _ => setupForInteraction inter (Packing b (map (fun s => Particle s [] []) shapes) (pk_temps pk) (pk_k pk)
    (in_rangeRadius inter) (pk_ng pk) (pk_tempNg pk) (pk_counting pk) (pk_overlaps pk) (pk_lastBox pk) (pk_lastShapes pk) (pk_lastOverlaps pk)
    (pk_wall pk)) end) with (setupForInteraction inter (Packing b (map (fun s => Particle s [] []) shapes) (pk_temps pk) (pk_k pk)
    (in_rangeRadius inter) (pk_ng pk) (pk_tempNg pk) (pk_counting pk) (pk_overlaps pk) (pk_lastBox pk) (pk_lastShapes pk) (pk_lastOverlaps pk)
    (pk_wall pk))) by (destruct shapes; [congruence|reflexivity]).
  set (pk0 := Packing _ _ _ _ _ _ _ _ _ _ _ _ _).
  assert (Hsz : pk_size pk0 = length shapes) by (unfold pk_size; simpl; apply map_length).
  destruct (setup_spec pk0) as (pk' & E' & Hi & Hs & Hr); auto; try (rewrite Hsz; auto).
  - destruct shapes; [congruence|simpl; lia].
  - intros p Hp. apply in_map_iff in Hp. destruct Hp as (s & <- & Hs). apply Hin; auto.
  - exists pk'. split; auto. split; auto. split; auto. rewrite Hs. apply map_shape_parts.
Qed.
Lemma new_spec threads shapes b : legal_start b inter shapes ->
  exists pk, pk_new threads shapes b inter = Some pk /\ inv pk /\ shapes_of pk = shapes /\ pk_box pk = b /\
    pk_wall pk = (fun _ => false) /\ pk_counting pk = false /\ length (pk_temps pk) = threads.
Proof.
  intros (Hb & Hne & Hin & Hf). apply constructed_valid in Hb.
  destruct (reset_spec (pk_empty threads b) shapes b) as (pk & E & Hi & Hs & Hbx & Hw & Hc & Ht); auto.
  - exact I.
  - exact I.
  - intros _. apply Forall_forall. intros x Hx. apply repeat_spec in Hx. subst. auto.
  - exists pk. split; auto. split; auto. split; auto. split; auto. split; auto. split; auto. rewrite Ht. apply repeat_length.
Qed.

(** *** Counting and walls *)
Lemma counting_spec on pk : inv pk -> exists pk', toggleOverlapCounting on inter pk = Some pk' /\ inv pk' /\
  pk_parts pk' = pk_parts pk /\ pk_box pk' = pk_box pk /\ pk_wall pk' = pk_wall pk /\ pk_counting pk' = on /\ pk_temps pk' = pk_temps pk /\
  pk_ng pk' = pk_ng pk.
Proof.
  intros Hi. pose proof (inv_pgood inter pk Hi) as Hg. unfold toggleOverlapCounting. destruct on; cbv zeta.
  - destruct (count_total inter ov en HL (set_counting pk true) false Hg (inv_range inter pk Hi)) as (n & En & Hnn & _).
    rewrite En. cbn [obind]. eexists. split; [reflexivity|]. split; [|auto 10]. destruct Hi; constructor; auto. intros _. simpl. f_equal. apply Hnn; auto.
  - eexists. split; [reflexivity|]. split; [|auto 10]. destruct Hi; constructor; auto. discriminate.
Qed.
Lemma wall_spec a present pk : inv pk -> pk_counting pk = false -> inv (toggleWall a present pk).
Proof. intros [] C. constructor; auto. simpl. congruence. Qed.

(** *** Scaling *)
Definition scaling_result (pk pk' : packing) : energy :=
  let c0 := tot pk inter + walls pk inter false in
  let c1 := tot pk' inter + walls pk' inter false in
  let soft := Fin (etot inter pk' - etot inter pk)%R in
  if negb (in_hard inter) then soft
  else if pk_counting pk then (if c1 <? c0 then NegInf else if c0 <? c1 then PosInf else soft)
  else if in_convex inter && isBoxUpscaled (pk_box pk) (pk_box pk') then soft
  else if 0 <? c1 then PosInf else soft.

Lemma rescaled_in_box b b' s : valid_box b' -> in_box b (sh_pos s) -> in_box b' (sh_pos (rescaled b b' s)).
Proof. intros Hv H a. simpl. rewrite rel_abs by auto. apply H. Qed.
Lemma recalc_parts b b' centres parts : valid_box b' -> Forall (part_inv b centres) parts ->
  Forall (part_inv b' centres) (recalculate_all b' (map (fun p => Particle (rescaled b b' (pt_shape p)) (pt_rel p) (pt_abs p)) parts)).
Proof.
  intros Hv H. rewrite Forall_forall in *. intros p Hp. apply in_map_iff in Hp. destruct Hp as (q & <- & Hq).
  apply in_map_iff in Hq. destruct Hq as (p & <- & Hp). destruct (H p Hp) as (H1 & H2 & H3). split; [|split; auto].
  apply (rescaled_in_box b b' (pt_shape p)); auto.
Qed.
Lemma restore_parts b centres parts parts' : Forall (part_inv b centres) parts -> length parts' = length parts ->
  (forall i p p', nth_error parts i = Some p -> nth_error parts' i = Some p' -> pt_rel p' = pt_rel p) ->
  recalculate_all b (map (fun ps : particle * shape => Particle (snd ps) (pt_rel (fst ps)) (pt_abs (fst ps))) (combine parts' (map pt_shape parts))) = parts.
Proof.
  revert parts'. induction parts as [|p parts IH]; intros [|p' parts'] H Hl He; simpl in *; try discriminate; auto.
  inversion H as [|? ? (H1 & H2 & H3) Hf]; subst. f_equal.
  - unfold pt_pos. simpl. pose proof (He 0 p p' eq_refl eq_refl) as Er. rewrite Er. fold (pt_pos p). rewrite <- H3. destruct p; auto.
  - apply IH; auto. intros i. apply (He (S i)).
Qed.
Lemma scaling_spec newBox pk : inv pk -> valid_box newBox -> exists pk' e,
  tryScaling newBox inter pk = Some (pk', e) /\ inv pk' /\ e = scaling_result pk pk' /\ pk_box pk' = newBox /\
  shapes_of pk' = map (rescaled (pk_box pk) newBox) (shapes_of pk) /\
  pk_wall pk' = pk_wall pk /\ pk_counting pk' = pk_counting pk /\ pk_temps pk' = pk_temps pk /\
  inv (revertScaling pk') /\ pk_box (revertScaling pk') = pk_box pk /\ pk_parts (revertScaling pk') = pk_parts pk /\
  pk_ng (revertScaling pk') = pk_ng pk /\ pk_overlaps (revertScaling pk') = pk_overlaps pk /\
  pk_wall (revertScaling pk') = pk_wall pk /\ pk_counting (revertScaling pk') = pk_counting pk /\ pk_temps (revertScaling pk') = pk_temps pk.
Proof.
  intros Hi Hv. pose proof (inv_pgood inter pk Hi) as Hg. unfold tryScaling. rewrite (volume_nonzero newBox Hv).
  assert (Er : Rleb range (pk_range pk) = true) by (apply Rleb_true, inv_range; auto). rewrite Er. cbn [negb].
  rewrite (energy_total inter ov en HL pk Hg (inv_range inter pk Hi)). cbn [obind]. cbv zeta.
  set (pk1 := Packing _ _ _ _ _ _ _ _ _ _ _ _ _).
  assert (Hsz : pk_size pk1 = pk_size pk) by (unfold pk_size; simpl; unfold recalculate_all; rewrite !map_length; auto).
  pose proof (recalc_parts (pk_box pk) newBox (in_centres inter) (pk_parts pk) Hv (i_parts _ _ Hi)) as Hp.
  destruct (parts_sites inter pk1 Hv (i_k _ _ Hi) Hp) as [P1 P2].
  destruct (rebuild_spec pk1) as (og & E & Hog); auto; try (rewrite Hsz; apply Hi).
  { simpl. rewrite (i_range _ _ Hi). apply range_pos. }
  rewrite E. cbn [obind]. set (pk2 := set_ng pk1 og) in *.
  assert (Hg2 : pgood pk2) by (split; auto).
  assert (Hr2 : (range <= pk_range pk2)%R) by (apply (inv_range inter pk Hi)).
  assert (Hng : grid_shaped (sites_total pk) (pk_ng pk)).
  { pose proof (i_ng _ _ Hi) as Hn. destruct (pk_ng pk); [|exact I]. apply grid_holds_shaped in Hn. rewrite (pgood_length pk Hg) in Hn. auto. }
  assert (Hst : sites_total pk2 = sites_total pk) by (unfold sites_total; change (pk_size pk2) with (pk_size pk1); rewrite Hsz; reflexivity).
  assert (Hng2 : grid_shaped (sites_total pk) og).
  { destruct og as [g|]; [|exact I]. apply grid_holds_shaped in Hog. rewrite <- Hst. rewrite <- (pgood_length pk2 Hg2). exact Hog. }
  assert (Hsh : shapes_of pk2 = map (rescaled (pk_box pk) newBox) (shapes_of pk)).
  { unfold shapes_of. simpl. unfold recalculate_all. rewrite !map_map. apply map_ext. auto. }
  assert (I2 : forall x, (pk_counting pk = true -> x = Z.of_nat (tot pk2 inter + walls pk2 inter false)) -> inv (set_overlaps pk2 x)).
  { intros x Hx. constructor; auto; try apply Hi; try (change (pk_size (set_overlaps pk2 x)) with (pk_size pk1); rewrite Hsz; apply Hi).
    change (sites_total (set_overlaps pk2 x)) with (sites_total pk2). rewrite Hst. exact Hng. }
  assert (Hrev : forall x, let r := revertScaling (set_overlaps pk2 x) in
     inv r /\ pk_box r = pk_box pk /\ pk_parts r = pk_parts pk /\ pk_ng r = pk_ng pk /\ pk_overlaps r = pk_overlaps pk /\
     pk_wall r = pk_wall pk /\ pk_counting r = pk_counting pk /\ pk_temps r = pk_temps pk).
  { intros x r.
    assert (Ep : pk_parts r = pk_parts pk).
    { unfold r. simpl. apply restore_parts with (centres := in_centres inter); [apply Hi| |].
      - unfold recalculate_all. rewrite !map_length. auto.
      - intros i p p' H1 H2. unfold recalculate_all in H2. rewrite map_map in H2. rewrite nth_error_map, H1 in H2. injection H2 as <-. auto. }
    split; [|auto 10].
    assert (Hs' : pk_size r = pk_size pk) by (unfold pk_size; rewrite Ep; auto).
    constructor; rewrite ?Ep, ?Hs'; try apply Hi.
    - unfold sites_total. rewrite Hs'. exact Hng2.
    - intros C. change (pk_overlaps r) with (pk_overlaps pk). rewrite (i_count _ _ Hi C). f_equal.
      assert (tot r inter = tot pk inter).
      { replace r with (Packing (pk_box pk) (pk_parts pk) (pk_temps pk) (pk_k pk) (pk_range pk) (pk_ng pk) og (pk_counting pk) (pk_overlaps pk)
          (pk_box pk) (map pt_shape (pk_parts pk)) (pk_overlaps pk) (pk_wall pk)); [reflexivity|].
        rewrite <- Ep at 1. reflexivity. }
      assert (walls r inter false = walls pk inter false).
      { unfold walls. rewrite Ep. apply esum_ext. intros p _. apply wallv_same; auto. }
      lia. }
  pose proof (energy_total inter ov en HL pk2 Hg2 Hr2) as Een.
  assert (E3 : forall x, getTotalEnergy (set_overlaps pk2 x) inter = Some (etot inter pk2)) by (intros x; exact (energy_total inter ov en HL (set_overlaps pk2 x) Hg2 Hr2)).
  unfold scaling_result. destruct (in_hard inter) eqn:Hh; cbn [negb].
  2: { rewrite Een. cbn [obind]. exists pk2. eexists. split; [reflexivity|].
       split. { apply (I2 (pk_overlaps pk)). intros C. rewrite (i_count _ _ Hi C), !(no_hard_tot inter ov en HL _ Hh). auto. }
       split; auto. split; [reflexivity|]. split; [exact Hsh|]. split; [reflexivity|]. split; [reflexivity || exact C || (simpl; auto)|]. split; [reflexivity|]. apply (Hrev (pk_overlaps pk)). }
  change (pk_counting pk2) with (pk_counting pk). destruct (pk_counting pk) eqn:C.
  - destruct (count_total inter ov en HL pk2 false Hg2 Hr2) as (n & En & Hnn & _). rewrite En. cbn [obind]. specialize (Hnn eq_refl).
    change (pk_lastOverlaps pk2) with (pk_overlaps pk). rewrite (i_count _ _ Hi C). rewrite E3. cbn [obind].
    exists (set_overlaps pk2 (Z.of_nat n)).
    assert (R : exists e, (if (Z.of_nat n - Z.of_nat (tot pk inter + walls pk inter false) <? 0)%Z then Some (set_overlaps pk2 (Z.of_nat n), NegInf)
       else if (0 <? Z.of_nat n - Z.of_nat (tot pk inter + walls pk inter false))%Z then Some (set_overlaps pk2 (Z.of_nat n), PosInf)
       else Some (set_overlaps pk2 (Z.of_nat n), Fin (etot inter pk2 - etot inter pk))) = Some (set_overlaps pk2 (Z.of_nat n), e) /\
       e = if tot pk2 inter + walls pk2 inter false <? tot pk inter + walls pk inter false then NegInf
           else if tot pk inter + walls pk inter false <? tot pk2 inter + walls pk2 inter false then PosInf else Fin (etot inter pk2 - etot inter pk)%R).
    { rewrite Hnn. destruct (Z.ltb_spec (Z.of_nat (tot pk2 inter + walls pk2 inter false) - Z.of_nat (tot pk inter + walls pk inter false)) 0),
        (Nat.ltb_spec (tot pk2 inter + walls pk2 inter false) (tot pk inter + walls pk inter false)); try lia; [eauto|].
      destruct (Z.ltb_spec 0 (Z.of_nat (tot pk2 inter + walls pk2 inter false) - Z.of_nat (tot pk inter + walls pk inter false))),
        (Nat.ltb_spec (tot pk inter + walls pk inter false) (tot pk2 inter + walls pk2 inter false)); try lia; eauto. }
    destruct R as (e & R1 & R2). exists e. split; [exact R1|]. split; [apply I2; rewrite Hnn; auto|]. split; [exact R2|].
    split; [reflexivity|]. split; [exact Hsh|]. split; [reflexivity|]. split; [reflexivity || exact C || (simpl; auto)|]. split; [reflexivity|]. rewrite <- (i_count _ _ Hi C). apply (Hrev (Z.of_nat n)).
  - assert (Hi2 : inv pk2) by (apply (I2 (pk_overlaps pk)); congruence).
    destruct (count_total inter ov en HL pk2 true Hg2 Hr2) as (n & En & _ & Hnn). rewrite En, Een. cbn [obind].
    change (pk_lastBox pk2) with (pk_box pk). exists pk2.
    assert (R : exists e, (if in_convex inter && isBoxUpscaled (pk_box pk) (pk_box pk2) then Some (pk2, Fin (etot inter pk2 - etot inter pk))
        else if 0 <? n then Some (pk2, PosInf) else Some (pk2, Fin (etot inter pk2 - etot inter pk))) = Some (pk2, e) /\
        e = if in_convex inter && isBoxUpscaled (pk_box pk) (pk_box pk2) then Fin (etot inter pk2 - etot inter pk)%R
            else if 0 <? tot pk2 inter + walls pk2 inter false then PosInf else Fin (etot inter pk2 - etot inter pk)%R).
    { destruct (in_convex inter && isBoxUpscaled (pk_box pk) (pk_box pk2)); [eauto|].
      destruct (Nat.ltb_spec 0 n), (Nat.ltb_spec 0 (tot pk2 inter + walls pk2 inter false)); try lia; eauto. }
    destruct R as (e & R1 & R2). exists e. split; [exact R1|]. split; [exact Hi2|]. split; [exact R2|].
    split; [reflexivity|]. split; [exact Hsh|]. split; [reflexivity|]. split; [reflexivity || exact C || (simpl; auto)|]. split; [reflexivity|]. apply (Hrev (pk_overlaps pk)).
Qed.

(** *** Renormalisation *)
Definition fixed_part (pk : packing) (p : particle) : particle :=
  let rot := fixRotationMatrix (pt_rot p) in
  let rel := map (mvec rot) (in_centres inter) in
  Particle (Shape (pt_pos p) rot) rel (absolute_centres (pk_box pk) (pt_pos p) rel).
Definition refused (pk : packing) (i : nat) (p : particle) : bool :=
  in_hard inter && (if pk_counting pk then new_count inter pk i p <? new_count inter pk i (fixed_part pk p)
                    else 0 <? new_count inter pk i (fixed_part pk p)).
Lemma renormalize_one_spec th i pk p : inv pk -> nth_error (pk_parts pk) i = Some p -> th < length (pk_temps pk) ->
  exists pk', renormalize_one th inter i pk = Some (pk', refused pk i p) /\ inv pk' /\
    pk_box pk' = pk_box pk /\ pk_wall pk' = pk_wall pk /\ pk_counting pk' = pk_counting pk /\ length (pk_temps pk') = length (pk_temps pk) /\
    pk_size pk' = pk_size pk /\
    (if refused pk i p then exists temps, pk' = set_temps pk temps
     else replaced pk pk' i (fixed_part pk p)).
Proof.
  intros Hi Hp Hth. unfold renormalize_one. rewrite Hp. cbn [obind].
  destruct (nth_error (pk_temps pk) th) as [tm|] eqn:Ht; [|apply nth_error_None in Ht; lia]. cbn [obind]. cbv zeta.
  fold (fixed_part pk p). set (q := fixed_part pk p).
  assert (Hq : part_inv (pk_box pk) (in_centres inter) q).
  { destruct (inv_part inter pk i p Hi Hp) as (H1 & _). split; [|split]; auto. }
  destruct (set_nth_Some (pk_temps pk) th (Temp i (tm_delta tm) q) Hth) as (temps1 & E1). rewrite E1. cbn [obind].
  assert (D : in_hard inter = false -> tm_delta tm = 0%Z).
  { intros Hh. pose proof (i_delta _ _ Hi Hh) as Hd. rewrite Forall_forall in Hd. apply Hd. eapply nth_error_In; eauto. }
  assert (Hi1 : inv (set_temps pk temps1)).
  { apply inv_temps; auto. intros Hh. eapply set_nth_forall; [apply (i_delta _ _ Hi Hh)| |exact E1]. cbn [tm_delta]. auto. }
  destruct (move_overlap inter (set_temps pk temps1) i p q (tm_delta tm) Hi1 Hp Hq) as (e & Ee & Ef).
  rewrite Ee. cbn [obind fst snd].
  change (move_result inter (set_temps pk temps1) i p q (tm_delta tm)) with (move_result inter pk i p q (tm_delta tm)) in *.
  set (r := move_result inter pk i p q (tm_delta tm)) in *.
  destruct (set_nth_Some (pk_temps pk) th (Temp i (snd r) q) Hth) as (temps2 & E2). rewrite E2. cbn [obind].
  assert (Hl2 : length temps2 = length (pk_temps pk)) by (eapply set_nth_length; eauto).
  assert (Hi2 : inv (set_temps pk temps2)).
  { apply inv_temps; auto. intros Hh. eapply set_nth_forall; [apply (i_delta _ _ Hi Hh)| |exact E2]. cbn [tm_delta].
    unfold r. eapply delta_kept; eauto. }
  assert (Hrr : refused pk i p = match e with PosInf => true | _ => false end).
  { assert (X : refused pk i p = match fst r with PosInf => true | _ => false end).
    { unfold refused, r, move_result. fold q. destruct (in_hard inter); cbn [negb andb fst]; auto. destruct (pk_counting pk); cbn [fst].
      - destruct (Nat.ltb_spec (new_count inter pk i p) (new_count inter pk i q)), (Z.ltb_spec (Z.of_nat (new_count inter pk i q) - Z.of_nat (new_count inter pk i p)) 0);
          try lia; auto; destruct (Z.ltb_spec 0 (Z.of_nat (new_count inter pk i q) - Z.of_nat (new_count inter pk i p))); try lia; auto.
      - destruct (0 <? _); auto. }
    rewrite X, Ef. destruct e; auto. }
  assert (Acc : exists pk', acceptRotation th (set_temps pk temps2) = Some pk' /\ inv pk' /\ pk_box pk' = pk_box pk /\ pk_wall pk' = pk_wall pk /\
     pk_counting pk' = pk_counting pk /\ length (pk_temps pk') = length (pk_temps pk) /\ pk_size pk' = pk_size pk /\
     replaced pk pk' i q).
  { unfold acceptRotation. cbn [pk_temps set_temps pk_parts]. rewrite (set_nth_get _ _ _ _ th E2), Nat.eqb_refl. cbn [obind tm_last].
    rewrite Hp. cbn [obind tm_part tm_delta].
    change (Particle (Shape (pt_pos p) (pt_rot q)) (pt_rel q) (pt_abs q)) with q.
    destruct (replace_spec inter ov en HL (set_temps pk temps2) (negb (pk_k (set_temps pk temps2) =? 0)) i p q (snd r) Hi2 Hp Hq)
      as (pk' & E & Hrep & Hi' & Hw & Hc & Htm & Hb & _).
    - intros Hk. split; [|reflexivity]. destruct (Nat.eqb_spec (pk_k (set_temps pk temps2)) 0); auto; discriminate.
    - intros C. unfold r, move_result. change (pk_counting (set_temps pk temps2)) with (pk_counting pk) in C. rewrite C.
      destruct (in_hard inter) eqn:Hh; [reflexivity|]. cbn [negb snd].
      change (new_count inter (set_temps pk temps2)) with (new_count inter pk).
      rewrite !(no_hard_part inter ov en HL pk i _ Hh). rewrite (D eq_refl). auto.
    - exists pk'. split; auto. split; auto. split; auto. split; auto. split; auto. split; [rewrite Htm; auto|].
      split; [apply (replaced_size _ _ _ _ Hrep)|]. exact Hrep. }
  rewrite Hrr. destruct e.
  - destruct Acc as (pk' & -> & Ha). cbn [obind]. exists pk'. split; [reflexivity|]. tauto.
  - destruct Acc as (pk' & -> & Ha). cbn [obind]. exists pk'. split; [reflexivity|]. tauto.
  - exists (set_temps pk temps2). split; [reflexivity|]. split; [exact Hi2|]. simpl. repeat (split; [auto|]). eauto.
Qed.
Definition fixed_shape (s : shape) : shape := Shape (sh_pos s) (fixRotationMatrix (sh_rot s)).
Lemma renormalize_count pk pk' i p : inv pk -> inv pk' -> nth_error (pk_parts pk) i = Some p -> pk_wall pk' = pk_wall pk ->
  refused pk i p = false -> replaced pk pk' i (fixed_part pk p) ->
  tot pk' inter + walls pk' inter false <= tot pk inter + walls pk inter false.
Proof.
  intros Hi Hi' Hp Hw Hr Hrep.
  assert (Hq : part_inv (pk_box pk) (in_centres inter) (fixed_part pk p)).
  { destruct (inv_part inter pk i p Hi Hp) as (H1 & _). split; [|split]; auto. }
  pose proof (count_replace inter ov en HL pk pk' i p (fixed_part pk p) (inv_pgood inter pk Hi) (inv_pgood inter pk' Hi') (inv_range inter pk Hi)
    (part_inv_good inter pk p Hi (inv_part inter pk i p Hi Hp)) (part_inv_good inter pk _ Hi Hq) Hp Hrep Hw) as E.
  fold (new_count inter pk i p) (new_count inter pk i (fixed_part pk p)) in E.
  unfold refused in Hr. destruct (in_hard inter) eqn:Hh; cbn [andb] in Hr.
  - destruct (pk_counting pk); apply Nat.ltb_ge in Hr; lia.
  - rewrite !(no_hard_part inter ov en HL pk i _ Hh) in E. lia.
Qed.
Lemma replaced_shapes pk pk' i q j : replaced pk pk' i q ->
  nth_error (shapes_of pk') j = if Nat.eqb j i then Some (pt_shape q) else nth_error (shapes_of pk) j.
Proof.
  intros (_ & _ & _ & _ & _ & H). unfold shapes_of. rewrite !nth_error_map, (set_nth_get _ _ _ _ j H).
  destruct (Nat.eqb j i); auto.
Qed.
Definition renormalized (is bad : list nat) (pk pk' : packing) : Prop :=
  forall i s, nth_error (shapes_of pk) i = Some s ->
    (In i is -> ~ In i bad -> nth_error (shapes_of pk') i = Some (fixed_shape s)) /\
    (~ In i is \/ In i bad -> nth_error (shapes_of pk') i = Some s).
Lemma renormalize_loop_spec th is : forall pk, inv pk -> th < length (pk_temps pk) -> (forall i, In i is -> i < pk_size pk) -> NoDup is ->
  exists pk' bad, renormalize_loop th inter is pk = Some (pk', length bad) /\ inv pk' /\ pk_box pk' = pk_box pk /\ pk_wall pk' = pk_wall pk /\
    pk_counting pk' = pk_counting pk /\ length (pk_temps pk') = length (pk_temps pk) /\ pk_size pk' = pk_size pk /\
    (forall i, In i bad -> In i is) /\ NoDup bad /\ (in_hard inter = false -> bad = []) /\ renormalized is bad pk pk' /\
    tot pk' inter + walls pk' inter false <= tot pk inter + walls pk inter false.
Proof.
  induction is as [|i is IH]; intros pk Hi Hth His Hnd; simpl.
  { exists pk, []. unfold renormalized. simpl. intuition auto. }
  destruct (nth_error (pk_parts pk) i) as [p|] eqn:Hp.
  2: { apply nth_error_None in Hp. pose proof (His i (or_introl eq_refl)). unfold pk_size in *. lia. }
  inversion Hnd as [|? ? Hni Hnd']; subst.
  destruct (renormalize_one_spec th i pk p Hi Hp Hth) as (pk1 & -> & Hi1 & E1 & E2 & E3 & E4 & E5 & E6). cbn [obind fst snd].
  destruct (IH pk1) as (pk' & bad & -> & Hi' & F1 & F2 & F3 & F4 & F5 & F6 & F7 & F8 & F9 & F10); auto; try lia.
  { intros j Hj. rewrite E5. apply His. right; auto. }
  assert (Hs : nth_error (shapes_of pk) i = Some (pt_shape p)) by (unfold shapes_of; rewrite nth_error_map, Hp; auto).
  cbn [obind fst snd]. exists pk', (if refused pk i p then i :: bad else bad).
  split. { f_equal. f_equal. destruct (refused pk i p); reflexivity. }
  split; auto. split; [congruence|]. split; [congruence|].
  split; [congruence|]. split; [congruence|]. split; [congruence|].
  assert (Hnb : ~ In i bad) by (intros H; apply Hni, F6, H).
  split. { intros j Hj. destruct (refused pk i p); [destruct Hj as [->|Hj]|]; auto. }
  split. { destruct (refused pk i p); auto. constructor; auto. }
  split. { intros Hh. unfold refused. rewrite Hh. auto. }
  split.
  - intros j s Hj. destruct (Nat.eq_dec j i) as [->|Hne].
    + rewrite Hs in Hj. injection Hj as <-.
      destruct (refused pk i p) eqn:Hr.
      * destruct E6 as (temps & ->). destruct (F9 i (pt_shape p)) as [G1 G2]; [exact Hs|].
        split; [intros _ H; exfalso; apply H; left; auto|]. intros _. apply G2. auto.
      * pose proof (replaced_shapes _ _ _ _ i E6) as Hsh. rewrite Nat.eqb_refl in Hsh.
        destruct (F9 i _ Hsh) as [G1 G2]. split; [intros _ _; apply G2; auto|]. intros [H|H]; [exfalso; apply H; left; auto|contradiction].
    + assert (Hj1 : nth_error (shapes_of pk1) j = Some s).
      { destruct (refused pk i p); [destruct E6 as (temps & ->); exact Hj|].
        rewrite (replaced_shapes _ _ _ _ j E6). destruct (Nat.eqb_spec j i); [contradiction|auto]. }
      destruct (F9 j s Hj1) as [G1 G2]. assert (Hb : In j (if refused pk i p then i :: bad else bad) <-> In j bad).
      { destruct (refused pk i p); [|tauto]. simpl. split; [intros [H|H]; [congruence|auto]|auto]. }
      rewrite Hb. split.
      * intros [H|H]; [congruence|auto].
      * intros [H|H]; apply G2; [left; intros H'; apply H; right; exact H'|right; exact H].
  - destruct (refused pk i p) eqn:Hr; [|etransitivity; [exact F10|apply (renormalize_count pk pk1 i p); auto]].
    destruct E6 as (temps & ->). exact F10.
Qed.
Lemma renormalize_spec th allow pk : inv pk -> th < length (pk_temps pk) ->
  exists pk' bad, renormalizeOrientations th inter allow pk = Some (pk', length bad) /\ inv pk' /\ pk_box pk' = pk_box pk /\ pk_wall pk' = pk_wall pk /\
    pk_counting pk' = pk_counting pk /\ length (pk_temps pk') = length (pk_temps pk) /\ pk_size pk' = pk_size pk /\
    (allow = true -> shapes_of pk' = shapes_of pk /\ bad = []) /\
    (allow = false -> NoDup bad /\ (in_hard inter = false -> bad = []) /\ renormalized (seq 0 (pk_size pk)) bad pk pk' /\
       tot pk' inter + walls pk' inter false <= tot pk inter + walls pk inter false).
Proof.
  intros Hi Hth. unfold renormalizeOrientations. destruct allow.
  - cbv zeta. set (pkf := set_parts pk _). pose proof (inv_pgood inter pk Hi) as Hg.
    assert (Hlen : length (map pt_shape (pk_parts pk)) = pk_size pk) by apply map_length.
    assert (Hst : sites_of (length (in_centres inter)) * pk_size pk = sites_total pk) by (unfold sites_total; rewrite (i_k _ _ Hi); auto).
    destruct (reset_spec pkf (map pt_shape (pk_parts pk)) (pk_box pk)) as (pk' & E & Hi' & Hs & Hb & Hw & Hc & Ht); try rewrite Hlen; try apply Hi.
    + intros Z. pose proof (i_size _ _ Hi) as Hz. rewrite <- Hlen, Z in Hz. simpl in Hz. lia.
    + intros s Hs. apply in_map_iff in Hs. destruct Hs as (p & <- & Hp). apply In_nth_error in Hp. destruct Hp as (i & Hp).
      apply (inv_part inter pk i p Hi Hp).
    + change (pk_ng pkf) with (pk_ng pk). rewrite Hst. pose proof (i_ng _ _ Hi) as Hn. destruct (pk_ng pk); [|exact I].
      apply grid_holds_shaped in Hn. rewrite (pgood_length pk Hg) in Hn. auto.
    + rewrite Hst. apply (i_tng _ _ Hi).
    + rewrite E. cbn [obind]. exists pk', []. split; auto. split; auto. split; auto. split; auto. split; auto. split; [rewrite Ht; auto|].
      split; [|split; [auto|discriminate]]. transitivity (length (shapes_of pk')); [unfold shapes_of; rewrite map_length; auto|rewrite Hs; exact Hlen].
  - destruct (renormalize_loop_spec th (seq 0 (pk_size pk)) pk Hi Hth) as (pk' & bad & E & H).
    { intros i H. apply in_seq in H. lia. }
    { apply seq_NoDup. }
    exists pk', bad. split; auto. destruct H as (H1 & H2 & H3 & H4 & H5 & H6 & H7 & H8 & H9 & H10 & H11).
    split; auto. split; auto. split; auto. split; auto. split; auto.
    split; auto. split; [discriminate|]. auto.
Qed.

(** *** Histories *)
Definition state_ok (n threads : nat) (pk : packing) : Prop := inv pk /\ pk_size pk = n /\ length (pk_temps pk) = threads.
Lemma run_op_ok n threads o pk : state_ok n threads pk -> legal_pack_op n threads (pk_counting pk) o ->
  exists pk', run_op inter o pk = Some pk' /\ state_ok n threads pk' /\ pk_counting pk' = counting_after o (pk_counting pk).
Proof.
  intros (Hi & Hn & Ht) Hl.
  assert (M : forall th i, op_target o = Some (th, i) -> th < threads -> i < n ->
    exists pk', match try_op inter o pk with
         | Some (pk1, e) => if passed (op_wanted o) e then accept_op o pk1 else Some (reject_op o pk1)
         | None => None
         end = Some pk' /\ state_ok n threads pk' /\ pk_counting pk' = pk_counting pk).
  { intros th i Ho H1 H2.
    destruct (nth_error (pk_parts pk) i) as [p|] eqn:Hp; [|apply nth_error_None in Hp; unfold pk_size in *; lia].
    destruct (nth_error (pk_temps pk) th) as [tm|] eqn:Htm; [|apply nth_error_None in Htm; lia].
    destruct (try_move_spec inter pk o th i p tm Hi Ho Hp Htm) as (temps & e & -> & Hi' & Hlt & He).
    assert (Hrej : reject_op o (set_temps pk temps) = set_temps pk temps) by (destruct o; try discriminate; auto).
    destruct (op_outside (pk_box pk) o p).
    - subst e. unfold passed. rewrite andb_false_r. rewrite Hrej. exists (set_temps pk temps). split; auto. split; [|auto].
      split; auto. split; auto. simpl. congruence.
    - cbv zeta in He. destruct He as [-> Hset].
      destruct (passed _ _).
      + destruct (accept_move_spec inter ov en HL pk o th i p tm temps Hi Ho Hp Htm Hset Hi') as (pk' & -> & Hrep & Hi2 & _ & Hc & Htt & _).
        exists pk'. split; auto. split; auto. split; auto. split; [rewrite (replaced_size _ _ _ _ Hrep); auto|congruence].
      + rewrite Hrej. exists (set_temps pk temps). split; auto. split; [|auto]. split; auto. split; auto. simpl. congruence. }
  destruct o; cbn [legal_pack_op] in Hl; cbn [run_op counting_after].
  - destruct Hl. apply (M thread i); auto.
  - destruct Hl. apply (M thread i); auto.
  - destruct Hl. apply (M thread i); auto.
  - clear M. apply constructed_valid in Hl. cbn [try_op op_wanted accept_op reject_op].
    destruct (scaling_spec newBox pk Hi Hl) as (pk' & e & -> & Hi' & _ & _ & Hs & _ & Hc & Htt & Hir & _ & Hpr & _ & _ & _ & Hcr & Htr).
    destruct (passed _ _).
    + exists pk'. split; auto. split; auto. split; auto. split; [|congruence].
      unfold pk_size. rewrite <- (map_length pt_shape). fold (shapes_of pk'). rewrite Hs. unfold shapes_of. rewrite !map_length. auto.
    + eexists. split; auto. split; auto. split; auto. split; [unfold pk_size; rewrite Hpr; auto|congruence].
  - clear M. destruct (counting_spec on pk Hi) as (pk' & -> & Hi' & H1 & H2 & H3 & H4 & H5 & _). exists pk'. split; auto. split; auto. split; auto.
    split; [unfold pk_size; rewrite H1; auto|congruence].
  - clear M. eexists. split; [reflexivity|]. split; [|auto]. split; [apply wall_spec; auto|]. auto.
  - clear M. destruct (renormalize_spec thread allowOverlaps pk Hi) as (pk' & m & -> & Hi' & H1 & H2 & H3 & H4 & H5 & _); [lia|].
    simpl. exists pk'. split; auto. split; auto. split; auto. split; congruence.
Qed.
Lemma run_ops_ok n threads os : forall pk, state_ok n threads pk -> legal_pack_ops n threads (pk_counting pk) os ->
  exists pk', run_ops inter os pk = Some pk' /\ state_ok n threads pk'.
Proof.
  induction os as [|o os IH]; intros pk Hok Hl; simpl in *; [eauto|]. destruct Hl as [Hl Hls].
  destruct (run_op_ok n threads o pk Hok Hl) as (pk1 & -> & Hok1 & Hc). apply IH; auto. rewrite Hc. auto.
Qed.
Lemma reachable_ok threads shapes b os pk : reachable threads shapes b inter os pk -> state_ok (length shapes) threads pk.
Proof.
  intros (Hs & Hl & pk0 & E0 & E). destruct (new_spec threads shapes b Hs) as (pk1 & E1 & Hi & Hsh & Hb & Hw & Hc & Ht).
  rewrite E1 in E0. injection E0 as <-.
  assert (Hok : state_ok (length shapes) threads pk1).
  { split; auto. split; auto. unfold pk_size. rewrite <- Hsh. unfold shapes_of. rewrite map_length. auto. }
  rewrite <- Hc in Hl. destruct (run_ops_ok (length shapes) threads os pk1 Hok Hl) as (pk' & E' & H). congruence.
Qed.
Lemma reachable_exists threads shapes b os : legal_start b inter shapes -> legal_pack_ops (length shapes) threads false os ->
  exists pk, reachable threads shapes b inter os pk.
Proof.
  intros Hs Hl. destruct (new_spec threads shapes b Hs) as (pk1 & E1 & Hi & Hsh & Hb & Hw & Hc & Ht).
  assert (Hok : state_ok (length shapes) threads pk1).
  { split; auto. split; auto. unfold pk_size. rewrite <- Hsh. unfold shapes_of. rewrite map_length. auto. }
  pose proof Hl as Hl'. rewrite <- Hc in Hl'. destruct (run_ops_ok (length shapes) threads os pk1 Hok Hl') as (pk' & E' & H).
  exists pk'. split; auto. split; auto. exists pk1. auto.
Qed.
End Hist.
