(** The invariant of a packing and its preservation by every operation. *)
From Coq Require Import Reals ZArith List Bool Lia Lra Permutation.
From Verif Require Import GeomModel BoxModel BoxSpec RFloorModel PbcModel PbcSpec PbcTotalModel NGModel NGSpec GeomProofs BoxProofs RFloorProofs PbcProofs NGListProofs NGGeomProofs NGProofs.
From Verif Require Import PackModel PackSpec PackSumProofs NGPairProofs PackGridProofs PackCountProofs PackTotalProofs PackProofs.
Import ListNotations.
Open Scope nat_scope.

Definition part_inv (b : box) (centres : list vec) (p : particle) : Prop :=
  in_box b (pt_pos p) /\ pt_rel p = map (mvec (pt_rot p)) centres /\ pt_abs p = absolute_centres b (pt_pos p) (pt_rel p).

Lemma absolute_in_box b pos rel q : valid_box b -> In q (absolute_centres b pos rel) -> in_box b q.
Proof. intros Hv H. unfold absolute_centres in H. apply in_map_iff in H. destruct H as (c & <- & _). apply correction_in_box; auto. Qed.
Lemma part_inv_sites b centres p : valid_box b -> part_inv b centres p ->
  length (sitepos (length centres) p) = sites_of (length centres) /\
  forall q, In q (sitepos (length centres) p) -> in_box b q.
Proof.
  intros Hv (H1 & H2 & H3). unfold sitepos, sites_of. destruct (Nat.eqb_spec (length centres) 0) as [Hk|Hk]; simpl.
  - split; auto. intros q [<-|[]]; auto.
  - rewrite H3. split; [unfold absolute_centres; rewrite map_length, H2, map_length; auto|]. intros q. apply absolute_in_box; auto.
Qed.

Section Inv.
Variables (inter : interaction) (ov : law bool) (en : law R).
Hypothesis HL : lawful inter ov en.
Notation range := (in_rangeRadius inter).

Record inv (pk : packing) : Prop := Inv {
  i_box : valid_box (pk_box pk);
  i_k : pk_k pk = length (in_centres inter);
  i_range : pk_range pk = range;
  i_size : 0 < pk_size pk;
  i_few : few_enough (pk_size pk);
  i_parts : Forall (part_inv (pk_box pk) (in_centres inter)) (pk_parts pk);
  i_ng : match pk_ng pk with
         | None => True
         | Some g => grid_holds (pk_box pk) (pk_range pk) (site_positions (pk_k pk) (pk_parts pk)) g
         end;
  i_tng : grid_shaped (sites_total pk) (pk_tempNg pk);
  i_count : pk_counting pk = true -> pk_overlaps pk = Z.of_nat (tot pk inter + walls pk inter false);
  i_delta : in_hard inter = false -> Forall (fun tm => tm_delta tm = 0%Z) (pk_temps pk) }.

Lemma parts_sites pk : valid_box (pk_box pk) -> pk_k pk = length (in_centres inter) ->
  Forall (part_inv (pk_box pk) (in_centres inter)) (pk_parts pk) ->
  Forall (fun p => length (sitepos (pk_k pk) p) = sites_of (pk_k pk)) (pk_parts pk) /\
  (forall p, In p (site_positions (pk_k pk) (pk_parts pk)) -> in_box (pk_box pk) p).
Proof.
  intros Hv Hk Hp. rewrite Forall_forall in Hp. rewrite Hk. split.
  - apply Forall_forall. intros p H. apply (part_inv_sites (pk_box pk)); auto.
  - intros q H. rewrite site_positions_flat in H. apply in_flat_map in H. destruct H as (p & H & Hq).
    apply (part_inv_sites (pk_box pk) (in_centres inter) p Hv (Hp p H)); auto.
Qed.
Lemma inv_pgood pk : inv pk -> pgood pk.
Proof.
  intros []. destruct (parts_sites pk i_box0 i_k0 i_parts0). split; auto.
Qed.
Lemma inv_part pk i p : inv pk -> nth_error (pk_parts pk) i = Some p -> part_inv (pk_box pk) (in_centres inter) p.
Proof. intros [] H. rewrite Forall_forall in i_parts0. apply i_parts0. eapply nth_error_In; eauto. Qed.
Lemma part_inv_good pk p : inv pk -> part_inv (pk_box pk) (in_centres inter) p -> part_good pk p.
Proof.
  intros [] H. unfold part_good. rewrite i_k0. destruct (part_inv_sites _ _ p i_box0 H). auto.
Qed.
Lemma inv_range pk : inv pk -> (range <= pk_range pk)%R.
Proof. intros []. lra. Qed.

(** No hard part: no overlaps. *)
Lemma no_hard_tot pk : in_hard inter = false -> tot pk inter + walls pk inter false = 0.
Proof.
  intros Hh. destruct HL as (F & _ & _ & _ & _ & _ & _ & H). destruct (H Hh) as [H1 H2].
  assert (A : tot pk inter = 0).
  { apply esum_zero. intros [[a b] t] _. unfold tv, rawv, ovf. destruct (_ =? _); auto. rewrite F, H1. auto. }
  assert (B : walls pk inter false = 0).
  { apply esum_zero. intros p _. apply esum_zero. intros a _. unfold wax, wall_axis_overlaps. destruct (negb _); auto. cbv zeta.
    assert (W : forall o w, wall_sites_overlaps pk inter false p o w = Some 0).
    { intros o w. unfold wall_sites_overlaps. destruct (_ =? _); [rewrite H2; auto|].
      rewrite (sum_exit_total _ _ (fun _ => 0)).
      - f_equal. apply esum_zero. auto.
      - intros x _. rewrite H2. auto. }
    rewrite !W.
    match goal with |- context [Rltb ?a ?b] => destruct (Rltb a b) end; auto.
    match goal with |- context [Rltb ?a ?b] => destruct (Rltb a b) end; auto. }
  lia.
Qed.

(** *** Tries *)
Definition new_count (pk : packing) (i : nat) (p : particle) : nat := part pk inter i p + wallv pk inter false p.
Definition move_result (pk : packing) (i : nat) (p tmp : particle) (delta : Z) : energy * Z :=
  let soft := Fin (epart inter pk i tmp - epart inter pk i p)%R in
  if negb (in_hard inter) then (soft, delta)
  else if pk_counting pk then
    let d := (Z.of_nat (new_count pk i tmp) - Z.of_nat (new_count pk i p))%Z in
    (if (d <? 0)%Z then NegInf else if (0 <? d)%Z then PosInf else soft, d)
  else (if 0 <? new_count pk i tmp then PosInf else soft, delta).

Lemma no_hard_part pk i q : in_hard inter = false -> new_count pk i q = 0.
Proof.
  intros Hh. destruct HL as (F & _ & _ & _ & _ & _ & _ & H). destruct (H Hh) as [H1 H2].
  assert (A : part pk inter i q = 0).
  { apply esum_zero. intros [[a b] t] _. unfold pv, rawv, ovf. destruct (_ =? _); auto. rewrite F, H1. auto. }
  unfold new_count. rewrite A. simpl.
  apply esum_zero. intros a _. unfold wax, wall_axis_overlaps. destruct (negb _); auto. cbv zeta.
  assert (W : forall o w, wall_sites_overlaps pk inter false q o w = Some 0).
  { intros o' w. unfold wall_sites_overlaps. destruct (_ =? _); [rewrite H2; auto|].
    rewrite (sum_exit_total _ _ (fun _ => 0)); [f_equal; apply esum_zero; auto|]. intros x _. rewrite H2. auto. }
  rewrite !W.
  match goal with |- context [Rltb ?a ?b] => destruct (Rltb a b) end; auto.
  match goal with |- context [Rltb ?a ?b] => destruct (Rltb a b) end; auto.
Qed.
Lemma inv_temps pk temps : inv pk -> (in_hard inter = false -> Forall (fun tm => tm_delta tm = 0%Z) temps) -> inv (set_temps pk temps).
Proof. intros [] H. constructor; auto. Qed.
Lemma move_overlap pk i p tmp delta : inv pk -> nth_error (pk_parts pk) i = Some p -> part_inv (pk_box pk) (in_centres inter) tmp ->
  exists e, calculateMoveOverlapEnergy pk inter i p tmp delta = Some (e, snd (move_result pk i p tmp delta)) /\
    fst (move_result pk i p tmp delta) = match e with Fin _ => Fin (epart inter pk i tmp - epart inter pk i p)%R | _ => e end.
Proof.
  intros Hi Hp Ht. pose proof (inv_pgood pk Hi) as Hg. pose proof (part_inv_good pk tmp Hi Ht) as Gt.
  pose proof (part_inv_good pk p Hi (inv_part pk i p Hi Hp)) as Gp.
  unfold calculateMoveOverlapEnergy, move_result. destruct (in_hard inter); simpl; [|eexists; split; [reflexivity|auto]].
  destruct (pk_counting pk).
  - destruct (count_part inter pk false i p Hg Gp) as (n & -> & En & _).
    destruct (count_part inter pk false i tmp Hg Gt) as (m & -> & Em & _). cbn [obind].
    rewrite (En eq_refl), (Em eq_refl). fold (new_count pk i p) (new_count pk i tmp). cbv zeta.
    eexists. split; [reflexivity|]. cbn [fst].
    destruct (_ <? 0)%Z; auto. destruct (0 <? _)%Z; auto.
  - destruct (count_part inter pk true i tmp Hg Gt) as (m & -> & _ & Em). cbn [obind].
    eexists. split; [reflexivity|]. cbn [fst]. unfold new_count.
    destruct (Nat.ltb_spec 0 m), (Nat.ltb_spec 0 (part pk inter i tmp + wallv pk inter false tmp)); auto; lia.
Qed.

Lemma set_nth_forall {A} (P : A -> Prop) l i x l' : Forall P l -> P x -> set_nth l i x = Some l' -> Forall P l'.
Proof.
  intros H Hx E. rewrite Forall_forall in *. intros y Hy. apply In_nth_error in Hy. destruct Hy as (m & Hm).
  rewrite (set_nth_get _ _ _ _ _ E) in Hm. destruct (m =? i); [congruence|]. apply H. eapply nth_error_In; eauto.
Qed.
Lemma delta_kept pk i p tmp th tm : inv pk -> nth_error (pk_temps pk) th = Some tm ->
  in_hard inter = false -> snd (move_result pk i p tmp (tm_delta tm)) = 0%Z.
Proof.
  intros Hi Ht Hh. unfold move_result. rewrite Hh. simpl. destruct Hi. specialize (i_delta0 Hh). rewrite Forall_forall in i_delta0.
  apply i_delta0. eapply nth_error_In; eauto.
Qed.
Lemma finish_try_spec pk th i p tm tmp : inv pk -> nth_error (pk_parts pk) i = Some p -> nth_error (pk_temps pk) th = Some tm ->
  part_inv (pk_box pk) (in_centres inter) tmp ->
  exists temps, finish_try pk inter th i p tmp (tm_delta tm) = Some (set_temps pk temps, fst (move_result pk i p tmp (tm_delta tm))) /\
    set_nth (pk_temps pk) th (Temp i (snd (move_result pk i p tmp (tm_delta tm))) tmp) = Some temps /\ inv (set_temps pk temps).
Proof.
  intros Hi Hp Htm Ht. pose proof (inv_pgood pk Hi) as Hg. pose proof (part_inv_good pk tmp Hi Ht) as Gt.
  pose proof (part_inv_good pk p Hi (inv_part pk i p Hi Hp)) as Gp.
  assert (Hth : th < length (pk_temps pk)) by (apply nth_error_Some; congruence).
  assert (Hsz : i < pk_size pk) by (apply nth_error_Some; congruence).
  unfold finish_try. destruct (set_nth_Some (pk_temps pk) th (Temp i (tm_delta tm) tmp) Hth) as (temps1 & E1). rewrite E1. cbn [obind].
  assert (Hi1 : inv (set_temps pk temps1)).
  { apply inv_temps; auto. intros Hh. eapply set_nth_forall; [apply (i_delta _ Hi Hh)| |exact E1]. simpl.
    pose proof (i_delta _ Hi Hh) as Hd. rewrite Forall_forall in Hd. apply Hd. eapply nth_error_In; eauto. }
  destruct (move_overlap (set_temps pk temps1) i p tmp (tm_delta tm) Hi1 Hp Ht) as (e & Ee & Ef).
  cbv zeta. rewrite Ee. cbn [obind fst snd].
  change (move_result (set_temps pk temps1) i p tmp (tm_delta tm)) with (move_result pk i p tmp (tm_delta tm)) in *.
  destruct (set_nth_Some (pk_temps pk) th (Temp i (snd (move_result pk i p tmp (tm_delta tm))) tmp) Hth) as (temps2 & E2).
  rewrite E2. cbn [obind]. exists temps2.
  assert (Hi2 : inv (set_temps pk temps2)).
  { apply inv_temps; auto. intros Hh. eapply set_nth_forall; [apply (i_delta _ Hi Hh)| |exact E2]. simpl.
    eapply delta_kept; eauto. }
  split; [|auto].
  assert (Ep : forall q, part_good pk q -> calculateParticleEnergy (set_temps pk temps2) inter i q = Some (epart inter pk i q)).
  { intros q Hq. apply (energy_part inter (set_temps pk temps2)); auto. }
  rewrite Ef. destruct e; auto. cbn [obind]. rewrite (Ep p Gp), (Ep tmp Gt). reflexivity.
Qed.

(** *** Accepting *)
Lemma replace_spec pk touch i p p' delta : inv pk -> nth_error (pk_parts pk) i = Some p -> part_inv (pk_box pk) (in_centres inter) p' ->
  (touch = false -> pk_k pk = 0 /\ pt_pos p' = pt_pos p) ->
  (pk_counting pk = true -> delta = (Z.of_nat (new_count pk i p') - Z.of_nat (new_count pk i p))%Z) ->
  exists pk', replace_particle pk touch i p p' delta = Some pk' /\ replaced pk pk' i p' /\ inv pk' /\
    pk_wall pk' = pk_wall pk /\ pk_counting pk' = pk_counting pk /\ pk_temps pk' = pk_temps pk /\
    pk_box pk' = pk_box pk /\
    tot pk' inter + walls pk' inter false + new_count pk i p = tot pk inter + walls pk inter false + new_count pk i p' /\
    (etot inter pk' - etot inter pk = epart inter pk i p' - epart inter pk i p)%R.
Proof.
  intros Hi Hp Hp' Htouch Hd. pose proof (inv_pgood pk Hi) as Hg. pose proof (part_inv_good pk p' Hi Hp') as Gt.
  pose proof (part_inv_good pk p Hi (inv_part pk i p Hi Hp)) as Gp.
  assert (Hsz : i < pk_size pk) by (apply nth_error_Some; congruence).
  destruct (set_nth_Some (pk_parts pk) i p' Hsz) as (parts & Es).
  assert (Hlen : length parts = pk_size pk) by (apply (set_nth_length _ _ _ _ Es)).
  assert (Hparts : Forall (part_inv (pk_box pk) (in_centres inter)) parts) by (eapply set_nth_forall; [apply Hi| |exact Es]; auto).
  assert (Grid : exists ong, (match pk_ng pk with
      | Some g => if touch then obind (ng_remove (particle_ids (pk_k pk) i p) g) (fun g1 => obind (ng_add (particle_ids (pk_k pk) i p') g1) (fun g2 => Some (Some g2)))
                  else Some (Some g)
      | None => Some None end) = Some ong /\ (ong = None <-> pk_ng pk = None) /\
      match ong with None => True | Some g => grid_holds (pk_box pk) (pk_range pk) (site_positions (pk_k pk) parts) g end).
  { destruct (pk_ng pk) as [g|] eqn:E; [|exists None; tauto]. pose proof (i_ng _ Hi) as Hn. rewrite E in Hn. destruct touch.
    - destruct Hg as (_ & Hf & Hin & _). destruct Gt as [G1 G2].
      destruct (replace_grid (pk_box pk) (pk_range pk) (pk_k pk) (pk_parts pk) parts i p p' g Hf G1 Hp Es Hin G2 Hn) as (g1 & g2 & -> & E2 & H).
      cbn [obind]. rewrite E2. cbn [obind]. exists (Some g2). split; auto. split; auto. split; discriminate.
    - exists (Some g). split; auto. split; [split; discriminate|]. destruct (Htouch eq_refl) as [Hk Hpos].
      assert (Esame : site_positions (pk_k pk) parts = site_positions (pk_k pk) (pk_parts pk)).
      { unfold site_positions. rewrite Hk. cbn [Nat.eqb]. apply (nth_ext _ _ vzero vzero); rewrite !map_length; auto.
        intros m _. pose proof (set_nth_get _ _ _ _ m Es) as Hm. clear Es.
        change vzero with (pt_pos (Particle (Shape vzero mid) [] [])). rewrite !map_nth.
        destruct (Nat.eqb_spec m i) as [Em|Em].
        - rewrite Em in *. rewrite (nth_error_nth _ _ _ Hm), (nth_error_nth _ _ _ Hp). auto.
        - destruct (nth_error (pk_parts pk) m) as [x|] eqn:Ex.
          + rewrite (nth_error_nth _ _ _ Hm), (nth_error_nth _ _ _ Ex). auto.
          + apply nth_error_None in Ex. apply nth_error_None in Hm. rewrite !nth_overflow by lia. auto. }
      rewrite Esame. auto. }
  destruct Grid as (ong & Eg & Hong & Hholds).
  set (pk1 := Packing (pk_box pk) parts (pk_temps pk) (pk_k pk) (pk_range pk) ong (pk_tempNg pk) (pk_counting pk) (pk_overlaps pk)
    (pk_lastBox pk) (pk_lastShapes pk) (pk_lastOverlaps pk) (pk_wall pk)).
  set (pk' := if pk_counting pk then set_overlaps pk1 (pk_overlaps pk + delta)%Z else pk1).
  assert (Er : replace_particle pk touch i p p' delta = Some pk').
  { unfold replace_particle. rewrite Es. cbn [obind]. unfold pk', pk1, set_parts, set_ng. clear Hholds Hong pk' pk1.
    destruct (pk_ng pk) as [g|].
    - destruct touch.
      + destruct (ng_remove _ g) as [g1|]; [|discriminate]. cbn [obind] in *. destruct (ng_add _ g1) as [g2|]; [|discriminate].
        cbn [obind] in *. injection Eg as <-. reflexivity.
      + injection Eg as <-. cbn [pk_counting]. reflexivity.
    - injection Eg as <-. reflexivity. }
  assert (Hrep : replaced pk pk' i p').
  { unfold replaced, pk'. destruct (pk_counting pk); simpl; auto 10. }
  assert (Hg' : pgood pk').
  { assert (Hg1 : pgood pk1).
    { destruct Hi. destruct (parts_sites pk1 i_box0 i_k0 Hparts). split; auto. }
    unfold pk'. destruct (pk_counting pk); auto. }
  assert (Hw : pk_wall pk' = pk_wall pk) by (unfold pk'; destruct (pk_counting pk); auto).
  pose proof (count_replace inter ov en HL pk pk' i p p' Hg Hg' (inv_range pk Hi) Gp Gt Hp Hrep Hw) as Hc.
  pose proof (energy_replace inter ov en HL pk pk' i p p' Hg Hg' (inv_range pk Hi) Gp Gt Hp Hrep) as He.
  exists pk'. split; auto. split; auto.
  assert (Hflds : pk_counting pk' = pk_counting pk /\ pk_temps pk' = pk_temps pk /\ pk_tempNg pk' = pk_tempNg pk /\
    pk_parts pk' = parts /\ (pk_counting pk = true -> pk_overlaps pk' = (pk_overlaps pk + delta)%Z)).
  { unfold pk'. destruct (pk_counting pk) eqn:C; simpl; rewrite ?C; auto 10. repeat split; auto; discriminate. }
  destruct Hflds as (F1 & F2 & F3 & F4 & F5).
  assert (Hsame : pk_box pk' = pk_box pk /\ pk_k pk' = pk_k pk /\ pk_range pk' = pk_range pk) by (destruct Hrep as (?&?&?&?); auto).
  destruct Hsame as (S1 & S2 & S3).
  split; [|unfold new_count; auto 10].
  pose proof (replaced_size _ _ _ _ Hrep) as Hs'. pose proof (replaced_total _ _ _ _ Hrep) as Ht'. destruct Hg' as (_ & _ & _ & Hng').
  constructor; rewrite ?S1, ?S2, ?S3, ?F3, ?F4, ?Hs', ?Ht', ?F2; try apply Hi; auto.
  - rewrite S1, S2, S3, F4 in Hng'. exact Hng'.
  - rewrite F1. intros C. rewrite (F5 C), (i_count _ Hi C), (Hd C). unfold new_count in *. lia.
Qed.
Lemma part_inv_translated b t p : valid_box b -> part_inv b (in_centres inter) p ->
  let s := translated b t (pt_shape p) in
  part_inv b (in_centres inter) (Particle s (pt_rel p) (absolute_centres b (sh_pos s) (pt_rel p))).
Proof.
  intros Hv (H1 & H2 & H3). cbv zeta. split; [|split; auto]. apply correction_in_box; auto.
Qed.
Lemma part_inv_rotated b r s rel : in_box b (sh_pos s) -> rel = map (mvec (sh_rot s)) (in_centres inter) ->
  let rel' := map (mvec r) rel in
  part_inv b (in_centres inter) (Particle (rotated r s) rel' (absolute_centres b (sh_pos (rotated r s)) rel')).
Proof.
  intros H ->. cbv zeta. split; [|split]; auto. simpl. rewrite map_map. apply map_ext. intros v. symmetry. apply mvec_mmul.
Qed.

(** A tried particle: the particle which the move would put in place of the old one. *)
Definition candidate (b : box) (o : pack_op) (p : particle) : particle :=
  match o with
  | DoTranslation _ _ t _ _ => let s := translated b t (pt_shape p) in Particle s (pt_rel p) (absolute_centres b (sh_pos s) (pt_rel p))
  | DoRotation _ _ r _ => let rel := map (mvec r) (pt_rel p) in Particle (rotated r (pt_shape p)) rel (absolute_centres b (pt_pos p) rel)
  | DoMove _ _ t r _ _ => let s := translated b t (pt_shape p) in let rel := map (mvec r) (pt_rel p) in
                        Particle (rotated r s) rel (absolute_centres b (sh_pos s) rel)
  | _ => p
  end.
Lemma candidate_inv b o p : valid_box b -> part_inv b (in_centres inter) p -> part_inv b (in_centres inter) (candidate b o p).
Proof.
  intros Hv H. destruct o; simpl; auto; destruct H as (H1 & H2 & H3).
  - apply part_inv_translated; auto. split; auto.
  - apply part_inv_rotated; auto.
  - apply part_inv_rotated; auto. apply correction_in_box; auto.
Qed.
Definition op_target (o : pack_op) : option (nat * nat) :=
  match o with
  | DoTranslation th i _ _ _ | DoRotation th i _ _ | DoMove th i _ _ _ _ => Some (th, i)
  | _ => None
  end.
(** The new position is outside the active domain. *)
Definition op_outside (b : box) (o : pack_op) (p : particle) : bool :=
  match o with
  | DoTranslation _ _ _ (Some f) _ | DoMove _ _ _ _ (Some f) _ => negb (f (pt_pos (candidate b o p)))
  | _ => false
  end.
Lemma guard_true pk i : inv pk -> i < pk_size pk -> try_guard pk inter i = true.
Proof.
  intros Hi H. unfold try_guard. destruct (Nat.ltb_spec i (pk_size pk)); [|lia]. simpl. apply Rleb_true. apply inv_range; auto.
Qed.
Lemma try_move_spec pk o th i p tm : inv pk -> op_target o = Some (th, i) -> nth_error (pk_parts pk) i = Some p ->
  nth_error (pk_temps pk) th = Some tm ->
  exists temps e, try_op inter o pk = Some (set_temps pk temps, e) /\ inv (set_temps pk temps) /\ length temps = length (pk_temps pk) /\
  if op_outside (pk_box pk) o p then e = PosInf
  else let c := candidate (pk_box pk) o p in let r := move_result pk i p c (tm_delta tm) in
       e = fst r /\ set_nth (pk_temps pk) th (Temp i (snd r) c) = Some temps.
Proof.
  intros Hi Ho Hp Ht.
  assert (Hsz : i < pk_size pk) by (apply nth_error_Some; congruence).
  assert (Hth : th < length (pk_temps pk)) by (apply nth_error_Some; congruence).
  pose proof (candidate_inv (pk_box pk) o p (i_box _ Hi) (inv_part pk i p Hi Hp)) as Hc.
  destruct (finish_try_spec pk th i p tm _ Hi Hp Ht Hc) as (temps & E & Es & Hi').
  assert (Hlen : length temps = length (pk_temps pk)) by (eapply set_nth_length; eauto).
  assert (Href : forall s, exists temps e, refuse pk th i tm s = Some (set_temps pk temps, e) /\ inv (set_temps pk temps) /\
    length temps = length (pk_temps pk) /\ e = PosInf).
  { intros s. unfold refuse. destruct (set_nth_Some (pk_temps pk) th (Temp i (tm_delta tm) (Particle s (pt_rel (tm_part tm)) (pt_abs (tm_part tm)))) Hth) as (t' & E').
    rewrite E'. cbn [obind]. exists t', PosInf. split; auto. split; [|split; auto; eapply set_nth_length; eauto].
    apply inv_temps; auto. intros Hh. pose proof (i_delta _ Hi Hh) as Hd. eapply set_nth_forall; [exact Hd| |exact E'].
    rewrite Forall_forall in Hd. cbn [tm_delta]. apply Hd. eapply nth_error_In; eauto. }
  destruct o; try discriminate; injection Ho as -> ->; cbn [try_op op_outside].
  - unfold tryTranslation. rewrite (guard_true pk i Hi Hsz), Hp, Ht. cbn [negb obind]. cbv zeta in *.
    destruct inside as [f|]; [|eauto 10]. change (pt_pos (candidate (pk_box pk) _ p)) with (sh_pos (translated (pk_box pk) t (pt_shape p))).
    destruct (negb (f _)); [apply Href|eauto 10].
  - unfold tryRotation. rewrite (guard_true pk i Hi Hsz), Hp, Ht. cbn [negb obind]. cbv zeta in *. eauto 10.
  - unfold tryMove. rewrite (guard_true pk i Hi Hsz), Hp, Ht. cbn [negb obind]. cbv zeta in *.
    destruct inside as [f|]; [|eauto 10]. change (pt_pos (candidate (pk_box pk) _ p)) with (sh_pos (translated (pk_box pk) t (pt_shape p))).
    destruct (negb (f _)); [apply Href|eauto 10].
Qed.

Lemma accept_move_spec pk o th i p tm temps : inv pk -> op_target o = Some (th, i) -> nth_error (pk_parts pk) i = Some p ->
  nth_error (pk_temps pk) th = Some tm ->
  let c := candidate (pk_box pk) o p in let r := move_result pk i p c (tm_delta tm) in
  set_nth (pk_temps pk) th (Temp i (snd r) c) = Some temps -> inv (set_temps pk temps) ->
  exists pk', accept_op o (set_temps pk temps) = Some pk' /\ replaced pk pk' i c /\ inv pk' /\
    pk_wall pk' = pk_wall pk /\ pk_counting pk' = pk_counting pk /\ pk_temps pk' = temps /\ pk_box pk' = pk_box pk /\
    tot pk' inter + walls pk' inter false + new_count pk i p = tot pk inter + walls pk inter false + new_count pk i c /\
    (etot inter pk' - etot inter pk = epart inter pk i c - epart inter pk i p)%R.
Proof.
  intros Hi Ho Hp Ht c r Es Hi'.
  pose proof (candidate_inv (pk_box pk) o p (i_box _ Hi) (inv_part pk i p Hi Hp)) as Hc. fold c in Hc.
  assert (Hn : nth_error temps th = Some (Temp i (snd r) c)).
  { rewrite (set_nth_get _ _ _ _ th Es), Nat.eqb_refl. auto. }
  assert (R : forall touch, (touch = false -> pk_k pk = 0 /\ pt_pos c = pt_pos p) ->
    exists pk', replace_particle (set_temps pk temps) touch i p c (snd r) = Some pk' /\ replaced pk pk' i c /\ inv pk' /\
    pk_wall pk' = pk_wall pk /\ pk_counting pk' = pk_counting pk /\ pk_temps pk' = temps /\ pk_box pk' = pk_box pk /\
    tot pk' inter + walls pk' inter false + new_count pk i p = tot pk inter + walls pk inter false + new_count pk i c /\
    (etot inter pk' - etot inter pk = epart inter pk i c - epart inter pk i p)%R).
  { intros touch Htouch. apply (replace_spec (set_temps pk temps) touch i p c (snd r)); auto.
    intros C. unfold r, move_result. change (pk_counting (set_temps pk temps)) with (pk_counting pk) in C. rewrite C.
    destruct (in_hard inter) eqn:Hh; [reflexivity|]. cbn [negb snd].
    change (new_count (set_temps pk temps)) with (new_count pk).
    rewrite !(no_hard_part pk i _ Hh). simpl.
    pose proof (i_delta _ Hi Hh) as Hd. rewrite Forall_forall in Hd. apply Hd. eapply nth_error_In; eauto. }
  destruct o; try discriminate; injection Ho as -> ->; cbn [accept_op].
  - unfold acceptTranslation. cbn [pk_temps set_temps pk_parts]. rewrite Hn. cbn [obind tm_last]. rewrite Hp. cbn [obind tm_part tm_delta].
    destruct (R true) as (pk' & E & H); [discriminate|]. exists pk'. split; auto.
  - unfold acceptRotation. cbn [pk_temps set_temps pk_parts]. rewrite Hn. cbn [obind tm_last]. rewrite Hp. cbn [obind tm_part tm_delta].
    destruct (R (negb (pk_k pk =? 0))) as (pk' & E & H).
    { intros Hk. split; [|reflexivity]. destruct (Nat.eqb_spec (pk_k pk) 0); auto; discriminate. }
    exists pk'. split; auto.
  - unfold acceptMove. cbn [pk_temps set_temps pk_parts]. rewrite Hn. cbn [obind tm_last]. rewrite Hp. cbn [obind tm_part tm_delta].
    destruct (R true) as (pk' & E & H); [discriminate|]. exists pk'. split; auto.
Qed.
End Inv.
