(** The rules of acceptance, counting, step sizes and schedules, as seen by a user. *)
From Coq Require Import Reals ZArith List Bool Lia Lra Permutation.
From Verif Require Import GeomModel BoxModel BoxSpec RFloorModel RFloorProofs PbcModel PbcSpec NGModel GeomProofs BoxProofs NGListProofs.
From Verif Require Import PackModel PackSpec PackSumProofs PackGridProofs PackCountProofs PackTotalProofs PackProofs PackInvProofs PackHistProofs PackFinalProofs.
From Verif Require Import DomModel DomSpec DomFinalProofs DomRunProofs DomRunFinalProofs DomMoreProofs RotModel RotSpec RotProofs RotFlipProofs.
From Verif Require Import SimModel SimSpec SimMoveProofs SimStateProofs SimPlanProofs SimCycleProofs SimRunProofs SimIntegrateProofs.
Import ListNotations.
Open Scope nat_scope.

Lemma metropolis_accepts u T e : metropolis u T e = true <-> accepted_by u T e.
Proof. destruct e; simpl; [tauto|apply Rleb_true|apply Rleb_true]. Qed.

(** *** Displacements *)
Lemma displacement b x thread i inside d f s tr a m : constructed b -> good_sampler x -> good_draw d -> sampled_op b x thread i inside d = Some f -> op_translation (f s) = Some tr ->
  displacement_limit b x m -> (0 < m)%R -> (Rabs (vget tr a) <= m)%R.
Proof.
  intros Hb Hx (Hd & _) E Et Hm Hp.
  assert (K : forall st v, (0 < st)%R -> (-1 <= v <= 1)%R -> (Rabs (Rmin m st * v) <= m)%R).
  { intros st v Hst Hv. assert (P : (0 < Rmin m st)%R) by (apply Rmin_glb_lt; lra). rewrite Rabs_mult, (Rabs_pos_eq (Rmin m st)) by lra.
    assert (A : (Rabs v <= 1)%R) by (apply Rabs_le; lra). pose proof (Rmin_l m st). pose proof (Rabs_pos v). nra. }
  assert (Vs : forall c (v : vec), vget (vscale c v) a = (c * vget v a)%R) by (intros c [? ? ?]; destruct a; reflexivity).
  destruct x as [st mx im|st|ts rs mx im|ev fl]; cbn [sampled_op displacement_limit good_sampler] in *.
  - injection E as <-. cbn in Et. injection Et as <-. rewrite Vs. unfold max_step. rewrite <- Hm. apply K; auto.
  - contradiction.
  - destruct Hx as (Hx & r & -> & _). cbn [obind] in E. injection E as <-. cbn in Et. injection Et as <-. rewrite Vs. unfold max_step. rewrite <- Hm. apply K; auto.
  - contradiction.
Qed.
Lemma displacement_step b x thread i inside d f s tr a : good_sampler x -> good_draw d -> sampled_op b x thread i inside d = Some f -> op_translation (f s) = Some tr ->
  (forall step max im, x = Translation step max im -> (0 < max_step b max im -> Rabs (vget tr a) <= step)%R) /\
  (forall step r max im, x = Rototranslation step r max im -> (0 < max_step b max im -> Rabs (vget tr a) <= step)%R).
Proof.
  intros Hx (Hd & _) E Et.
  assert (K : forall m st v, (0 < m)%R -> (0 < st)%R -> (-1 <= v <= 1)%R -> (Rabs (Rmin m st * v) <= st)%R).
  { intros m st v Hm Hst Hv. assert (P : (0 < Rmin m st)%R) by (apply Rmin_glb_lt; lra). rewrite Rabs_mult, (Rabs_pos_eq (Rmin m st)) by lra.
    assert (A : (Rabs v <= 1)%R) by (apply Rabs_le; lra). pose proof (Rmin_r m st). pose proof (Rabs_pos v). nra. }
  assert (Vs : forall c (v : vec), vget (vscale c v) a = (c * vget v a)%R) by (intros c [? ? ?]; destruct a; reflexivity).
  split.
  - intros st mx im -> Hm. cbn [sampled_op good_sampler] in *. injection E as <-. cbn in Et. injection Et as <-. rewrite Vs. apply K; auto.
  - intros ts rs mx im -> Hm. cbn [sampled_op good_sampler] in *. destruct Hx as (Hx & r & -> & _). cbn [obind] in E. injection E as <-. cbn in Et. injection Et as <-. rewrite Vs. apply K; auto.
Qed.
(** *** Samplers which were constructed *)
Lemma constructed_sampler x range geom x' : (exists st mx, newTranslation st mx = Some x) \/ (exists st, newRotation st = Some x) \/ (exists ts rs mx, newRototranslation ts rs mx = Some x) \/ (exists e, newFlip e = Some x) ->
  setupForShapeTraits range geom x = Some x' -> proper_geometry geom ->
  good_sampler x' /\ within_limit x' x'.
Proof.
  intros H Es Hg. assert (Gd : good_sampler x').
  { destruct H as [(st & mx & E)|[(st & E)|[(ts & rs & mx & E)|(e & E)]]].
    - unfold newTranslation, legal_step in E. destruct (_ && _) eqn:C; [|discriminate]. injection E as <-. cbn in Es. injection Es as <-. cbn. apply andb_true_iff in C. apply Rltb_true. apply C.
    - unfold newRotation in E. destruct (Rltb 0 st) eqn:C; [|discriminate]. injection E as <-. cbn in Es. injection Es as <-. apply Rltb_true. exact C.
    - unfold newRototranslation, legal_step in E. destruct (_ && _) eqn:C; [|discriminate]. injection E as <-. apply andb_true_iff in C. destruct C as [C C2]. apply andb_true_iff in C. destruct C as [_ C]. apply Rltb_true in C.
      destruct rs as [r|]; cbn [setupForShapeTraits] in Es.
      + injection Es as <-. cbn. split; [exact C|]. exists r. split; [reflexivity|]. apply Rltb_true. exact C2.
      + destruct (negb _); [discriminate|]. cbv zeta in Es. destruct (Rltb 0 _) eqn:C3 in Es; [|discriminate]. injection Es as <-. cbn. split; [exact C|]. eexists. split; [reflexivity|]. apply Rltb_true. exact C3.
    - unfold newFlip in E. destruct (Nat.ltb_spec 0 e) as [C|]; [|discriminate]. injection E as <-. cbn in Es. destruct (setupFlip geom) as [fl|] eqn:Ef; [|discriminate]. injection Es as <-. cbn. split; [exact C|]. exists fl. split; [reflexivity|].
      destruct (ge_primary geom) as [pa|] eqn:Ep; [|unfold setupFlip, findFlipAxis in Ef; rewrite Ep in Ef; discriminate].
      apply (setup_axis geom fl pa Hg Ep Ef). }
  split; [exact Gd|]. destruct x' as [st mx [|]|st|ts rs mx [|]|ev f]; cbn in *; auto; try (split; [reflexivity|intros _; apply Rmax_l]). apply Rmax_l.
Qed.

Section Final.
Variables (inter : interaction) (ov : law bool) (en : law R).
Hypothesis HL : lawful inter ov en.
Notation vgood := (vgood inter).
Notation total := (total inter).
Notation visited_good := (visited_good inter ov en HL).

(** *** One move *)
Lemma rule threads thread pl pk u T s : visited inter threads pk -> thread < threads -> good_plan (pk_size pk) thread pl ->
  pl_accept pl = metropolis u T -> nth_error (shapes_of pk) (pl_i pl) = Some s ->
  exists s', moves_to (pk_box pk) (pl_op pl s) s s' /\
    (outside_domain (pl_op pl s) (sh_pos s') -> (0 < u)%R -> exists pk', perform_plan inter thread pl pk = Some (pk', false) /\ same_packing pk pk') /\
    (~ outside_domain (pl_op pl s) (sh_pos s') -> exists pk' ok, perform_plan inter thread pl pk = Some (pk', ok) /\ decided inter u T pk (pl_i pl) s' ok pk').
Proof.
  intros V Hth [Hn Hop] Ha Hs. destruct (visited_good _ _ V) as (Hi & Ht & Hr).
  assert (Hiso : isometry (sh_rot s)) by (apply Hr; eapply nth_error_In; exact Hs). destruct (Hop s Hiso) as [Hpm _].
  rewrite <- Ht in Hth.
  destruct (move_all inter ov en HL pk (pl_op pl s) thread (pl_i pl) s Hi Hpm Hs Hth) as (pk1 & e & s' & E & Sm & Hi1 & _ & Hmv & Ho & Hno).
  exists s'. split; [exact Hmv|].
  unfold shapes_of in Hs. rewrite nth_error_map in Hs. destruct (nth_error (pk_parts pk) (pl_i pl)) as [p|] eqn:Ep; [|discriminate]. simpl in Hs. injection Hs as Hs.
  unfold perform_plan. rewrite Ep. cbn [obind]. rewrite Hs, E. cbn [obind fst snd]. split.
  - intros Hout Hu. rewrite (Ho Hout), Ha, (metropolis_refuses u T Hu). eauto.
  - intros Hin. destruct (Hno Hin) as (pk2 & n0 & n2 & e0 & e2 & Ea & _ & _ & _ & _ & M1 & M2 & M3 & M4 & C0 & C2 & G0 & G2 & He & _).
    destruct (pl_accept pl e) eqn:Eac.
    + rewrite Ea. cbn [obind]. exists pk2, true. split; [reflexivity|]. exists pk2, n0, n2, e0, e2. split; [unfold moved_packing; auto|].
      split; [exact C0|]. split; [exact C2|]. split; [exact G0|]. split; [exact G2|]. split; [auto|]. split; [discriminate|].
      intros Hc. rewrite <- (He Hc). rewrite Ha in Eac. split; [intros _; apply metropolis_accepts; exact Eac|auto].
    + exists pk1, false. split; [reflexivity|]. exists pk2, n0, n2, e0, e2. split; [unfold moved_packing; auto|].
      split; [exact C0|]. split; [exact C2|]. split; [exact G0|]. split; [exact G2|]. split; [discriminate|]. split; [auto|].
      intros Hc. rewrite <- (He Hc). rewrite Ha in Eac. split; [discriminate|]. intros H. apply metropolis_accepts in H. congruence.
Qed.
Lemma extremes u T n0 n2 e0 e2 counting : (0 < T)%R -> (0 <= u < 1)%R -> (counting = true \/ n0 = 0) ->
  (n2 <= n0 -> (e2 <= e0)%R -> accepted_by u T (energy_change n0 n2 e0 e2 counting)) /\
  (n0 < n2 -> (0 < u)%R -> ~ accepted_by u T (energy_change n0 n2 e0 e2 counting)) /\
  (n2 = n0 -> (accepted_by u T (energy_change n0 n2 e0 e2 counting) <-> (u <= exp (- (e2 - e0) / T))%R)).
Proof.
  intros HT Hu Hc. assert (X : (e2 <= e0 -> u <= exp (- (e2 - e0) / T))%R).
  { intros H. apply Rle_trans with 1%R; [lra|]. rewrite <- exp_0.
    assert (A : (0 <= - (e2 - e0) / T)%R) by (apply Rmult_le_pos; [lra|left; apply Rinv_0_lt_compat; lra]).
    destruct A as [A|A]; [left; apply exp_increasing; exact A|right; rewrite A; reflexivity]. }
  unfold energy_change. destruct counting.
  - destruct (Nat.ltb_spec n2 n0); [|destruct (Nat.ltb_spec n0 n2)]; cbn [accepted_by]; (split; [intros; try lia; auto|split; [intros; try lia; try lra|intros; try lia; tauto]]).
  - destruct Hc as [Hc|Hc]; [discriminate|subst n0]. destruct (Nat.ltb_spec 0 n2); cbn [accepted_by]; (split; [intros; try lia; auto|split; [intros; try lia; try lra|intros; try lia; tauto]]).
Qed.

(** *** The moves of an undivided cycle *)
Lemma made threads : forall pls us pk pk' ms T, visited inter threads pk -> 0 < threads ->
  Forall2 (fun (gp : nat * plan) u => safe (pk_size pk) 0 (snd gp) /\ pl_accept (snd gp) = metropolis u T /\
     forall sh, isometry (sh_rot sh) -> good_op 0 (pl_i (snd gp)) None (pl_op (snd gp) sh)) pls us ->
  perform_plans inter 0 pls pk = Some (pk', ms) -> moves_made inter T pk us ms pk'.
Proof.
  induction pls as [|[g pl] pls IH]; intros us pk pk' ms T V Hth F E; inversion F as [|? u ? us' Hu F']; subst.
  - injection E as <- <-. constructor.
  - cbn [snd] in Hu. destruct Hu as ([Hpl Hac] & Ha & Hgo). cbn [perform_plans snd fst] in E.
    destruct (perform_spec inter ov en HL threads 0 pl pk (visited_good _ _ V) Hth Hpl Hac) as (s & pk1 & ok & s1 & Es & E1 & _ & _ & Z & _).
    rewrite E1 in E. cbn [obind fst snd] in E. destruct (perform_plans inter 0 pls pk1) as [[pk2 ms2]|] eqn:E2; [|discriminate]. cbn [obind fst snd] in E. injection E as <- <-.
    assert (V1 : visited inter threads pk1) by exact (visit_move inter threads 0 pl pk pk1 ok V Hth Hpl E1 Hac).
    destruct (rule threads 0 pl pk u T s V Hth Hpl Ha Es) as (s' & Hmv & _ & Hno).
    assert (Hiso : isometry (sh_rot s)). { destruct (visited_good _ _ V) as (_ & _ & Hr). apply Hr. eapply nth_error_In; exact Es. }
    assert (Hout : ~ outside_domain (pl_op pl s) (sh_pos s')).
    { specialize (Hgo s Hiso). destruct (pl_op pl s); simpl in *; try tauto; [destruct Hgo as (_ & _ & ->)|destruct Hgo as (_ & _ & -> & _)]; tauto. }
    destruct (Hno Hout) as (pk1' & ok' & E1' & Hd). rewrite E1 in E1'. injection E1' as <- <-.
    apply (made_one inter T pk u us' g (pl_i pl) s s' (pl_op pl s) ok pk1); auto; [apply Hpl; exact Hiso|].
    apply IH; auto. rewrite Z. exact F'.
Qed.
Lemma sequential_made threads n ch s s' ms : 0 < threads -> sinv inter threads n s -> good_chance threads ch ->
  performMovesWithoutDomainDivision inter ch s = Some (s', ms) ->
  moves_made inter (sm_T s) (sm_pk s) (map (fun k => dr_u (ch_draws ch k)) (seq 0 (length ms))) ms (sm_pk s').
Proof.
  intros Hth I Hch E. pose proof Hch as (Hd & _). pose proof (v_visited _ _ _ _ I) as V. pose proof (v_samplers _ _ _ _ I) as Hs.
  assert (L := proj1 (sequential inter ov en HL threads n ch s Hth I Hch) s' ms E). destruct L as (_ & _ & _ & L).
  unfold performMovesWithoutDomainDivision in E. cbv zeta in E.
  destruct (accumulations _ _ _) as [accs|] eqn:Eacc; [|discriminate]. cbn [obind] in E.
  destruct (make_plans _ _ _ _ _ _ _ _) as [pls|] eqn:Epl; [|discriminate]. cbn [obind] in E.
  destruct (perform_plans inter 0 pls (sm_pk s)) as [[pk' ms']|] eqn:Ep; [|discriminate]. cbn [obind fst snd] in E. injection E as <- <-. cbn [set_moved sm_pk].
  apply (made threads pls); auto. clear L. 
  assert (L : length ms' = length pls).
  { assert (G : forall pls pk pk' ms, perform_plans inter 0 pls pk = Some (pk', ms) -> length ms = length pls).
    { clear. induction pls as [|a pls IH]; simpl; intros pk pk' ms E; [injection E as _ <-; reflexivity|]. destruct (perform_plan _ _ _ _) as [r|]; [|discriminate]. cbn [obind] in E.
      destruct (perform_plans _ _ _ _) as [[a1 a2]|] eqn:E2; [|discriminate]. injection E as _ <-. simpl. f_equal. eauto. }
    eauto. }
  rewrite L. pose proof Epl as Epl'. unfold make_plans in Epl. apply map_opt_F2 in Epl. pose proof (Forall2_len _ _ _ Epl) as L2. rewrite seq_length in L2. rewrite <- L2.
  assert (Sf := make_plans_good _ _ _ _ _ _ _ Hs _ _ Hd Epl'). destruct Sf as [_ Sf]. clear - Epl Sf Hs Hd.
  revert Sf. induction Epl as [|k [g pl] ks pls H _ IH]; intros Sf; simpl; constructor.
  - cbn [snd]. destruct (Sf g pl (or_introl eq_refl)) as (_ & Hin & (u & Hu & Ea) & Ho). apply in_seq in Hin.
    split; [apply (good_op_plan _ _ None pl u (sm_T s)); auto; [lia|apply Hu]|]. split; [|exact Ho].
    unfold make_plan in H. cbv zeta in H. destruct (nth_error (sm_samplers s) _) as [x|]; [|discriminate]. cbn [obind] in H.
    destruct (pick_particle _ _); [|discriminate]. cbn [obind] in H. destruct (sampled_op _ _ _ _ _ _); [|discriminate]. cbn [obind] in H. injection H as _ <-. reflexivity.
  - apply IH. intros g' pl' Hin. apply Sf. right. exact Hin.
Qed.

(** *** Scaling *)
Lemma scaling_rule threads n ch step s pk' ok : sinv inter threads n s -> good_chance threads ch -> in_convex inter = false -> (0 < sm_T s)%R ->
  tryScaling_sim inter ch step s = Some (pk', ok) ->
  exists newBox pk2 n0 n2 e0 e2, ch_box ch step (pk_box (sm_pk s)) = Some newBox /\ scaled_packing (sm_pk s) newBox pk2 /\
    countTotalOverlaps (sm_pk s) inter false = Some n0 /\ countTotalOverlaps pk2 inter false = Some n2 /\
    getTotalEnergy (sm_pk s) inter = Some e0 /\ getTotalEnergy pk2 inter = Some e2 /\
    (ok = true -> pk' = pk2) /\ (ok = false -> same_packing (sm_pk s) pk') /\
    (ok = true <-> match energy_change n0 n2 e0 e2 (sm_counted s) with
                   | NegInf => True
                   | PosInf => False
                   | Fin dE => (ch_u ch <= exp (npt_exponent n (sm_P s) (sm_T s) (box_volume (pk_box (sm_pk s))) (box_volume newBox) dE))%R
                   end).
Proof.
  intros I (_ & _ & _ & _ & _ & _ & Hbox & Hu) Hcv HT E. unfold tryScaling_sim in E. cbv zeta in E.
  destruct (visited_good _ _ (v_visited _ _ _ _ I)) as (Hi & _).
  destruct (ch_box ch step (pk_box (sm_pk s))) as [nb|] eqn:Eb; [|discriminate]. cbn [obind] in E.
  assert (Hnb : constructed nb) by (apply (Hbox step (pk_box (sm_pk s)) nb); auto; apply constructed_valid, Hi).
  destruct (Reqb (box_volume nb) 0); [discriminate|].
  destruct (scaling_theorem inter ov en HL (sm_pk s) nb Hi Hnb) as (pk1 & e & n0 & n2 & e0 & e2 & Es & B & S & W & C & Sm & N0 & N2 & E0 & E2 & He & _).
  specialize (He (or_intror (or_introl Hcv))). rewrite (v_counting _ _ _ _ I) in He.
  exists nb, pk1, n0, n2, e0, e2. split; [reflexivity|]. split; [unfold scaled_packing; auto|]. split; [exact N0|]. split; [exact N2|]. split; [exact E0|]. split; [exact E2|].
  rewrite (v_size _ _ _ _ I) in E.
  pose proof (volume_pos _ (i_box _ _ Hi)) as V0. assert (V1 : (0 < box_volume nb)%R) by (apply volume_pos, constructed_valid; exact Hnb).
  rewrite !Rabs_pos_eq in E by lra. set (v0 := box_volume (pk_box (sm_pk s))) in *. set (v1 := box_volume nb) in *.
  assert (X : forall dE, (scaling_exponent n (sm_P s) (sm_T s) v0 v1 - dE / sm_T s = npt_exponent n (sm_P s) (sm_T s) v0 v1 dE)%R).
  { intros dE. unfold scaling_exponent, npt_exponent. field. lra. }
  destruct (in_soft inter || sm_counted s) eqn:Eso.
  - rewrite Es in E. cbn [obind fst snd] in E. rewrite <- He. destruct (scaling_accepted _ _ _ e) eqn:Ea; injection E as <- <-.
    + split; [auto|]. split; [discriminate|]. split; [intros _|auto]. destruct e as [|x|]; simpl in Ea; [auto| |].
      * apply Rleb_true in Ea. rewrite X in Ea. exact Ea.
      * apply Rleb_true in Ea. lra.
    + split; [discriminate|]. split; [auto|]. split; [discriminate|]. intros H. destruct e as [|x|]; simpl in Ea; [discriminate| |contradiction].
      apply Rleb_false in Ea. rewrite X in Ea. lra.
  - apply orb_false_iff in Eso. destruct Eso as [Eso Eco]. rewrite Eco in *.
    assert (Z : e0 = 0%R /\ e2 = 0%R). { unfold getTotalEnergy in E0, E2. rewrite Eso in E0, E2. cbn [negb] in E0, E2. injection E0 as <-. injection E2 as <-. auto. }
    destruct Z as [-> ->]. unfold energy_change in *. cbn [Nat.ltb] in *.
    assert (X0 : scaling_exponent n (sm_P s) (sm_T s) v0 v1 = npt_exponent n (sm_P s) (sm_T s) v0 v1 (0 - 0)).
    { rewrite <- X. field. lra. }
    rewrite X0 in E. destruct (Rltb _ (ch_u ch)) eqn:Er.
    + injection E as <- <-. apply Rltb_true in Er. split; [discriminate|]. split; [intros _; unfold same_packing; auto 10|]. split; [discriminate|].
      destruct (Nat.ltb 0 n2); [tauto|]. intros H. lra.
    + apply Rltb_false in Er. rewrite Es in E. cbn [obind fst snd] in E. rewrite He in E. destruct (Nat.ltb 0 n2); cbn [positive_energy] in E.
      * injection E as <- <-. split; [discriminate|]. split; [auto|]. split; [discriminate|tauto].
      * assert (Zz : Rltb 0 (0 - 0) = false) by (apply Rltb_false; lra). rewrite Zz in E. injection E as <- <-. split; [auto|]. split; [discriminate|]. split; [intros _; exact Er|auto].
Qed.

(** *** Runs *)
Section Setting.
Variables (threads : nat) (t q : parameter) (samplers : list sampler) (scaler : option R) (div : axis -> nat) (p : parameters)
  (chances : nat -> chance) (interrupted : nat -> bool) (pk : packing).
Hypothesis G : good_setting inter threads samplers scaler div chances pk.
Lemma whole g : integrate inter t q samplers scaler div p chances interrupted pk = Some g ->
  0 < pr_thermalisation p + pr_averaging p /\
  let last := sm_total (pg_sim g) in
  exists st, last_cycle interrupted (pr_offset p) (pr_thermalisation p + pr_averaging p) last /\ pg_interrupted g = interrupted last /\
    started inter samplers scaler div false (pr_offset p) (pr_offset p + pr_thermalisation p + pr_averaging p) pk (st (pr_offset p)) /\
    st last = pg_sim g /\ consecutive inter chances st (pr_offset p) last (pg_cycles g) /\
    (forall c, pr_offset p <= c <= last -> sinv inter threads (pk_size pk) (st c) /\ sm_total (st c) = c /\ parameters_at t q p c (st c) /\
       sm_max (st c) = pr_offset p + pr_thermalisation p + pr_averaging p) /\
    (forall c, pr_offset p <= c < last -> sm_adjust (st c) = (c <? pr_offset p + pr_thermalisation p) /\
       exists s1 log, performCycle inter (chances (S c)) (st c) = Some (s1, log) /\ nth_error (pg_cycles g) (c - pr_offset p) = Some log /\
         cycle_done (pk_size pk) (st c) s1 log /\ continues s1 (st (S c))) /\
    pg_out g = flat_map (fun c => due p c (sm_pk (st c)) (sm_T (st c)) (sm_P (st c))) (seq (S (pr_offset p)) (last - pr_offset p)).
Proof.
  destruct G as (G1 & G2 & G3 & G4 & G5 & G6 & G7 & G8).
  exact (integrate_spec inter ov en HL threads t q samplers scaler div p chances interrupted pk G1 G2 G3 G4 G5 G6 G7 G8 g).
Qed.
Lemma run_no_overlaps g : integrate inter t q samplers scaler div p chances interrupted pk = Some g ->
  forall pk', seen g pk' -> countTotalOverlaps pk' inter false = Some 0.
Proof.
  intros E. destruct (whole g E) as (_ & st & L & _ & S0 & Sl & Cn & I & _ & O). cbv zeta in *.
  assert (Z : forall c, pr_offset p <= c <= sm_total (pg_sim g) -> countTotalOverlaps (sm_pk (st c)) inter false = Some 0).
  { intros c Hc. destruct (I c Hc) as (Ic & _). rewrite (total_count inter ov en HL); [|apply (visited_good _ _ (v_visited _ _ _ _ Ic))].
    f_equal. apply (v_total _ _ _ _ Ic).
    assert (Hk : forall k, pr_offset p + k <= sm_total (pg_sim g) -> sm_counted (st (pr_offset p + k)) = false).
    { induction k as [|k IHk]; intros Hk; [rewrite Nat.add_0_r; apply S0|].
      destruct Cn as (_ & _ & Cn). destruct (Cn (pr_offset p + k) ltac:(lia)) as (s1 & log & Ec & _ & C1).
      destruct (I (pr_offset p + k) ltac:(lia)) as (Ik & _). destruct G as (G1 & G2 & _).
      destruct (cycle_spec inter ov en HL threads _ _ _ _ _ G1 (G2 _) Ik Ec) as [_ D]. destruct (cd_frame _ _ _ _ D) as (_ & _ & F & _).
      destruct C1 as (_ & _ & _ & _ & _ & C1 & _). rewrite Nat.add_succ_r. rewrite C1, F. apply IHk. lia. }
    replace c with (pr_offset p + (c - pr_offset p)) by lia. apply Hk. lia. }
  intros pk' [H|Hin].
  - rewrite H, <- Sl. apply Z. destruct L as (L & _). lia.
  - rewrite O in Hin. apply in_map_iff in Hin. destruct Hin as (x & Hx & Hin). apply in_flat_map in Hin. destruct Hin as (c & Hc & Hin). apply in_seq in Hc.
    assert (Hpk : pk' = sm_pk (st c)).
    { rewrite <- Hx. unfold due in Hin. rewrite !in_app_iff in Hin. destruct Hin as [Hin|[Hin|Hin]].
      - destruct (is_multiple _ _); [|contradiction]. destruct Hin as [<-|Hin]; [reflexivity|]. apply repeat_spec in Hin. subst x. reflexivity.
      - destruct (_ && _); [|contradiction]. destruct Hin as [<-|[]]. reflexivity.
      - destruct (is_multiple _ _); [|contradiction]. destruct Hin as [<-|[]]. reflexivity. }
    rewrite Hpk. apply Z. lia.
Qed.
Lemma relax_spec fuel : forall g g', sinv inter threads (pk_size pk) (pg_sim g) -> sm_counted (pg_sim g) = true ->
  relax_loop fuel inter t q p chances interrupted g = Some g' ->
  countTotalOverlaps (sm_pk (pg_sim g')) inter false = Some 0 \/ (pg_interrupted g' = true /\ interrupted (sm_total (pg_sim g')) = true).
Proof.
  destruct G as (G1 & G2 & _). induction fuel as [|fuel IH]; intros g g' I Hc E; cbn [relax_loop] in E; [discriminate|].
  destruct (visited_good _ _ (v_visited _ _ _ _ I)) as (Hi & _). pose proof (v_counting _ _ _ _ I) as Hcc. rewrite Hc in Hcc.
  unfold getCachedNumberOfOverlaps in E. rewrite Hcc in E. cbn [obind] in E. rewrite (i_count _ _ Hi Hcc) in E.
  destruct (Z.ltb_spec 0 (Z.of_nat (tot (sm_pk (pg_sim g)) inter + walls (sm_pk (pg_sim g)) inter false))) as [Hz|Hz]; cbn [negb] in E.
  - destruct (one_pass _ _ _ _ _ _ _) as [[[s' out] log]|] eqn:E1; [|discriminate]. cbn [obind] in E.
    destruct (pass_spec inter ov en HL threads _ _ _ _ _ _ _ _ _ _ G1 (G2 _) I E1) as (I1 & s1 & Ec & D & C1 & _).
    assert (Hc1 : sm_counted s' = true). { destruct C1 as (_ & _ & _ & _ & _ & C1 & _). destruct (cd_frame _ _ _ _ D) as (_ & _ & F & _). congruence. }
    destruct (interrupted (sm_total s')) eqn:Ei; [injection E as <-; right; cbn; auto|]. refine (IH _ _ _ _ E); [exact I1|exact Hc1].
  - injection E as <-. left. rewrite (total_count inter ov en HL) by exact Hi. f_equal. unfold SimMoveProofs.total. lia.
Qed.
Lemma relaxed fuel mx g : relaxOverlaps fuel inter t q samplers scaler div mx p chances interrupted pk = Some g ->
  countTotalOverlaps (sm_pk (pg_sim g)) inter false = Some 0 \/ (pg_interrupted g = true /\ interrupted (sm_total (pg_sim g)) = true).
Proof.
  unfold relaxOverlaps. destruct (negb _); [discriminate|]. destruct G as (G1 & G2 & G3 & G4 & G5 & G6 & G7 & G8).
  destruct (ready inter ov en HL threads pk G3 true) as (pk1 & pk2 & E1 & E2 & V2 & Z2 & C2 & _). rewrite E1. cbn [obind]. rewrite E2. cbn [obind].
  apply relax_spec; [|reflexivity]. cbn [pg_sim]. apply (start_sinv inter threads); auto. discriminate.
Qed.

(** *** Counters *)
Lemma counters_run g : integrate inter t q samplers scaler div p chances interrupted pk = Some g ->
  let s := pg_sim g in
  length (sm_counters s) = length samplers /\ length (sm_samplers s) = length samplers /\
  (forall k c, nth_error (sm_counters s) k = Some c -> ct_moves c = performed k (all_moves (pg_cycles g)) /\ ct_accepted c = accepted k (all_moves (pg_cycles g))) /\
  (forall m, In m (all_moves (pg_cycles g)) -> fst m < length samplers) /\
  ct_moves (sm_scaling s) = length (scalings (pg_cycles g)) /\ ct_accepted (sm_scaling s) = trues (scalings (pg_cycles g)) /\
  length (scalings (pg_cycles g)) = match scaler with Some _ => length (pg_cycles g) | None => 0 end.
Proof.
  intros E. destruct (whole g E) as (_ & st & L & _ & S0 & Sl & Cn & I & D & _). cbv zeta in *.
  assert (P : forall k, pr_offset p + k <= sm_total (pg_sim g) -> let s := st (pr_offset p + k) in let cs := firstn k (pg_cycles g) in
    length (sm_counters s) = length samplers /\ length (sm_samplers s) = length samplers /\
    (forall k c, nth_error (sm_counters s) k = Some c -> ct_moves c = performed k (all_moves cs) /\ ct_accepted c = accepted k (all_moves cs)) /\
    (forall m, In m (all_moves cs) -> fst m < length samplers) /\
    ct_moves (sm_scaling s) = length (scalings cs) /\ ct_accepted (sm_scaling s) = trues (scalings cs) /\
    match sm_scaler s with Some _ => scaler <> None | None => scaler = None end /\ length (scalings cs) = match scaler with Some _ => k | None => 0 end).
  { induction k as [|k IHk]; intros Hk; cbv zeta.
    - rewrite Nat.add_0_r. destruct S0 as (_ & S1 & S2 & S3 & S4 & _). rewrite S1, S2, S3, S4, repeat_length. cbn.
      split; [reflexivity|]. split; [reflexivity|]. split.
      { intros k c Hn. apply nth_error_In in Hn. apply repeat_spec in Hn. subst c. auto. }
      split; [tauto|]. split; [reflexivity|]. split; [reflexivity|]. split; [destruct scaler; [discriminate|reflexivity]|]. destruct scaler; reflexivity.
    - destruct (IHk ltac:(lia)) as (A1 & A2 & A3 & A4 & A5 & A6 & A7 & A8). cbv zeta in *. rewrite Nat.add_succ_r.
      destruct (D (pr_offset p + k) ltac:(lia)) as (Ha & s1 & log & Ec & En & Dn & C1). replace (pr_offset p + k - pr_offset p) with k in En by lia.
      set (s := st (pr_offset p + k)) in *. destruct C1 as (_ & C1 & C2 & C3 & C4 & _). rewrite C1, C2, C3, C4.
      assert (F : firstn (S k) (pg_cycles g) = firstn k (pg_cycles g) ++ [log]).
      { clear - En. revert En. generalize (pg_cycles g). induction k as [|k IH]; intros [|x l] En; simpl in *; try discriminate; [injection En as ->; reflexivity|]. f_equal. auto. }
      rewrite F. assert (Am : all_moves (firstn k (pg_cycles g) ++ [log]) = all_moves (firstn k (pg_cycles g)) ++ cl_moves log).
      { unfold all_moves. rewrite map_app, concat_app. simpl. rewrite app_nil_r. reflexivity. }
      assert (As : scalings (firstn k (pg_cycles g) ++ [log]) = scalings (firstn k (pg_cycles g)) ++ match cl_scaled log with Some x => [x] | None => [] end).
      { unfold scalings. rewrite flat_map_app. simpl. rewrite app_nil_r. reflexivity. }
      rewrite Am, As. destruct (cd_length _ _ _ _ Dn) as [L1 L2]. split; [congruence|]. split; [congruence|]. split; [|split].
      + intros j c Hj. assert (Hlt : j < length samplers) by (rewrite <- A1, <- L2; apply nth_error_Some; congruence).
        destruct (nth_error (sm_samplers s) j) as [x|] eqn:Ex; [|apply nth_error_None in Ex; lia].
        destruct (nth_error (sm_counters s) j) as [c0|] eqn:Ec0; [|apply nth_error_None in Ec0; lia].
        destruct (cd_sampler _ _ _ _ Dn j x c0 Ex Ec0) as (x' & c' & a & _ & Ec' & _ & Hc1 & Hc2). assert (c' = c) by congruence. subst c'.
        destruct (A3 j c0 Ec0) as [P1 P2]. rewrite performed_app, accepted_app, <- P1, <- P2.
        destruct (sm_adjust s).
        * destruct (Hc1 eq_refl) as (m & _ & _ & ->). unfold window_after. destruct (_ <=? _); cbn; auto.
        * destruct (Hc2 eq_refl) as (_ & ->). cbn. auto.
      + intros m Hm. apply in_app_or in Hm. destruct Hm as [Hm|Hm]; [apply A4; exact Hm|]. rewrite <- A2. apply (cd_groups _ _ _ _ Dn m Hm).
      + pose proof (cd_scaler _ _ _ _ Dn) as Cs. assert (Tr : forall a b, trues (a ++ b) = trues a + trues b) by (intros; unfold trues; rewrite filter_app, app_length; reflexivity).
        destruct (sm_scaler s) as [step|] eqn:Es.
        * destruct Cs as (ok & step' & a & -> & -> & _ & Hc1 & Hc2). rewrite app_length, Tr, <- A5, <- A6.
          assert (Hct : ct_moves (sm_scaling s1) = S (ct_moves (sm_scaling s)) /\ ct_accepted (sm_scaling s1) = ct_accepted (sm_scaling s) + (if ok then 1 else 0)).
          { destruct (sm_adjust s); [destruct (Hc1 eq_refl) as (_ & ->)|destruct (Hc2 eq_refl) as (_ & ->)]; unfold window_after; try destruct (_ <=? _); destruct ok; cbn; split; lia. }
          destruct Hct as [-> ->]. split; [simpl; lia|]. split; [destruct ok; reflexivity|]. split; [exact A7|].
          rewrite A5, A8. destruct scaler; [simpl; lia|congruence].
        * destruct Cs as (-> & -> & ->). rewrite app_nil_r. rewrite A5, A6, A8. split; [congruence|]. split; [reflexivity|]. split; [exact A7|]. rewrite A7. reflexivity. }
  assert (Hlen : length (pg_cycles g) = sm_total (pg_sim g) - pr_offset p) by apply Cn.
  destruct (P (sm_total (pg_sim g) - pr_offset p)) as (A1 & A2 & A3 & A4 & A5 & A6 & A7 & A8); [destruct L; lia|]. cbv zeta in *.
  replace (pr_offset p + (sm_total (pg_sim g) - pr_offset p)) with (sm_total (pg_sim g)) in * by (destruct L; lia).
  rewrite Sl in *. rewrite <- Hlen, firstn_all in *. split; [exact A1|]. split; [exact A2|]. split; [exact A3|]. split; [exact A4|]. split; [exact A5|]. split; [exact A6|].
  exact A8.
Qed.

(** *** Steps *)
Lemma used_performed ms k : used ms k = true <-> 0 < performed k ms.
Proof.
  unfold used, performed. induction ms as [|m ms IH]; simpl; [split; [discriminate|lia]|]. destruct (fst m =? k); simpl; [split; [lia|auto]|exact IH].
Qed.
Lemma refreshed_maximum b ms k x : with_new_maximum b (0 < performed k ms) x (refreshed b ms k x).
Proof.
  unfold with_new_maximum, refreshed. split; intros H.
  - destruct (used ms k) eqn:U; [apply used_performed in U; contradiction|reflexivity].
  - apply used_performed in H. rewrite H. split.
    + intros m Hm. destruct x as [st mx im|st|ts rs mx im|ev f]; cbn in *; try contradiction; subst m; unfold max_step; destruct im; reflexivity.
    + intros Hm. destruct x as [st mx im|st|ts rs mx im|ev f]; cbn in *; try reflexivity; exfalso; eapply Hm; reflexivity.
Qed.
Lemma sampler_cycle n s s1 log k x c x' c' : cycle_done n s s1 log -> nth_error (sm_samplers s) k = Some x -> nth_error (sm_counters s) k = Some c ->
  nth_error (sm_samplers s1) k = Some x' -> nth_error (sm_counters s1) k = Some c' ->
  sampler_after (sm_adjust s) n (pk_box (sm_pk s)) (cl_moves log) k x c x' c'.
Proof.
  intros D Ex Ec Ex' Ec'. destruct (cd_sampler _ _ _ _ D k x c Ex Ec) as (x1 & c1 & a & E1 & E2 & Ha & H1 & H2).
  assert (x1 = x') by congruence. assert (c1 = c') by congruence. subst x1 c1. unfold sampler_after.
  destruct (sm_adjust s).
  - destruct (H1 eq_refl) as (m & Em & Hd & Hw). exists a, (refreshed (pk_box (sm_pk s)) (cl_moves log) k x), m.
    split; [apply refreshed_maximum|]. split; [exact Ha|]. split; [|split; [intros _; split; [exact Em|exact Hd]|discriminate]].
    rewrite Hw. unfold window_after, counted_window. destruct (Nat.leb_spec (100 * m) (ct_recent (plus_moves (cl_moves log) k c))) as [Hl|Hl]; cbn [ct_recent plus_moves] in Hl; cbn.
    + split; [reflexivity|]. split; [reflexivity|]. split; [auto|]. intros [|]; [discriminate|]. cbn in Hl. lia.
    + split; [reflexivity|]. split; [reflexivity|]. split; [intros _ X; cbn in *; lia|]. auto.
  - destruct (H2 eq_refl) as (-> & ->). exists Kept, (refreshed (pk_box (sm_pk s)) (cl_moves log) k x), 0.
    split; [apply refreshed_maximum|]. split; [exact Ha|]. split; [|split; [discriminate|reflexivity]].
    unfold counted_window. cbn. split; [reflexivity|]. split; [reflexivity|]. split; [discriminate|]. auto.
Qed.
Lemma scaler_cycle n s s1 log : cycle_done n s s1 log ->
  scaler_after (sm_adjust s) (cl_scaled log) (sm_scaler s) (sm_scaling s) (sm_scaler s1) (sm_scaling s1).
Proof.
  intros D. pose proof (cd_scaler _ _ _ _ D) as C. unfold scaler_after. destruct (sm_scaler s) as [step|]; [|tauto].
  destruct C as (ok & step' & a & E1 & E2 & Ha & H1 & H2). exists ok, step', a. split; [exact E1|]. split; [exact E2|].
  assert (Hs : (a = Grown -> step' = step * (11 / 10))%R /\ (a = Shrunk -> step' = step / (11 / 10))%R /\ (a = Kept -> step' = step)).
  { split; [|split]; intros ->; exact Ha. }
  destruct Hs as (Hs1 & Hs2 & Hs3). split; [exact Hs1|]. split; [exact Hs2|]. split; [exact Hs3|].
  assert (I1 : ct_recent (increment ok (sm_scaling s)) = S (ct_recent (sm_scaling s)) /\
     ct_recentAccepted (increment ok (sm_scaling s)) = ct_recentAccepted (sm_scaling s) + (if ok then 1 else 0)) by (destruct ok; cbn; split; lia).
  destruct I1 as [I1 I2]. destruct (sm_adjust s).
  - destruct (H1 eq_refl) as (Hd & Hw). split; [|split; [intros _; rewrite I1, I2 in Hd; exact Hd|discriminate]].
    rewrite Hw. unfold window_after, counted_window. rewrite I1. destruct (Nat.leb_spec 100 (S (ct_recent (sm_scaling s)))) as [Hl|Hl]; destruct ok; cbn [increment resetCurrent ct_moves ct_accepted ct_recent ct_recentAccepted];
      (split; [lia|]; split; [lia|]; split; [intros; try lia; auto|intros; try lia; split; lia]).
  - destruct (H2 eq_refl) as (Hk & Hw). split; [|split; [discriminate|intros _; exact Hk]].
    rewrite Hw. unfold counted_window. destruct ok; cbn [increment ct_moves ct_accepted ct_recent ct_recentAccepted];
      (split; [lia|]; split; [lia|]; split; [discriminate|]; intros; split; lia).
Qed.
Lemma tuning g : integrate inter t q samplers scaler div p chances interrupted pk = Some g ->
  let last := sm_total (pg_sim g) in
  exists st, started inter samplers scaler div false (pr_offset p) (pr_offset p + pr_thermalisation p + pr_averaging p) pk (st (pr_offset p)) /\
    st last = pg_sim g /\ consecutive inter chances st (pr_offset p) last (pg_cycles g) /\
    (forall c, pr_offset p <= c < last -> exists log, nth_error (pg_cycles g) (c - pr_offset p) = Some log /\
       (forall k x ct, nth_error (sm_samplers (st c)) k = Some x -> nth_error (sm_counters (st c)) k = Some ct ->
          exists x' ct', nth_error (sm_samplers (st (S c))) k = Some x' /\ nth_error (sm_counters (st (S c))) k = Some ct' /\
            sampler_after (c <? pr_offset p + pr_thermalisation p) (pk_size pk) (pk_box (sm_pk (st c))) (cl_moves log) k x ct x' ct') /\
       scaler_after (c <? pr_offset p + pr_thermalisation p) (cl_scaled log) (sm_scaler (st c)) (sm_scaling (st c)) (sm_scaler (st (S c))) (sm_scaling (st (S c)))) /\
    (forall c, pr_offset p <= c <= last -> length (sm_samplers (st c)) = length samplers /\ length (sm_counters (st c)) = length samplers /\ Forall good_sampler (sm_samplers (st c)) /\
       match sm_scaler (st c) with Some step => (0 < step)%R | None => True end).
Proof.
  intros E. destruct (whole g E) as (_ & st & L & _ & S0 & Sl & Cn & I & D & _). cbv zeta in *. exists st. split; [exact S0|]. split; [exact Sl|]. split; [exact Cn|]. split.
  - intros c Hc. destruct (D c Hc) as (Ha & s1 & log & Ec & En & Dn & C1). exists log. split; [exact En|]. rewrite <- Ha. destruct C1 as (_ & C1 & C2 & C3 & C4 & _). split.
    + intros k x ct Hx Hct. destruct (cd_sampler _ _ _ _ Dn k x ct Hx Hct) as (x' & c' & a & Hx' & Hc' & _). rewrite C1, C3. exists x', c'. split; [exact Hx'|]. split; [exact Hc'|].
      apply (sampler_cycle _ _ s1); auto.
    + rewrite C2, C4. apply (scaler_cycle _ _ _ _ Dn).
  - assert (P : forall k, pr_offset p + k <= sm_total (pg_sim g) -> length (sm_samplers (st (pr_offset p + k))) = length samplers).
    { induction k as [|k IHk]; intros Hk; [rewrite Nat.add_0_r; destruct S0 as (_ & -> & _); reflexivity|].
      destruct (D (pr_offset p + k) ltac:(lia)) as (Ha & s1 & log & Ec & En & Dn & C1). destruct C1 as (_ & C1 & _).
      rewrite Nat.add_succ_r, C1. rewrite (proj1 (cd_length _ _ _ _ Dn)). apply IHk. lia. }
    intros c Hc. destruct (I c Hc) as (Ic & _). specialize (P (c - pr_offset p)). replace (pr_offset p + (c - pr_offset p)) with c in P by lia. specialize (P ltac:(lia)).
    split; [exact P|]. split; [rewrite (v_counters _ _ _ _ Ic); exact P|]. split; [apply Ic|apply Ic].
Qed.
Lemma limit_kept x0 x x1 x' a b u : within_limit x0 x -> good_sampler x -> with_new_maximum b u x x1 -> adjusted_to a x1 x' -> within_limit x0 x'.
Proof.
  intros W Gd [N1 N2] A. destruct (Classical_Prop.classic u) as [Hu|Hu].
  - destruct (N2 Hu) as [M1 M2]. clear N1 N2. destruct x as [st mx im|st|ts rs mx im|ev f]; cbn [displacement_limit with_maximum] in *.
    + rewrite (M1 _ eq_refl) in A. clear M1 M2. destruct x0 as [st0 mx0 [|]| |? ? ? [|]|]; cbn in W; try contradiction; try discriminate W.
      * destruct im; [|contradiction]. destruct a, x' as [st' mx' im'| | |]; cbn in A; try contradiction; try discriminate; try (destruct A as (_ & -> & _); exact I); injection A as _ _ ->; exact I.
      * destruct im; [contradiction|]. destruct W as [Wm Ws]. cbn [good_sampler] in Gd. destruct a, x' as [st' mx' im'| | |]; cbn in A; try contradiction; try discriminate.
        -- destruct A as (-> & -> & Al & An). cbn. split; [exact Wm|]. intros Hm. specialize (Ws Hm). subst mx.
           destruct (Rle_dec mx0 st) as [Hle|Hle]; [rewrite Al by (split; lra); exact Ws|]. rewrite An by (intros [? ?]; lra).
           apply Rle_trans with (11 / 10 * mx0)%R; [lra|apply Rmax_r].
        -- destruct A as (-> & -> & ->). cbn. split; [exact Wm|]. intros Hm. specialize (Ws Hm). apply Rle_trans with st; [|exact Ws].
           apply Rmult_le_reg_r with (11 / 10)%R; [lra|]. unfold Rdiv at 1. rewrite Rmult_assoc, Rinv_l by lra. lra.
        -- injection A as -> -> ->. cbn. auto.
    + rewrite M2 in A by auto. clear M1 M2. destruct x0 as [? ? [|]|st0|? ? ? [|]|]; cbn in W; try contradiction; try discriminate W. cbn [good_sampler] in Gd. destruct a, x' as [|st'| |]; cbn in A; try contradiction; try discriminate.
      * subst st'. cbn. apply Rle_trans with PI; [apply Rmin_l|apply Rmax_r].
      * subst st'. cbn. apply Rle_trans with st; [|exact W]. apply Rmult_le_reg_r with (11 / 10)%R; [lra|]. unfold Rdiv at 1. rewrite Rmult_assoc, Rinv_l by lra. lra.
      * injection A as ->. exact W.
    + rewrite (M1 _ eq_refl) in A. clear M1 M2. cbn [good_sampler] in Gd. destruct Gd as (Gd & r & -> & Hr). destruct x0 as [? ? [|]| |st0 r0 mx0 [|]|]; cbn in W; try contradiction; try discriminate W.
      * destruct im; [|contradiction]. destruct a, x' as [| |st' [r'|] mx' im'|]; cbn in A; try contradiction; try discriminate; try (destruct A as (_ & -> & _); exact I); injection A as _ _ _ ->; exact I.
      * destruct im; [contradiction|]. destruct W as [Wm Ws]. destruct a, x' as [| |st' [r'|] mx' im'|]; cbn in A; try contradiction; try discriminate.
        -- destruct A as (-> & -> & Al & An). cbn. split; [exact Wm|]. intros Hm. specialize (Ws Hm). subst mx.
           destruct (Rle_dec mx0 ts) as [Hle|Hle]; [destruct Al as [-> _]; [split; lra|exact Ws]|]. destruct An as [-> _]; [intros [? ?]; lra|].
           apply Rle_trans with (11 / 10 * mx0)%R; [lra|apply Rmax_r].
        -- destruct A as (-> & -> & -> & _). cbn. split; [exact Wm|]. intros Hm. specialize (Ws Hm). apply Rle_trans with ts; [|exact Ws].
           apply Rmult_le_reg_r with (11 / 10)%R; [lra|]. unfold Rdiv at 1. rewrite Rmult_assoc, Rinv_l by lra. lra.
        -- injection A as -> -> -> ->. cbn. auto.
    + rewrite M2 in A by auto. clear M1 M2. assert (x' = Flipping ev f) by (destruct a; exact A). subst x'. exact W.
  - rewrite (N1 Hu) in A. clear N1 N2. destruct x as [st mx im|st|ts rs mx im|ev f].
    + destruct x0 as [st0 mx0 [|]| |? ? ? [|]|]; cbn in W; try contradiction; try discriminate W.
      * destruct im; [|contradiction]. destruct a, x' as [st' mx' im'| | |]; cbn in A; try contradiction; try discriminate; try (destruct A as (_ & -> & _); exact I); injection A as _ _ ->; exact I.
      * destruct im; [contradiction|]. destruct W as [Wm Ws]. cbn [good_sampler] in Gd. destruct a, x' as [st' mx' im'| | |]; cbn in A; try contradiction; try discriminate.
        -- destruct A as (-> & -> & Al & An). cbn. split; [exact Wm|]. intros Hm. specialize (Ws Hm). subst mx.
           destruct (Rle_dec mx0 st) as [Hle|Hle]; [rewrite Al by (split; lra); exact Ws|]. rewrite An by (intros [? ?]; lra).
           apply Rle_trans with (11 / 10 * mx0)%R; [lra|apply Rmax_r].
        -- destruct A as (-> & -> & ->). cbn. split; [exact Wm|]. intros Hm. specialize (Ws Hm). apply Rle_trans with st; [|exact Ws].
           apply Rmult_le_reg_r with (11 / 10)%R; [lra|]. unfold Rdiv at 1. rewrite Rmult_assoc, Rinv_l by lra. lra.
        -- injection A as -> -> ->. cbn. auto.
    + destruct x0 as [? ? [|]|st0|? ? ? [|]|]; cbn in W; try contradiction; try discriminate W. cbn [good_sampler] in Gd. destruct a, x' as [|st'| |]; cbn in A; try contradiction; try discriminate.
      * subst st'. cbn. apply Rle_trans with PI; [apply Rmin_l|apply Rmax_r].
      * subst st'. cbn. apply Rle_trans with st; [|exact W]. apply Rmult_le_reg_r with (11 / 10)%R; [lra|]. unfold Rdiv at 1. rewrite Rmult_assoc, Rinv_l by lra. lra.
      * injection A as ->. exact W.
    + cbn [good_sampler] in Gd. destruct Gd as (Gd & r & -> & Hr). destruct x0 as [? ? [|]| |st0 r0 mx0 [|]|]; cbn in W; try contradiction; try discriminate W.
      * destruct im; [|contradiction]. destruct a, x' as [| |st' [r'|] mx' im'|]; cbn in A; try contradiction; try discriminate; try (destruct A as (_ & -> & _); exact I); injection A as _ _ _ ->; exact I.
      * destruct im; [contradiction|]. destruct W as [Wm Ws]. destruct a, x' as [| |st' [r'|] mx' im'|]; cbn in A; try contradiction; try discriminate.
        -- destruct A as (-> & -> & Al & An). cbn. split; [exact Wm|]. intros Hm. specialize (Ws Hm). subst mx.
           destruct (Rle_dec mx0 ts) as [Hle|Hle]; [destruct Al as [-> _]; [split; lra|exact Ws]|]. destruct An as [-> _]; [intros [? ?]; lra|].
           apply Rle_trans with (11 / 10 * mx0)%R; [lra|apply Rmax_r].
        -- destruct A as (-> & -> & -> & _). cbn. split; [exact Wm|]. intros Hm. specialize (Ws Hm). apply Rle_trans with ts; [|exact Ws].
           apply Rmult_le_reg_r with (11 / 10)%R; [lra|]. unfold Rdiv at 1. rewrite Rmult_assoc, Rinv_l by lra. lra.
        -- injection A as -> -> -> ->. cbn. auto.
    + assert (x' = Flipping ev f) by (destruct a; exact A). subst x'. exact W.
Qed.
Lemma limit_start x : good_sampler x -> within_limit x x.
Proof.
  destruct x as [st mx [|]|st|ts rs mx [|]|ev f]; cbn; intros H; auto; try (split; [reflexivity|intros _; apply Rmax_l]). apply Rmax_l.
Qed.
Lemma limits g k x0 x : integrate inter t q samplers scaler div p chances interrupted pk = Some g ->
  nth_error samplers k = Some x0 -> nth_error (sm_samplers (pg_sim g)) k = Some x -> good_sampler x /\ within_limit x0 x.
Proof.
  intros E E0 Ex. destruct (tuning g E) as (st & S0 & Sl & (Cn & _) & T & Gs). cbv zeta in *.
  assert (P : forall j, pr_offset p + j <= sm_total (pg_sim g) -> exists y, nth_error (sm_samplers (st (pr_offset p + j))) k = Some y /\ good_sampler y /\ within_limit x0 y).
  { induction j as [|j IHj]; intros Hj.
    - rewrite Nat.add_0_r. destruct S0 as (_ & -> & _). exists x0. split; [exact E0|]. assert (Gx : good_sampler x0).
      { destruct G as (_ & _ & _ & G4 & _). rewrite Forall_forall in G4. apply G4. eapply nth_error_In; exact E0. }
      split; [exact Gx|]. apply limit_start. exact Gx.
    - destruct (IHj ltac:(lia)) as (y & Ey & Gy & Wy). destruct (T (pr_offset p + j) ltac:(lia)) as (log & _ & H & _).
      destruct (Gs (pr_offset p + j) ltac:(lia)) as (L1 & L2 & _). destruct (nth_error (sm_counters (st (pr_offset p + j))) k) as [ct|] eqn:Ect.
      2:{ apply nth_error_None in Ect. assert (k < length (sm_samplers (st (pr_offset p + j)))) by (apply nth_error_Some; congruence). lia. }
      destruct (H k y ct Ey Ect) as (y' & ct' & Ey' & _ & a & y1 & m & N & A & _). rewrite Nat.add_succ_r. exists y'. split; [exact Ey'|].
      destruct (Gs (S (pr_offset p + j)) ltac:(lia)) as (_ & _ & Gf & _). rewrite Forall_forall in Gf. split; [apply Gf; eapply nth_error_In; exact Ey'|].
      apply (limit_kept x0 y y1 y' a _ _ Wy Gy N A). }
  destruct (P (sm_total (pg_sim g) - pr_offset p) ltac:(lia)) as (y & Ey & Gy & Wy). replace (pr_offset p + (sm_total (pg_sim g) - pr_offset p)) with (sm_total (pg_sim g)) in Ey by lia.
  rewrite Sl in Ey. assert (y = x) by congruence. subst y. auto.
Qed.

(** *** The schedule *)
Lemma schedule g : integrate inter t q samplers scaler div p chances interrupted pk = Some g ->
  let last := sm_total (pg_sim g) in
  exists st, last_cycle interrupted (pr_offset p) (pr_thermalisation p + pr_averaging p) last /\ pr_offset p < last /\ pg_interrupted g = interrupted last /\
    started inter samplers scaler div false (pr_offset p) (pr_offset p + pr_thermalisation p + pr_averaging p) pk (st (pr_offset p)) /\
    st last = pg_sim g /\ consecutive inter chances st (pr_offset p) last (pg_cycles g) /\
    (forall c, pr_offset p <= c <= last -> sm_total (st c) = c /\ parameters_at t q p c (st c)) /\
    pg_out g = flat_map (fun c => due p c (sm_pk (st c)) (sm_T (st c)) (sm_P (st c))) (seq (S (pr_offset p)) (last - pr_offset p)).
Proof.
  intros E. destruct (whole g E) as (Hp & st & L & Hi & S0 & Sl & Cn & I & _ & O). cbv zeta in *. exists st. split; [exact L|]. split.
  { destruct L as (L1 & L2 & L3). destruct (Nat.eq_dec (sm_total (pg_sim g)) (pr_offset p)) as [Hz|]; [|lia]. destruct (L3 ltac:(lia)). lia. }
  split; [exact Hi|]. split; [exact S0|]. split; [exact Sl|]. split; [exact Cn|]. split; [|exact O].
  intros c Hc. destruct (I c Hc) as (_ & A & B & _). auto.
Qed.
Lemma snapshots g : integrate inter t q samplers scaler div p chances interrupted pk = Some g ->
  snapshot_cycles (pg_out g) = filter (fun c => is_multiple c (pr_snapshotEvery p)) (seq (S (pr_offset p)) (sm_total (pg_sim g) - pr_offset p)) /\
  length (averages (pg_out g)) = length (filter (fun c => Nat.ltb (pr_offset p + pr_thermalisation p) c && is_multiple c (pr_averagingEvery p))
                                    (seq (S (pr_offset p)) (sm_total (pg_sim g) - pr_offset p))).
Proof.
  intros E. destruct (schedule g E) as (st & _ & _ & _ & _ & _ & _ & _ & ->). cbv zeta. generalize (seq (S (pr_offset p)) (sm_total (pg_sim g) - pr_offset p)). intros l.
  assert (Rp : forall (c : nat) (x : packing) n (rest : list output), snapshot_cycles (repeat (OutRecord c x) n ++ rest) = snapshot_cycles rest).
  { intros c x n rest. induction n as [|n IHn]; simpl; auto. }
  assert (Ra : forall (c : nat) (x : packing) n (rest : list output), averages (repeat (OutRecord c x) n ++ rest) = averages rest).
  { intros c x n rest. induction n as [|n IHn]; simpl; auto. }
  induction l as [|c l [IH1 IH2]]; [split; reflexivity|]. cbn [flat_map filter]. split.
  - unfold due. destruct (is_multiple c (pr_snapshotEvery p)).
    + cbn [app snapshot_cycles flat_map]. f_equal. rewrite <- !app_assoc. change (snapshot_cycles (repeat (OutRecord c (sm_pk (st c))) (pr_recorders p) ++ (if (pr_offset p + pr_thermalisation p <? c) && is_multiple c (pr_averagingEvery p) then [OutAverage (sm_pk (st c)) (sm_T (st c)) (sm_P (st c))] else []) ++
       (if is_multiple c (pr_inlineEvery p) then [OutInline c (sm_pk (st c)) (sm_T (st c)) (sm_P (st c))] else []) ++ flat_map (fun c0 => due p c0 (sm_pk (st c0)) (sm_T (st c0)) (sm_P (st c0))) l) = filter (fun c0 => is_multiple c0 (pr_snapshotEvery p)) l).
      rewrite Rp. destruct (_ && _), (is_multiple c (pr_inlineEvery p)); exact IH1.
    + cbn [app]. destruct (_ && _), (is_multiple c (pr_inlineEvery p)); exact IH1.
  - unfold due. destruct (is_multiple c (pr_snapshotEvery p)).
    + cbn [app averages filter]. rewrite <- !app_assoc. rewrite Ra. destruct (_ && _), (is_multiple c (pr_inlineEvery p)); cbn [app averages filter length]; try f_equal; exact IH2.
    + cbn [app]. destruct (_ && _), (is_multiple c (pr_inlineEvery p)); cbn [app averages filter length]; try f_equal; exact IH2.
Qed.
(** A run of an undivided simulation does not fail. *)
Lemma run_total : num_domains div = 1 -> (forall c, scalable (chances c)) -> Forall (enough_particles (pk_size pk)) samplers ->
  0 < pr_thermalisation p + pr_averaging p -> 0 < pr_inlineEvery p -> 0 < pr_fixEvery p -> (0 < pr_averaging p -> 0 < pr_averagingEvery p <= pr_averaging p) ->
  0 < pr_snapshotEvery p <= pr_thermalisation p + pr_averaging p ->
  (forall pk1, setupForInteraction inter pk = Some pk1 -> countTotalOverlaps pk1 inter false = Some 0) ->
  integrate inter t q samplers scaler div p chances interrupted pk <> None.
Proof.
  intros H1 Hsc Hen P1 P2 P3 P4 P5 Hz. destruct G as (G1 & G2 & G3 & G4 & G5 & G6 & G7 & G8). unfold integrate.
  assert (B1 : (0 <? pr_thermalisation p) || (0 <? pr_averaging p) = true) by (destruct (Nat.ltb_spec 0 (pr_thermalisation p)), (Nat.ltb_spec 0 (pr_averaging p)); simpl; auto; lia).
  rewrite B1. cbn [negb]. destruct (Nat.ltb_spec 0 (pr_inlineEvery p)); [|lia]. destruct (Nat.ltb_spec 0 (pr_fixEvery p)); [|lia]. cbn [andb negb].
  assert (B2 : (0 <? pr_averaging p) && negb ((0 <? pr_averagingEvery p) && (pr_averagingEvery p <=? pr_averaging p)) = false).
  { destruct (Nat.ltb_spec 0 (pr_averaging p)); [|reflexivity]. destruct (P4 ltac:(lia)). destruct (Nat.ltb_spec 0 (pr_averagingEvery p)); [|lia]. destruct (Nat.leb_spec (pr_averagingEvery p) (pr_averaging p)); [reflexivity|lia]. }
  rewrite B2. destruct (Nat.leb_spec (pr_snapshotEvery p) (pr_thermalisation p + pr_averaging p)); [|lia]. cbn [negb].
  destruct (ready inter ov en HL threads pk G3 false) as (pk1 & pk2 & E1 & E2 & V2 & Z2 & C2 & S2 & B3 & W2 & N2). rewrite E1. cbn [obind]. rewrite E2. cbn [obind].
  assert (T2 : total pk2 = 0).
  { specialize (Hz pk1 E1). destruct (setup_kept inter ov en HL threads pk (visited_good _ _ G3)) as (pk1' & E1' & V1 & _). assert (pk1' = pk1) by congruence. subst pk1'.
    rewrite (total_count inter ov en HL) in Hz by apply V1. injection Hz as Hz.
    unfold toggleOverlapCounting in E2. destruct (Bool.eqb false (pk_counting pk1)); [injection E2 as <-; exact Hz|]. cbn [negb] in E2. injection E2 as <-. exact Hz. }
  rewrite N2. cbn [obind]. rewrite T2. cbn [Nat.eqb negb].
  set (s0 := start_run t q samplers scaler div false (pr_offset p) (pr_offset p + pr_thermalisation p + pr_averaging p) pk2).
  assert (I0 : sinv inter threads (pk_size pk) s0) by (apply (start_sinv inter threads); auto).
  assert (X0 : num_domains (sm_div (pg_sim (Progress s0 [] [] false))) = 1) by exact H1.
  assert (Y0 : Forall (enough_particles (pk_size pk)) (sm_samplers (pg_sim (Progress s0 [] [] false)))) by exact Hen.
  assert (PS : 0 < pr_snapshotEvery p) by lia. assert (PT : Thermalisation = Averaging -> 0 < pr_averagingEvery p) by discriminate.
  destruct (phase_total inter ov en HL threads (pk_size pk) t q p chances interrupted G1 G2 Hsc Thermalisation P3 PS P2 PT (pr_thermalisation p) (Progress s0 [] [] false) I0 X0 Y0) as (g1 & E3 & H3 & H4).
  rewrite E3. cbn [obind]. destruct (pg_interrupted g1); [discriminate|].
  destruct (phase_spec inter ov en HL threads (pk_size pk) t q p chances interrupted G1 G2 Thermalisation _ (Progress s0 [] [] false) _ I0 E3) as (st1 & cy1 & A1 & A2 & _ & A4 & A5 & _ & _ & A8 & _).
  cbv zeta in *. assert (I1 : sinv inter threads (pk_size pk) (pg_sim g1)) by (rewrite <- A2; apply A8; destruct A5 as (A5 & _); lia).
  destruct (Nat.eq_dec (pr_averaging p) 0) as [Ha|Ha]; [rewrite Ha; discriminate|].
  assert (PA : Averaging = Averaging -> 0 < pr_averagingEvery p) by (intros _; apply P4; lia).
  destruct (phase_total inter ov en HL threads (pk_size pk) t q p chances interrupted G1 G2 Hsc Averaging P3 PS P2 PA (pr_averaging p) (Progress (set_adjust (pg_sim g1) false) (pg_out g1) (pg_cycles g1) false)
    (sinv_adjust inter threads (pk_size pk) false _ I1) H3 H4) as (g2 & E4 & _). rewrite E4. discriminate.
Qed.
End Setting.
End Final.
