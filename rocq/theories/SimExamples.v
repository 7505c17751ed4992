(** Two balls in a run, and a move which is accepted in spite of an overlap. *)
From Coq Require Import Reals ZArith List Bool Lia Lra.
From Verif Require Import GeomModel BoxModel BoxSpec RFloorModel PbcModel PbcSpec PbcTotalModel NGModel NGSpec GeomProofs BoxProofs RFloorProofs PbcProofs NGListProofs NGGeomProofs NGProofs NGPairProofs.
From Verif Require Import PackModel PackSpec PackSumProofs PackGridProofs PackCountProofs PackInvProofs PackHistProofs PackFinalProofs PackExamples.
From Verif Require Import DomModel DomSpec DomFinalProofs DomRunProofs DomExamples RotModel RotSpec SimModel SimSpec SimMoveProofs SimStateProofs SimCycleProofs SimIntegrateProofs SimFinalProofs.
Import ListNotations.
Open Scope R_scope.

Definition some_draw : draw := Draw 0 1 (V3 0.1 0 0) (V3 1 0 0) 0.5 0.5.
Definition some_chance : chance := Chance (fun _ => some_draw) (fun _ => vzero) (fun _ _ => some_draw) (fun _ => 0%nat) (fun _ _ => []) [0%nat] (fun _ b => Some b) 0.5.
Definition no_walls (a : axis) : bool := false.
Definition undivided (a : axis) : nat := 1%nat.
Definition some_samplers : list sampler := [Translation 1 2 false; Rotation 1].
Definition some_parameters : parameters := Parameters 7 5 2 3 4 2 10 1.
Lemma some_draw_good : good_draw some_draw.
Proof. split; [intros []; simpl; lra|]. split; [intros H; injection H; intros; lra|]. simpl. lra. Qed.
Lemma some_chance_good : good_chance 2 some_chance /\ scalable some_chance.
Proof.
  split; [|intros st b Hb; exists b; auto].
  split; [intros; apply some_draw_good|]. split; [intros; apply some_draw_good|]. split; [intros k []; simpl; lra|]. split; [intros; simpl; lia|].
  split; [constructor; [intros []|constructor]|]. split; [intros; simpl; auto|]. split; [|simpl; lra]. intros st b b' Hb E. injection E as <-. exact Hb.
Qed.

Section Two.
Variable b : box.
Hypothesis Hb : box_of_sides (V3 10 0 0) (V3 0 4 0) (V3 0 0 4) = Some b.
Lemma two_free : counts (overlapping (ball_ov 1) b (ball 1) two_balls) 0.
Proof.
  exists []. split; [constructor|]. split; [|reflexivity]. intros c. split; [intros []|].
  intros ((H1 & H2 & H3 & i & j & k & H4) & H5). exfalso. destruct c as [ci cci cj ccj sh]. cbn [ct_i ct_ci ct_j ct_cj ct_shift] in *.
  unfold sites_no in H2, H3. simpl in H1, H2, H3. assert (ci = 0%nat) by lia. assert (cj = 1%nat) by lia. assert (cci = 0%nat) by lia. assert (ccj = 0%nat) by lia.
  subst. unfold contact_value, ball_ov in H5. apply Rltb_true in H5. unfold contact_displacement in H5. cbn [ct_i ct_ci ct_j ct_cj ct_shift] in H5.
  rewrite (sided_lattice _ _ _ _ Hb) in H5. unfold vnorm2, vdot, site_position, lincomb in H5. simpl in H5.
  set (x := IZR i) in *. set (y := IZR j) in *. set (z := IZR k) in *.
  match type of H5 with ?t < _ => replace t with ((5 + 10 * x) * (5 + 10 * x) + (4 * y) * (4 * y) + (4 * z) * (4 * z)) in H5 by (field_simplify; lra) end.
  pose proof (Rle_0_sqr (5 + 10 * x)) as Q1. pose proof (Rle_0_sqr (4 * y)) as Q2. pose proof (Rle_0_sqr (4 * z)) as Q3. unfold Rsqr in Q1, Q2, Q3.
  assert (X : (5 + 10 * x) * (5 + 10 * x) < 1) by lra. assert (X0 : -1 < x < 1) by (split; nra). apply IZR_small in X0. unfold x in X. rewrite X0 in X. simpl in X. lra.
Qed.
Lemma two_trusted pk : pk_box pk = b -> one_image (pk_box pk) (ball 1) /\ trusted_distance (pk_box pk) (ball_ov 1).
Proof.
  intros ->. split; [intros a; pose proof (two_heights b Hb a); simpl; lra|]. left. destruct (box_sides_given _ _ _ _ Hb) as (E0 & E1 & E2).
  unfold orthogonal_sides. rewrite E0, E1, E2. unfold vdot; simpl. lra.
Qed.
Lemma two_count pk : inv (ball 1) pk -> pk_box pk = b -> shapes_of pk = two_balls -> pk_wall pk = no_walls -> countTotalOverlaps pk (ball 1) false = Some 0%nat.
Proof.
  intros Hi Hbx Hsh Hw. destruct (counts_contacts _ _ _ (ball_lawful 1 Rlt_0_1) pk Hi) as (n & w & En & Cn & Cw); [intros _; apply two_trusted; exact Hbx|]. rewrite Hbx, Hsh in Cn.
  pose proof (counts_unique _ _ _ Cn two_free) as ->. unfold countWallOverlaps, hasAnyWalls in Cw. rewrite Hw in Cw. injection Cw as <-. exact En.
Qed.
Lemma two_setting : exists pk, good_setting (ball 1) 2 some_samplers None undivided (fun _ => some_chance) pk /\ pk_size pk = 2%nat /\ inv (ball 1) pk /\ pk_box pk = b /\
  shapes_of pk = two_balls /\ pk_wall pk = no_walls /\ pk_counting pk = false /\ length (pk_temps pk) = 2%nat /\ countTotalOverlaps pk (ball 1) false = Some 0%nat.
Proof.
  pose proof (ball_lawful 1 Rlt_0_1) as HL. pose proof (two_start b Hb) as Hs.
  destruct (new_spec (ball 1) (ball_ov 1) (ball_en 1) HL 2 two_balls b Hs) as (pk & E & Hi & Hsh & Hbx & Hw & Hc & Ht). exists pk. split.
  - split; [lia|]. split; [intros; apply some_chance_good|]. split.
    { apply (visit_start (ball 1) 2 two_balls b []); [split; [exact Hs|split; [exact I|exists pk; auto]]|].
      intros s Hs'. rewrite Hsh in Hs'. intros v. destruct Hs' as [<-|[<-|[]]]; unfold vnorm2, vdot; simpl; ring. }
    split; [repeat constructor; simpl; lra|]. split; [exact I|]. split; [intros; unfold undivided; lia|]. split; [left; reflexivity|left; reflexivity].
  - split; [unfold pk_size; rewrite <- (map_length pt_shape); fold (shapes_of pk); rewrite Hsh; reflexivity|]. split; [exact Hi|]. split; [exact Hbx|]. split; [exact Hsh|]. split; [exact Hw|]. split; [exact Hc|]. split; [exact Ht|].
    apply two_count; auto.
Qed.
Lemma two_run t q interrupted : exists pk g, good_setting (ball 1) 2 some_samplers None undivided (fun _ => some_chance) pk /\
  integrate (ball 1) t q some_samplers None undivided some_parameters (fun _ => some_chance) interrupted pk = Some g.
Proof.
  destruct two_setting as (pk & G & Hz & Hi & Hbx & Hsh & Hw & Hc & _). exists pk. pose proof (ball_lawful 1 Rlt_0_1) as HL.
  assert (X : integrate (ball 1) t q some_samplers None undivided some_parameters (fun _ => some_chance) interrupted pk <> None).
  { apply (run_total (ball 1) (ball_ov 1) (ball_en 1) HL 2); auto; try (simpl; lia).
    - intros; apply some_chance_good.
    - repeat constructor; exact I.
    - intros pk1 E1. pose proof G as (_ & _ & V & _).
      destruct (setup_kept (ball 1) (ball_ov 1) (ball_en 1) HL 2 pk (visited_good (ball 1) (ball_ov 1) (ball_en 1) HL _ _ V)) as (pk1' & E1' & V1 & S1 & B1 & W1 & _).
      assert (pk1' = pk1) by congruence. subst pk1'. apply two_count; [apply V1|congruence|congruence|congruence]. }
  destruct (integrate _ _ _ _ _ _ _ _ _ _) as [g|]; [|congruence]. exists g. auto.
Qed.
Lemma zero_accepts T : exists pk pk' n, visited (ball 1) 2 pk /\ countTotalOverlaps pk (ball 1) false = Some 0%nat /\
  perform_plan (ball 1) 0 (Plan 1 (fun _ => DoTranslation 0 1 (V3 (-5) 0 0) None true) (metropolis 0 T)) pk = Some (pk', true) /\
  countTotalOverlaps pk' (ball 1) false = Some n /\ (0 < n)%nat.
Proof.
  destruct two_setting as (pk & G & Hz & Hi & Hbx & Hsh & Hw & Hc & Ht & N0). pose proof (ball_lawful 1 Rlt_0_1) as HL. pose proof G as (_ & _ & V & _).
  set (o := DoTranslation 0 1 (V3 (-5) 0 0) None true). assert (Es : nth_error (shapes_of pk) 1 = Some (upright 7.5 2 2)) by (rewrite Hsh; reflexivity).
  destruct (move_all (ball 1) (ball_ov 1) (ball_en 1) HL pk o 0 1 (upright 7.5 2 2) Hi (conj eq_refl eq_refl) Es ltac:(lia)) as (pk1 & e & s' & E & Sm & _ & _ & Hmv & _ & Hno).
  destruct Hno as (pk2 & n0 & n2 & e0 & e2 & Ea & Hi2 & _ & _ & _ & M1 & M2 & M3 & M4 & C0 & C2 & _ & _ & He & _); [intros []|].
  assert (n0 = 0%nat) by congruence. subst n0. specialize (He (or_intror eq_refl)).
  exists pk, pk2, n2. split; [exact V|]. split; [exact N0|].
  assert (Hn : (0 < n2)%nat).
  { destruct (counts_contacts _ _ _ HL pk2 Hi2) as (n & w & En & Cn & Cw); [intros _; apply two_trusted; congruence|]. destruct Hmv as [[_ (i & j & k & L)] Hr].
    rewrite Hsh in M1. cbn [two_balls set_nth] in M1. assert (S2 : shapes_of pk2 = [upright 2.5 2 2; s']) by congruence. rewrite S2, M2, Hbx in Cn.
    destruct Cn as (l & _ & Hl & <-). assert (O : overlapping (ball_ov 1) b (ball 1) [upright 2.5 2 2; s'] (Contact 0 0 1 0 (lattice_vector b (- i) (- j) (- k)))).
    { split.
      - split; [simpl; lia|]. split; [unfold sites_no; simpl; lia|]. split; [unfold sites_no; simpl; lia|]. do 3 eexists; reflexivity.
      - unfold contact_value, ball_ov. apply Rltb_true. unfold contact_displacement. cbn [ct_i ct_ci ct_j ct_cj ct_shift nth].
        rewrite Hbx, (sided_lattice _ _ _ _ Hb) in L. rewrite (sided_lattice _ _ _ _ Hb). destruct s' as [[px py pz] rt].
        unfold vnorm2, vdot, site_position, lincomb in *. cbn in L. cbn. injection L as L1 L2 L3. rewrite !opp_IZR. nra. }
    apply Hl in O. rewrite C2 in En. injection En as ->. destruct l; [destruct O|simpl; lia]. }
  split; [|auto]. unfold perform_plan. cbn [pl_i pl_op pl_accept]. destruct (nth_error (pk_parts pk) 1) as [p|] eqn:Ep.
  2:{ unfold shapes_of in Es. rewrite nth_error_map, Ep in Es. discriminate. }
  cbn [obind]. fold o. rewrite E. cbn [obind fst snd]. rewrite He, Hc. unfold energy_change. destruct (Nat.ltb_spec 0 n2); [|lia]. cbn [metropolis].
  assert (Z : Rleb 0 0 = true) by (apply Rleb_true; lra). rewrite Z, Ea. reflexivity.
Qed.
End Two.

Lemma exceeds : exists x x' step max im, newTranslation 1 1.05 = Some x /\ increaseStepSize x = Some (x', true) /\ x' = Translation step max im /\ 0 < max /\ max < step.
Proof.
  unfold newTranslation, legal_step. assert (A : Rltb 0 1 = true) by (apply Rltb_true; lra). assert (B : Rleb 0 1.05 = true) by (apply Rleb_true; lra).
  rewrite ?A, ?B. assert (C : Rltb 1.05 1 = false) by (apply Rltb_false; lra). assert (D : Rleb 1 1.05 = true) by (apply Rleb_true; lra). rewrite ?C, ?D. cbn.
  assert (F : Rleb 1.05 1 = false) by (apply Rleb_false; lra). eexists; eexists; eexists; eexists; eexists. split; [rewrite ?orb_true_r; reflexivity|].
  split; [cbn; unfold increase_translation; rewrite F, andb_false_r; reflexivity|]. split; [reflexivity|]. lra.
Qed.
