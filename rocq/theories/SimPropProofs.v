From Coq Require Import Reals ZArith List Bool Lia Lra ZifyBool ZifyNat.
From Verif Require Import GeomModel BoxModel BoxSpec PbcModel PbcSpec NGModel PackModel PackSpec DomModel DomSpec RotModel RotSpec SimModel SimSpec SimRunSpec.
From Verif Require Import GeomProofs BoxProofs RotProofs RotFlipProofs PackInvProofs PackHistProofs PackFinalProofs SimMoveProofs SimStateProofs SimPlanProofs SimCycleProofs SimRunProofs SimIntegrateProofs SimFinalProofs.
Import ListNotations.
Open Scope nat_scope.

Lemma requested_wanted x n m : requested x n = Some m <-> enough_particles n x /\ m = wanted n x.
Proof.
  destruct x; simpl; try (split; [intros H; injection H as <-; auto|intros [_ ->]; reflexivity]).
  destruct (Nat.ltb_spec every n); split; try discriminate; intros H1; [injection H1 as <-; auto|destruct H1 as [_ ->]; reflexivity|lia].
Qed.
Lemma sum_wanted n : forall ss acc l, accumulations ss n acc = Some l -> requested_sum ss n = wanted_by_all n ss.
Proof.
  induction ss as [|s ss IH]; intros acc l E; [reflexivity|]. cbn [accumulations] in E. unfold wanted_by_all in *. cbn [requested_sum map list_sum fold_right].
  destruct (requested s n) as [m|] eqn:R; [|discriminate]. cbn [obind] in E. apply requested_wanted in R. destruct R as [_ ->].
  destruct (accumulations ss n (acc + wanted n s)) as [l'|] eqn:E'; [|discriminate]. rewrite (IH _ _ E'). reflexivity.
Qed.

Section Run.
Variables (inter : interaction) (ov : law bool) (en : law R).
Hypothesis HL : lawful inter ov en.
Lemma state_sinv threads s : good_state inter threads s <-> sinv inter threads (pk_size (sm_pk s)) s.
Proof.
  assert (K : visited inter threads (sm_pk s) -> countTotalOverlaps (sm_pk s) inter false = Some (total inter (sm_pk s))).
  { intros V. apply (total_count inter ov en HL). apply (visited_good inter ov en HL _ _ V). }
  split.
  - intros (A & B & C & D & E & F & G & H & I). split; auto. intros Hc. specialize (I Hc). rewrite (K A) in I. injection I; auto.
  - intros [A _ B C D E F G H I]. do 8 (split; [assumption|]). intros Hc. rewrite (K A), (I Hc). reflexivity.
Qed.
Lemma cycle_rule threads ch s s1 log : 0 < threads -> good_state inter threads s -> good_chance threads ch -> num_domains (sm_div s) = 1 -> (0 < sm_T s)%R ->
  performCycle inter ch s = Some (s1, log) -> cycle_made inter ch s log (sm_pk s1) /\ good_state inter threads s1.
Proof.
  intros Hth Gs Hch Hd HT E. apply state_sinv in Gs. pose proof (cycle_spec inter ov en HL threads _ ch s s1 log Hth Hch Gs E) as [I1 _]. split.
  2:{ apply state_sinv. rewrite (v_size _ _ _ _ I1). exact I1. }
  clear I1. unfold performCycle in E. destruct (performMoves_sim _ 0 inter ch s) as [[sa ms]|] eqn:Em; [|discriminate]. cbn [obind fst snd] in E.
  destruct (moves_done inter ov en HL threads _ ch Hth Hch _ 0 s sa ms Gs Em) as (I1 & M & _). unfold attempts in Em. cbn [performMoves_sim] in Em. rewrite Hd in Em. cbn [Nat.eqb] in Em.
  pose proof (sequential_made inter ov en HL threads _ ch s sa ms Hth Gs Hch Em) as Mm. destruct (proj1 (sequential inter ov en HL threads _ ch s Hth Gs Hch) sa ms Em) as (_ & _ & _ & L).
  assert (L' : length ms = wanted_by_all (pk_size (sm_pk s)) (sm_samplers s)).
  { rewrite L. unfold performMovesWithoutDomainDivision in Em. cbv zeta in Em. destruct (accumulations _ _ _) as [accs|] eqn:Ea; [|discriminate]. eapply sum_wanted; eauto. }
  destruct M as [M1 M2 (F1 & F2 & F3 & F4 & F5 & F6 & F7 & F8 & F9) M4 M5 M6].
  destruct (match sm_scaler sa with None => _ | Some _ => _ end) as [[s2 sc]|] eqn:E2; [|discriminate]. cbn [obind fst snd] in E.
  assert (K : sm_pk s1 = sm_pk s2 /\ log = CycleLog ms sc).
  { destruct (sm_adjust s2).
    - unfold evaluateCounters in E. destruct (evaluateMoleculeMoveCounter _ _ _) as [[ss' cs']|]; [|discriminate]. cbn [obind fst snd] in E.
      destruct (match sm_scaler s2 with Some _ => _ | None => _ end) as [scaler' c']. cbn [obind] in E. injection E as <- <-. auto.
    - cbn [obind] in E. injection E as <- <-. auto. }
  destruct K as [K ->]. exists (sm_pk sa). cbn [cl_moves cl_scaled]. split; [exact Mm|]. split; [exact L'|]. rewrite <- F1. destruct (sm_scaler sa) as [step|] eqn:Esc.
  - destruct (tryScaling_sim inter ch step sa) as [[pk' ok]|] eqn:Et; [|discriminate]. cbn [obind fst snd] in E2. injection E2 as <- <-. cbn [sm_pk] in K.
    assert (Hcv : in_convex inter = false) by (destruct (v_conv _ _ _ _ I1); [congruence|auto]).
    destruct (scaling_rule inter ov en HL threads _ ch step sa pk' ok I1 Hch Hcv ltac:(rewrite F3; exact HT) Et) as (nb & pk2 & n0 & n2 & e0 & e2 & X1 & X2 & X3 & X4 & X5 & X6 & X7 & X8 & X9).
    assert (Bx : pk_box (sm_pk sa) = pk_box (sm_pk s)) by auto. exists ok, nb. split; [reflexivity|]. split; [congruence|]. exists pk2, n0, n2, e0, e2. rewrite K.
    split; [exact X2|]. split; [exact X3|]. split; [exact X4|]. split; [exact X5|]. split; [exact X6|]. split; [exact X7|]. split; [exact X8|].
    rewrite F3, F4 in X9. rewrite (v_counting _ _ _ _ I1), (v_size _ _ _ _ I1). exact X9.
  - injection E2 as <- <-. split; [reflexivity|]. exact K.
Qed.
(** The whole run. *)
Section Setting.
Variables (threads : nat) (t q : parameter) (samplers : list sampler) (scaler : option R) (div : axis -> nat) (p : parameters)
  (chances : nat -> chance) (interrupted : nat -> bool) (pk : packing).
Hypothesis G : good_setting inter threads samplers scaler div chances pk.
Lemma run_rule g : integrate inter t q samplers scaler div p chances interrupted pk = Some g ->
  let last := sm_total (pg_sim g) in
  exists st, started inter samplers scaler div false (pr_offset p) (pr_offset p + pr_thermalisation p + pr_averaging p) pk (st (pr_offset p)) /\
    st last = pg_sim g /\ consecutive inter chances st (pr_offset p) last (pg_cycles g) /\
    (forall c, pr_offset p <= c <= last -> good_state inter threads (st c) /\ sm_counted (st c) = false) /\
    (num_domains div = 1 -> (forall c, (0 < t c (pr_offset p + pr_thermalisation p + pr_averaging p)%nat)%R) ->
      forall c, pr_offset p <= c < last -> exists pk1 log, nth_error (pg_cycles g) (c - pr_offset p) = Some log /\
        cycle_made inter (chances (S c)) (st c) log pk1 /\
        shapes_of (sm_pk (st (S c))) = shapes_of pk1 /\ pk_box (sm_pk (st (S c))) = pk_box pk1 /\ pk_wall (sm_pk (st (S c))) = pk_wall pk1).
Proof.
  intros E last. destruct (whole inter ov en HL _ _ _ _ _ _ _ _ _ _ G g E) as (_ & st & _ & _ & St & Ls & Cs & Inv & Stp & _). fold last in Ls, Cs, Inv, Stp.
  pose proof G as (Hth & Hch & _).
  assert (Gd : forall c, pr_offset p <= c <= last -> good_state inter threads (st c)).
  { intros c Hc. destruct (Inv c Hc) as (I & _). apply state_sinv. rewrite (v_size _ _ _ _ I). exact I. }
  assert (Cn : forall k, pr_offset p + k <= last -> sm_counted (st (pr_offset p + k)) = false /\ (num_domains div = 1 -> num_domains (sm_div (st (pr_offset p + k))) = 1)).
  { destruct St as (_ & _ & _ & _ & _ & S1 & S2 & _). induction k as [|k IH]; intros Hk.
    - replace (pr_offset p + 0) with (pr_offset p) by lia. rewrite S1, S2. auto.
    - destruct IH as [IH1 IH2]; [lia|]. destruct (Stp (pr_offset p + k) ltac:(lia)) as (_ & s1 & log & E1 & _ & [_ _ _ (_ & _ & D & _) Dv _ _] & (_ & _ & _ & _ & _ & Q1 & Q2 & _)).
      replace (pr_offset p + S k) with (S (pr_offset p + k)) by lia. rewrite Q1, Q2. split; [congruence|]. intros H1. specialize (IH2 H1).
      unfold num_domains in *. pose proof (Dv AX). pose proof (Dv AY). pose proof (Dv AZ). 
      assert (B : sm_div (st (pr_offset p + k)) AX = 1 /\ sm_div (st (pr_offset p + k)) AY = 1 /\ sm_div (st (pr_offset p + k)) AZ = 1).
      { apply Nat.eq_mul_1 in IH2. destruct IH2 as [Z1 Z3]. apply Nat.eq_mul_1 in Z1. tauto. }
      destruct B as (B1 & B2 & B3). replace (sm_div s1 AX) with 1 by lia. replace (sm_div s1 AY) with 1 by lia. replace (sm_div s1 AZ) with 1 by lia. reflexivity. }
  exists st. split; [exact St|]. split; [exact Ls|]. split; [exact Cs|]. split.
  { intros c Hc. split; [auto|]. destruct (Cn (c - pr_offset p)) as [Y _]; [lia|]. replace (pr_offset p + (c - pr_offset p)) with c in Y by lia. exact Y. }
  intros H1 HT c Hc. destruct (Stp c Hc) as (_ & s1 & log & E1 & E2 & _ & (Q & _)). exists (sm_pk s1), log. split; [exact E2|]. split; [|exact Q].
  apply (cycle_rule threads (chances (S c)) (st c) s1 log); auto; [apply Gd; lia| |].
  - destruct (Cn (c - pr_offset p)) as [_ Y]; [lia|]. replace (pr_offset p + (c - pr_offset p)) with c in Y by lia. exact (Y H1).
  - destruct (Inv c ltac:(lia)) as (_ & _ & [-> _] & _). apply HT.
Qed.
End Setting.
End Run.

Lemma sampled_rotation b x thread i inside d f s r m : good_sampler x -> good_draw d -> sampled_op b x thread i inside d = Some f -> op_rotation (f s) = Some r ->
  largest_angle x = Some m -> rotation r /\ exists a angle, vnorm2 a = 1%R /\ (exists k, 0 < k /\ a = vscale k (dr_axis d))%R /\
    rotates_about r a angle /\ angle = (dr_angle d * m)%R /\ (Rabs angle <= m)%R.
Proof.
  intros Hx (_ & Ha & Hd & _) E Er Em.
  assert (K : r = mrot_axis (vnormalized (dr_axis d)) (m * dr_angle d) /\ (0 < m)%R).
  { destruct x as [|st|ts rs mx im|]; cbn in *; try discriminate.
    - injection E as <-. injection Em as <-. cbn in Er. injection Er as <-. auto.
    - destruct rs as [r0|]; [|discriminate]. cbn in E. injection E as <-. injection Em as <-. cbn in Er. injection Er as <-. split; [reflexivity|].
      destruct Hx as (_ & r1 & H & Hr). injection H as ->. apply Rmin_glb_lt; [exact Hr|apply PI_RGT_0]. }
  destruct K as [-> Hm]. pose proof (normalized_unit _ Ha) as U. split; [apply rot_rotation; exact U|]. exists (vnormalized (dr_axis d)), (dr_angle d * m)%R.
  split; [exact U|]. split; [exists (/ vnorm (dr_axis d))%R; split; [apply Rinv_0_lt_compat, vnorm_pos; exact Ha|reflexivity]|].
  split; [rewrite Rmult_comm; apply rot_about; exact U|]. split; [reflexivity|].
  rewrite Rabs_mult, (Rabs_pos_eq m) by lra. assert (Rabs (dr_angle d) <= 1)%R by (apply Rabs_le; lra). nra.
Qed.

Lemma type_spec n : forall ss acc accs k, accumulations ss n acc = Some accs -> acc <= k -> k < acc + wanted_by_all n ss ->
  let g := move_type accs k in acc + wanted_by_all n (firstn g ss) <= k < acc + wanted_by_all n (firstn (S g) ss) /\ g < length ss.
Proof.
  assert (C0 : forall s ss, wanted_by_all n (s :: ss) = wanted n s + wanted_by_all n ss) by reflexivity.
  assert (N0 : wanted_by_all n [] = 0) by reflexivity.
  induction ss as [|s ss IH]; intros acc accs k E H1 H2; cbn [accumulations] in E; [lia|]. rewrite C0 in H2.
  destruct (requested s n) as [m|] eqn:Rq; [|discriminate]. cbn [obind] in E. apply requested_wanted in Rq. destruct Rq as [_ ->].
  destruct (accumulations ss n (acc + wanted n s)) as [l'|] eqn:E'; [|discriminate]. cbn [obind] in E. injection E as <-.
  cbn [move_type]. destruct (Nat.ltb_spec k (acc + wanted n s)) as [C|C].
  - cbn [firstn length]. rewrite C0, N0. lia.
  - destruct (IH _ _ k E' C) as [A B]; [lia|]. set (g := move_type l' k) in *. cbn zeta in *. cbn [length].
    change (firstn (S (S g)) (s :: ss)) with (s :: firstn (S g) ss). change (firstn (S g) (s :: ss)) with (s :: firstn g ss). rewrite !C0. lia.
Qed.
Lemma last_wanted n ss acc accs : accumulations ss n acc = Some accs -> ss <> [] -> last accs 0 = acc + wanted_by_all n ss.
Proof. intros E H. rewrite (accumulations_last _ _ _ _ E H). f_equal. eapply sum_wanted; eauto. Qed.
Lemma selection b samplers n accs particles thread inside T d g pl : accumulations samplers n 0 = Some accs -> 0 < wanted_by_all n samplers ->
  make_plan b samplers accs particles thread inside T d = Some (g, pl) ->
  let m := Nat.modulo (dr_type d) (wanted_by_all n samplers) in
  wanted_by_all n (firstn g samplers) <= m < wanted_by_all n (firstn (S g) samplers) /\
  nth_error particles (Nat.modulo (dr_pick d) (length particles)) = Some (pl_i pl) /\
  (exists x, nth_error samplers g = Some x /\ sampled_op b x thread (pl_i pl) inside d = Some (pl_op pl)) /\
  forall e, pl_accept pl e = true <-> accepted_by (dr_u d) T e.
Proof.
  intros Ea Hp E m. assert (Hne : samplers <> []) by (intros ->; cbn in Hp; lia).
  unfold make_plan in E. cbv zeta in E. rewrite (last_wanted _ _ _ _ Ea Hne) in E. cbn [plus] in E. fold m in E.
  assert (Hm : m < wanted_by_all n samplers) by (apply Nat.mod_upper_bound; lia).
  destruct (type_spec n samplers 0 accs m Ea ltac:(lia) ltac:(lia)) as [A _].
  destruct (nth_error samplers (move_type accs m)) as [x|] eqn:Ex; [|discriminate]. cbn [obind] in E.
  destruct (pick_particle particles d) as [i|] eqn:Ei; [|discriminate]. cbn [obind] in E.
  destruct (sampled_op b x thread i inside d) as [op|] eqn:Eo; [|discriminate]. cbn [obind] in E.
  pose proof (f_equal (fun o => match o with Some p => fst p | None => 0 end) E) as G. cbn [fst] in G. subst g.
  assert (P : pl = Plan i op (metropolis (dr_u d) T)) by (apply (f_equal (fun o => match o with Some p => snd p | None => pl end)) in E; cbn [snd] in E; auto). subst pl. cbn [pl_i pl_op pl_accept].
  split; [exact A|]. split; [exact Ei|]. split; [exists x; auto|]. intros e. apply metropolis_accepts.
Qed.
Lemma sampled_translation b x thread i inside d f s tr st m : sampled_op b x thread i inside d = Some f -> op_translation (f s) = Some tr ->
  translation_step x = Some st -> displacement_limit b x m -> tr = vscale (Rmin m st) (dr_shift d).
Proof.
  intros E Et Es Em. destruct x as [step mx [|]|st0|ts [r|] mx [|]|]; cbn in *; try discriminate; subst m; injection Es as <-; injection E as <-; cbn in Et; injection Et as <-; reflexivity.
Qed.
