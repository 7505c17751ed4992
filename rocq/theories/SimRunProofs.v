(** Cycles and runs of a simulation. *)
From Coq Require Import Reals ZArith List Bool Lia Lra Permutation.
From Verif Require Import GeomModel BoxModel BoxSpec RFloorModel RFloorProofs PbcModel PbcSpec NGModel GeomProofs BoxProofs NGListProofs.
From Verif Require Import PackModel PackSpec PackSumProofs PackGridProofs PackCountProofs PackTotalProofs PackProofs PackInvProofs PackHistProofs PackFinalProofs.
From Verif Require Import DomModel DomSpec DomFinalProofs DomRunProofs DomRunFinalProofs DomMoreProofs RotModel RotSpec RotProofs RotFlipProofs.
From Verif Require Import SimModel SimSpec SimMoveProofs SimStateProofs SimPlanProofs SimCycleProofs.
Import ListNotations.
Open Scope nat_scope.

(** *** Step sizes *)
Lemma tenth : (1.1 = 11 / 10)%R. Proof. lra. Qed.
Lemma increase_spec s : good_sampler s -> exists s' b, increaseStepSize s = Some (s', b) /\ adjusted_to Grown s s' /\ good_sampler s'.
Proof.
  assert (Hpi := PI_RGT_0). destruct s as [st mx im|st|ts rs mx im|ev fl]; cbn [good_sampler increaseStepSize].
  - intros H. unfold increase_translation. destruct (Rltb 0 mx && Rleb mx st) eqn:E.
    + exists (Translation st mx im), false. split; [reflexivity|]. split; [|exact H]. cbn [adjusted_to]. split; [reflexivity|]. split; [reflexivity|].
      split; [auto|]. intros N. destruct N. apply andb_true_iff in E. destruct E as [E1 E2]. split; [apply Rltb_true|apply Rleb_true]; auto.
    + exists (Translation (st * 1.1) mx im), true. split; [reflexivity|]. split; [|cbn; lra]. cbn [adjusted_to]. split; [reflexivity|]. split; [reflexivity|].
      split; [|intros _; lra]. intros [L1 L2]. apply Rltb_true in L1. apply Rleb_true in L2. rewrite L1, L2 in E. discriminate.
  - intros H. eexists _, _. split; [reflexivity|]. destruct (Rltb PI (st * 1.1)) eqn:E; cbn [adjusted_to good_sampler].
    + apply Rltb_true in E. split; [rewrite Rmin_left; lra|exact Hpi].
    + apply Rltb_false in E. split; [rewrite Rmin_right; lra|lra].
  - intros (H & r & -> & Hr). cbn [obind]. unfold increase_translation. destruct (Rltb 0 mx && Rleb mx ts) eqn:E.
    + eexists _, _. split; [reflexivity|]. cbn [adjusted_to good_sampler]. replace (r * (ts / ts))%R with r by (field; lra).
      split; [|split; [exact H|eauto]]. split; [reflexivity|]. split; [reflexivity|]. split; [auto|]. intros N. destruct N. apply andb_true_iff in E. destruct E as [E1 E2]. split; [apply Rltb_true|apply Rleb_true]; auto.
    + eexists _, _. split; [reflexivity|]. cbn [adjusted_to good_sampler]. rewrite tenth. replace (r * (ts * (11 / 10) / ts))%R with (r * (11 / 10))%R by (field; lra).
      split; [|split; [lra|eexists; split; [reflexivity|lra]]]. split; [reflexivity|]. split; [reflexivity|]. split; [|auto]. intros [L1 L2]. apply Rltb_true in L1. apply Rleb_true in L2. rewrite L1, L2 in E. discriminate.
  - intros H. exists (Flipping ev fl), false. split; [reflexivity|]. split; [reflexivity|exact H].
Qed.
Lemma decrease_spec s : good_sampler s -> exists s' b, decreaseStepSize s = Some (s', b) /\ adjusted_to Shrunk s s' /\ good_sampler s'.
Proof.
  assert (D : forall x, (0 < x -> 0 < x / (11 / 10))%R) by (intros x H; apply Rdiv_lt_0_compat; lra).
  destruct s as [st mx im|st|ts rs mx im|ev fl]; cbn [good_sampler decreaseStepSize]; rewrite ?tenth.
  - intros H. eexists _, _. split; [reflexivity|]. cbn. auto.
  - intros H. eexists _, _. split; [reflexivity|]. cbn. auto.
  - intros (H & r & -> & Hr). cbn [obind]. eexists _, _. split; [reflexivity|]. cbn. split; [auto|]. split; [auto|]. eauto.
  - intros H. eexists _, _. split; [reflexivity|]. split; [reflexivity|exact H].
Qed.
Definition window_after (window : nat) (c : counter) : counter := if window <=? ct_recent c then resetCurrent c else c.
Lemma adjusted_good a s s' : good_sampler s -> adjusted_to a s s' -> good_sampler s'.
Proof.
  assert (Hpi := PI_RGT_0). assert (D : forall x, (0 < x -> 0 < x / (11 / 10))%R) by (intros x H; apply Rdiv_lt_0_compat; lra).
  destruct a; [| |cbn; intros H ->; exact H]; destruct s as [st mx im|st|ts [r|] mx im|ev fl], s' as [st' mx' im'|st'|ts' [r'|] mx' im'|ev' fl']; cbn [adjusted_to good_sampler]; try tauto;
   try (intros H E; injection E; intros; subst; exact H); try discriminate.
  - intros H (_ & _ & A & B). destruct (Rle_dec mx st), (Rlt_dec 0 mx); [rewrite A by (split; lra); lra| | |];
      rewrite B by (intros [? ?]; lra); lra.
  - intros H ->. apply Rmin_glb_lt; lra.
  - intros (H & r0 & E & Hr) (_ & _ & A & B). injection E as <-.
    destruct (Rle_dec mx ts), (Rlt_dec 0 mx); [destruct A as [-> ->]; [split; lra|split; [lra|eauto]]| | |];
      (destruct B as [-> ->]; [intros [? ?]; lra|split; [lra|eexists; split; [reflexivity|lra]]]).
  - intros H (_ & _ & ->). auto.
  - intros H ->. auto.
  - intros (H & r0 & E & Hr) (_ & _ & -> & ->). injection E as <-. split; [auto|eauto].
Qed.
Lemma adjusted_requested a s s' n : good_sampler s -> adjusted_to a s s' -> requested s' n = requested s n.
Proof.
  destruct a; [| |cbn; intros _ ->; reflexivity]; destruct s as [st mx im|st|ts [r|] mx im|ev fl], s' as [st' mx' im'|st'|ts' [r'|] mx' im'|ev' fl']; cbn [adjusted_to]; try tauto; try reflexivity;
   intros _ E; try discriminate; injection E; intros; subst; reflexivity.
Qed.
Lemma evaluate_one_spec size s c : good_sampler s -> forall s' c', evaluate_one size s c = Some (s', c') ->
  exists a m, requested s size = Some m /\ decision (100 * m) (ct_recent c) (ct_recentAccepted c) a /\ adjusted_to a s s' /\ c' = window_after (100 * m) c.
Proof.
  intros Hs s' c' E. unfold evaluate_one in E. destruct (requested s size) as [m|]; [|discriminate]. cbn [obind] in E.
  assert (G : forall a, exists a' m', Some m = Some m' /\ (a' = a /\ m' = m)) by eauto.
  unfold window_after. destruct (Nat.ltb_spec (ct_recent c) (100 * m)) as [H|H].
  - injection E as <- <-. exists Kept, m. split; [reflexivity|]. split; [|split; [reflexivity|]].
    + split; [auto|]. intros H1. lia.
    + destruct (Nat.leb_spec (100 * m) (ct_recent c)); [lia|reflexivity].
  - assert (W : (100 * m <=? ct_recent c) = true) by (apply Nat.leb_le; exact H).
    destruct (Nat.eqb_spec (ct_recent c) 0) as [H0|H0].
    + injection E as <- <-. exists Kept, m. split; [reflexivity|]. split; [|split; [reflexivity|rewrite W; reflexivity]]. split; [auto|]. intros _ H1. lia.
    + assert (P : forall a, (let rate := currentRate c in (rate > 2 / 10 -> a = Grown) /\ (rate < 1 / 10 -> a = Shrunk) /\ (1 / 10 <= rate <= 2 / 10 -> a = Kept))%R ->
         decision (100 * m) (ct_recent c) (ct_recentAccepted c) a).
      { intros a Ha. split; [lia|]. intros _ _. exact Ha. }
      destruct (Rltb 0.2 (currentRate c)) eqn:E1; [|destruct (Rltb (currentRate c) 0.1) eqn:E2].
      * apply Rltb_true in E1. destruct (increase_spec s Hs) as (s1 & b1 & Es & A & _). rewrite Es in E. cbn [obind fst] in E. injection E as <- <-.
        exists Grown, m. split; [reflexivity|]. split; [|split; [exact A|rewrite W; reflexivity]]. apply P. cbv zeta. repeat split; intros; lra.
      * apply Rltb_false in E1. apply Rltb_true in E2. destruct (decrease_spec s Hs) as (s1 & b1 & Es & A & _). rewrite Es in E. cbn [obind fst] in E. injection E as <- <-.
        exists Shrunk, m. split; [reflexivity|]. split; [|split; [exact A|rewrite W; reflexivity]]. apply P. cbv zeta. repeat split; intros; lra.
      * apply Rltb_false in E1, E2. cbn [obind fst] in E. injection E as <- <-.
        exists Kept, m. split; [reflexivity|]. split; [|split; [reflexivity|rewrite W; reflexivity]]. apply P. cbv zeta. repeat split; intros; lra.
Qed.
Lemma evaluate_one_total size s c : good_sampler s -> requested s size <> None -> evaluate_one size s c <> None.
Proof.
  intros Hs Hr. unfold evaluate_one. destruct (requested s size) as [m|]; [|congruence]. cbn [obind]. destruct (_ <? _); [discriminate|]. destruct (_ =? _); [discriminate|].
  destruct (Rltb 0.2 (currentRate c)); [|destruct (Rltb (currentRate c) 0.1)].
  - destruct (increase_spec s Hs) as (s1 & b1 & Es & A & _). rewrite Es. discriminate.
  - destruct (decrease_spec s Hs) as (s1 & b1 & Es & A & _). rewrite Es. discriminate.
  - discriminate.
Qed.
Lemma evaluate_all size : forall ss cs ss' cs', Forall good_sampler ss -> length cs = length ss -> evaluateMoleculeMoveCounter size ss cs = Some (ss', cs') ->
  length ss' = length ss /\ length cs' = length cs /\
  forall k s c, nth_error ss k = Some s -> nth_error cs k = Some c -> exists s' c', nth_error ss' k = Some s' /\ nth_error cs' k = Some c' /\ evaluate_one size s c = Some (s', c').
Proof.
  induction ss as [|s ss IH]; intros [|c cs] ss' cs' Hg Hl E; simpl in E, Hl; try discriminate.
  - injection E as <- <-. split; [reflexivity|]. split; [reflexivity|]. intros [|k]; discriminate.
  - destruct (evaluate_one size s c) as [[s1 c1]|] eqn:E1; [|discriminate]. cbn [obind] in E.
    destruct (evaluateMoleculeMoveCounter size ss cs) as [[ss1 cs1]|] eqn:E2; [|discriminate]. cbn [obind fst snd] in E. injection E as <- <-.
    inversion Hg as [|? ? H1 H2 H3]. subst. destruct (IH cs ss1 cs1 H2 ltac:(lia) E2) as (A & B & C). simpl. split; [congruence|]. split; [congruence|].
    intros [|k] s' c' Hs Hc; simpl in *; eauto. injection Hs as <-. injection Hc as <-. eauto.
Qed.
Lemma evaluate_all_total size : forall ss cs, Forall good_sampler ss -> Forall (enough_particles size) ss -> length cs = length ss ->
  evaluateMoleculeMoveCounter size ss cs <> None.
Proof.
  intros ss cs Hg. revert cs. induction Hg as [|s ss Hs _ IH]; intros [|c cs] He Hl; simpl in *; try discriminate.
  inversion He as [|? ? He1 He2 Ex]. subst. pose proof (evaluate_one_total size s c Hs) as H1.
  destruct (evaluate_one size s c) as [r|].
  - cbn [obind]. pose proof (IH cs He2 ltac:(lia)) as H2. destruct (evaluateMoleculeMoveCounter size ss cs); [discriminate|congruence].
  - exfalso. apply H1; auto. destruct s as [st mx im|st|ts rs mx im|ev fl]; simpl in *; try discriminate. destruct (Nat.ltb_spec ev size); [discriminate|lia].
Qed.

(** *** One cycle *)
(** After the moves: the sampler with the refreshed maximum. *)
Definition refreshed (b : box) (ms : list (nat * bool)) (k : nat) (s : sampler) : sampler := if used ms k then adjustMax b s else s.
Definition scaler_adjusted (a : adjustment) (step step' : R) : Prop :=
  match a with Grown => step' = (step * (11 / 10))%R | Shrunk => step' = (step / (11 / 10))%R | Kept => step' = step end.
Record cycle_done (n : nat) (s s' : sim) (log : cycle_log) : Prop := {
  cd_length : length (sm_samplers s') = length (sm_samplers s) /\ length (sm_counters s') = length (sm_counters s);
  cd_sampler : forall k x c, nth_error (sm_samplers s) k = Some x -> nth_error (sm_counters s) k = Some c ->
    exists x' c' a, nth_error (sm_samplers s') k = Some x' /\ nth_error (sm_counters s') k = Some c' /\
      adjusted_to a (refreshed (pk_box (sm_pk s)) (cl_moves log) k x) x' /\
      let c1 := plus_moves (cl_moves log) k c in
      (sm_adjust s = true -> exists m, requested x n = Some m /\ decision (100 * m) (ct_recent c1) (ct_recentAccepted c1) a /\ c' = window_after (100 * m) c1) /\
      (sm_adjust s = false -> a = Kept /\ c' = c1);
  cd_scaler : match sm_scaler s with
              | None => sm_scaler s' = None /\ sm_scaling s' = sm_scaling s /\ cl_scaled log = None
              | Some step => exists ok step' a, cl_scaled log = Some ok /\ sm_scaler s' = Some step' /\ scaler_adjusted a step step' /\
                  let c1 := increment ok (sm_scaling s) in
                  (sm_adjust s = true -> decision 100 (ct_recent c1) (ct_recentAccepted c1) a /\ sm_scaling s' = window_after 100 c1) /\
                  (sm_adjust s = false -> a = Kept /\ sm_scaling s' = c1)
              end;
  cd_frame : sm_T s' = sm_T s /\ sm_P s' = sm_P s /\ sm_counted s' = sm_counted s /\ sm_adjust s' = sm_adjust s /\
    sm_performed s' = S (sm_performed s) /\ sm_total s' = S (sm_total s) /\ sm_max s' = sm_max s;
  cd_div : forall a, 1 <= sm_div s' a <= sm_div s a;
  cd_moves : all_domains (sm_div s') 0 (sm_samplers s) n (length (cl_moves log));
  cd_groups : forall m, In m (cl_moves log) -> fst m < length (sm_samplers s) }.

Section Run.
Variables (inter : interaction) (ov : law bool) (en : law R).
Hypothesis HL : lawful inter ov en.
Notation vgood := (vgood inter).
Notation total := (total inter).
Notation visited_good := (visited_good inter ov en HL).

Lemma scaling_step threads n ch step s pk' ok : sinv inter threads n s -> good_chance threads ch -> in_convex inter = false -> tryScaling_sim inter ch step s = Some (pk', ok) ->
  visited inter threads pk' /\ pk_size pk' = n /\ pk_counting pk' = pk_counting (sm_pk s) /\ (sm_counted s = false -> total pk' = 0).
Proof.
  intros I (_ & _ & _ & _ & _ & _ & Hbox & Hu) Hcv E. unfold tryScaling_sim in E. cbv zeta in E.
  pose proof (v_visited _ _ _ _ I) as V. pose proof (visited_good _ _ V) as G. pose proof G as (Hi & _).
  destruct (ch_box ch step (pk_box (sm_pk s))) as [nb|] eqn:Eb; [|discriminate]. cbn [obind] in E.
  assert (Hnb : constructed nb) by (apply (Hbox step (pk_box (sm_pk s)) nb); auto; apply constructed_valid, Hi).
  destruct (Reqb (box_volume nb) 0); [discriminate|].
  destruct (scaling_kept inter ov en HL threads nb (sm_pk s) G Hnb) as (pk1 & e & Es & V1 & Z1 & C1 & V2 & T2 & S2 & _ & _ & T1).
  assert (A : visited inter threads pk1) by exact (visit_scaling inter threads nb _ _ e V Hnb Es).
  assert (B : visited inter threads (revertScaling pk1)) by exact (visit_revert inter threads nb _ _ e V Hnb Es).
  assert (Rv : pk_size (revertScaling pk1) = n /\ pk_counting (revertScaling pk1) = pk_counting (sm_pk s) /\ (sm_counted s = false -> total (revertScaling pk1) = 0)).
  { destruct S2 as (_ & Sp & _ & _ & _ & Sc & _). split; [|split; [exact Sc|]].
    - unfold pk_size. rewrite Sp. exact (v_size _ _ _ _ I).
    - intros Hc. rewrite T2. apply (v_total _ _ _ _ I Hc). }
  assert (Ac : e <> PosInf -> pk_size pk1 = n /\ pk_counting pk1 = pk_counting (sm_pk s) /\ (sm_counted s = false -> total pk1 = 0)).
  { intros He. split; [rewrite Z1; apply (v_size _ _ _ _ I)|]. split; [exact C1|]. intros Hc. apply T1; auto. rewrite <- Hc. apply (v_counting _ _ _ _ I). }
  rewrite Es in E. cbn [obind fst snd] in E. destruct (in_soft inter || sm_counted s).
  - destruct (scaling_accepted _ _ _ e) eqn:Ea; injection E as <- <-; split; auto. apply Ac. intros ->. simpl in Ea. apply Rleb_true in Ea. lra.
  - destruct (Rltb _ _).
    + injection E as <- <-. split; [exact V|]. split; [apply (v_size _ _ _ _ I)|]. split; [reflexivity|apply (v_total _ _ _ _ I)].
    + destruct (positive_energy e) eqn:Ea; injection E as <- <-; split; auto. apply Ac. intros ->. discriminate.
Qed.
Lemma scaling_total threads n ch step s : sinv inter threads n s -> good_chance threads ch -> scalable ch -> tryScaling_sim inter ch step s <> None.
Proof.
  intros I Hch Hsc. unfold tryScaling_sim. cbv zeta. pose proof (visited_good _ _ (v_visited _ _ _ _ I)) as G. pose proof G as (Hi & _).
  destruct (Hsc step (pk_box (sm_pk s))) as (nb & -> & Hnb); [apply constructed_valid, Hi|]. cbn [obind].
  destruct (Reqb (box_volume nb) 0) eqn:Ev.
  { exfalso. apply Reqb_true in Ev. apply constructed_valid in Hnb. pose proof (volume_pos nb Hnb). lra. }
  destruct (scaling_kept inter ov en HL threads nb (sm_pk s) G Hnb) as (pk1 & e & Es & _). rewrite Es. cbn [obind fst snd].
  destruct (in_soft inter || sm_counted s); [destruct (scaling_accepted _ _ _ e); discriminate|]. destruct (Rltb _ _); [discriminate|].
  destruct (positive_energy e); discriminate.
Qed.
Lemma evaluate_scaler_spec step c : 0 < ct_recent c -> exists a, decision 100 (ct_recent c) (ct_recentAccepted c) a /\
  scaler_adjusted a step (fst (evaluateScalingMoveCounter step c)) /\ snd (evaluateScalingMoveCounter step c) = window_after 100 c.
Proof.
  intros H0. unfold evaluateScalingMoveCounter, window_after. destruct (Nat.ltb_spec (ct_recent c) 100) as [H|H].
  - exists Kept. split; [|split; [reflexivity|]].
    + split; [auto|]. intros H1. exfalso. revert H H1. clear. intros. lia.
    + destruct (Nat.leb_spec 100 (ct_recent c)) as [H1|H1]; [exfalso; revert H H1; clear; intros; lia|reflexivity].
  - assert (W : (100 <=? ct_recent c) = true) by (apply Nat.leb_le; exact H). rewrite W. cbv zeta. cbn [fst snd].
    assert (P : forall a, (let rate := currentRate c in (rate > 2 / 10 -> a = Grown) /\ (rate < 1 / 10 -> a = Shrunk) /\ (1 / 10 <= rate <= 2 / 10 -> a = Kept))%R ->
         decision 100 (ct_recent c) (ct_recentAccepted c) a).
    { intros a Ha. split; [|intros _ _; exact Ha]. intros [H1|H1]; exfalso; [revert H H1|revert H0 H1]; clear; intros; lia. }
    destruct (Rltb 0.2 (currentRate c)) eqn:E1; [|destruct (Rltb (currentRate c) 0.1) eqn:E2].
    + apply Rltb_true in E1. exists Grown. split; [|split; [unfold increase_scaler; cbn; lra|reflexivity]]. apply P. cbv zeta. repeat split; intros; lra.
    + apply Rltb_false in E1. apply Rltb_true in E2. exists Shrunk. split; [|split; [unfold decrease_scaler; cbn; rewrite tenth; reflexivity|reflexivity]]. apply P. cbv zeta. repeat split; intros; lra.
    + apply Rltb_false in E1, E2. exists Kept. split; [|split; reflexivity]. apply P. cbv zeta. repeat split; intros; lra.
Qed.
Lemma refreshed_requested b ms k s n : requested (refreshed b ms k s) n = requested s n.
Proof. unfold refreshed. destruct (used ms k); [destruct s|]; reflexivity. Qed.
Lemma refreshed_good b ms k s : good_sampler s -> good_sampler (refreshed b ms k s).
Proof. unfold refreshed. destruct (used ms k); auto using adjust_good. Qed.
Lemma scaler_adjusted_pos a step step' : (0 < step)%R -> scaler_adjusted a step step' -> (0 < step')%R.
Proof. destruct a; cbn; intros H ->; auto; [lra|]. apply Rdiv_lt_0_compat; lra. Qed.

Lemma cycle_spec threads n ch s s' log : 0 < threads -> good_chance threads ch -> sinv inter threads n s -> performCycle inter ch s = Some (s', log) ->
  sinv inter threads n s' /\ cycle_done n s s' log.
Proof.
  intros Hth Hch I E. unfold performCycle in E. destruct (performMoves_sim _ 0 inter ch s) as [[s1 ms]|] eqn:Em; [|discriminate]. cbn [obind fst snd] in E.
  destruct (moves_done inter ov en HL threads n ch Hth Hch _ 0 s s1 ms I Em) as (I1 & M & Hd).
  destruct (match sm_scaler s1 with None => _ | Some _ => _ end) as [[s2 sc]|] eqn:E2; [|discriminate]. cbn [obind fst snd] in E.
  destruct M as [M1 M2 (F1 & F2 & F3 & F4 & F5 & F6 & F7 & F8 & F9) M4 M5 M6].
  assert (Lc : length (sm_counters s1) = length (sm_counters s)).
  { rewrite (v_counters _ _ _ _ I1), (v_counters _ _ _ _ I), M1, adjust_used_length. reflexivity. }
  (* the state after scaling *)
  assert (S2 : sinv inter threads n s2 /\ sm_samplers s2 = sm_samplers s1 /\ sm_counters s2 = sm_counters s1 /\ sm_scaler s2 = sm_scaler s1 /\
     (sm_T s2 = sm_T s1 /\ sm_P s2 = sm_P s1 /\ sm_counted s2 = sm_counted s1 /\ sm_adjust s2 = sm_adjust s1 /\ sm_performed s2 = sm_performed s1 /\ sm_total s2 = sm_total s1 /\ sm_max s2 = sm_max s1) /\
     sm_div s2 = sm_div s1 /\
     match sm_scaler s1 with None => sc = None /\ sm_scaling s2 = sm_scaling s1 | Some _ => exists ok, sc = Some ok /\ sm_scaling s2 = increment ok (sm_scaling s1) end).
  { destruct (sm_scaler s1) as [step|] eqn:Esc.
    - destruct (tryScaling_sim inter ch step s1) as [[pk' ok]|] eqn:Et; [|discriminate]. cbn [obind fst snd] in E2. injection E2 as <- <-.
      assert (Hcv : in_convex inter = false) by (destruct (v_conv _ _ _ _ I1); [congruence|auto]).
      destruct (scaling_step threads n ch step s1 pk' ok I1 Hch Hcv Et) as (A & B & C & D).
      split; [|split; [reflexivity|split; [reflexivity|split; [reflexivity|split; [split; [|split; [|split; [|split; [|split; [|split]]]]]; reflexivity|split; [reflexivity|exists ok; auto]]]]]].
      destruct I1. rewrite Esc in *. split; cbn; auto; congruence.
    - injection E2 as <- <-. split; [exact I1|]. split; [reflexivity|]. split; [reflexivity|]. split; [auto|]. split; [|split; [reflexivity|auto]].
      split; [|split; [|split; [|split; [|split; [|split]]]]]; reflexivity. }
  destruct S2 as (I2 & A1 & A2 & A3 & (G1 & G2 & G3 & G4 & G5 & G6 & G7) & A5 & A6).
  assert (Sam : forall k x, nth_error (sm_samplers s) k = Some x -> nth_error (sm_samplers s2) k = Some (refreshed (pk_box (sm_pk s)) ms k x)).
  { intros k x Hx. rewrite A1, M1, adjust_used_nth, Hx. reflexivity. }
  assert (Cnt : forall k c, nth_error (sm_counters s) k = Some c -> nth_error (sm_counters s2) k = Some (plus_moves ms k c)).
  { intros k c Hc. rewrite A2, M2, Hc. reflexivity. }
  destruct (sm_adjust s2) eqn:Ead.
  - unfold evaluateCounters in E. destruct (evaluateMoleculeMoveCounter _ _ _) as [[ss' cs']|] eqn:Ev; [|discriminate]. cbn [obind fst snd] in E.
    destruct (evaluate_all _ _ _ _ _ (v_samplers _ _ _ _ I2) (v_counters _ _ _ _ I2) Ev) as (B1 & B2 & B3). rewrite (v_size _ _ _ _ I2) in B3.
    set (q := match sm_scaler s2 with Some step => _ | None => _ end) in E. destruct q as [scaler' c'] eqn:Eq. cbn [obind] in E. injection E as <- <-. unfold q in Eq. clear q.
    assert (Spec : forall k x c, nth_error (sm_samplers s) k = Some x -> nth_error (sm_counters s) k = Some c -> exists x' c' a m, nth_error ss' k = Some x' /\ nth_error cs' k = Some c' /\
       requested x n = Some m /\ decision (100 * m) (ct_recent (plus_moves ms k c)) (ct_recentAccepted (plus_moves ms k c)) a /\
       adjusted_to a (refreshed (pk_box (sm_pk s)) ms k x) x' /\ c' = window_after (100 * m) (plus_moves ms k c)).
    { intros k x c Hx Hc. destruct (B3 k _ _ (Sam k x Hx) (Cnt k c Hc)) as (x' & c'' & X1 & X2 & X3).
      assert (Hg : good_sampler x) by (pose proof (v_samplers _ _ _ _ I) as H; rewrite Forall_forall in H; apply H; eapply nth_error_In; eauto).
      destruct (evaluate_one_spec n _ _ (refreshed_good _ _ _ _ Hg) _ _ X3) as (a & m & Y1 & Y2 & Y3 & Y4). rewrite refreshed_requested in Y1.
      exists x', c'', a, m. auto 10. }
    assert (Scl : match sm_scaler s with
      | None => scaler' = None /\ c' = sm_scaling s /\ sc = None
      | Some step => exists ok step' a, sc = Some ok /\ scaler' = Some step' /\ scaler_adjusted a step step' /\
          decision 100 (ct_recent (increment ok (sm_scaling s))) (ct_recentAccepted (increment ok (sm_scaling s))) a /\ c' = window_after 100 (increment ok (sm_scaling s)) end).
    { rewrite F1 in A6, A3. rewrite A3 in Eq. destruct (sm_scaler s) as [step|].
      - destruct A6 as (ok & -> & Esc). rewrite Esc, F2 in Eq.
        destruct (evaluate_scaler_spec step (increment ok (sm_scaling s))) as (a & D1 & D2 & D3); [destruct ok; simpl; lia|].
        destruct (evaluateScalingMoveCounter step (increment ok (sm_scaling s))) as [st' cc]. cbn [fst snd] in *. injection Eq as <- <-.
        exists ok, st', a. auto 10.
      - destruct A6 as [-> Esc]. injection Eq as <- <-. split; [reflexivity|]. split; [congruence|reflexivity]. }
    split.
    + split; cbn [sm_pk sm_samplers sm_counters sm_scaler sm_counted sm_div].
      * exact (v_visited _ _ _ _ I2).
      * exact (v_size _ _ _ _ I2).
      * exact (v_counting _ _ _ _ I2).
      * rewrite Forall_forall. intros x' Hx'. apply In_nth_error in Hx'. destruct Hx' as (k & Hk).
        assert (Hk2 : k < length (sm_samplers s)). { rewrite <- (adjust_used_length (pk_box (sm_pk s)) ms), <- M1, <- A1, <- B1. apply nth_error_Some. congruence. }
        destruct (nth_error (sm_samplers s) k) as [x|] eqn:Ex; [|apply nth_error_None in Ex; lia].
        destruct (nth_error (sm_counters s) k) as [c|] eqn:Ec; [|apply nth_error_None in Ec; rewrite (v_counters _ _ _ _ I) in Ec; lia].
        destruct (Spec k x c Ex Ec) as (x'' & c'' & a & m & Y1 & _ & _ & _ & Y5 & _). rewrite Hk in Y1. injection Y1 as <-.
        apply (adjusted_good a (refreshed (pk_box (sm_pk s)) ms k x)); auto. apply refreshed_good.
        pose proof (v_samplers _ _ _ _ I) as H; rewrite Forall_forall in H; apply H; eapply nth_error_In; eauto.
      * rewrite B1, B2. exact (v_counters _ _ _ _ I2).
      * pose proof (v_scaler _ _ _ _ I) as Hs. destruct (sm_scaler s) as [step|]; [|destruct Scl as (-> & _); exact Logic.I].
        destruct Scl as (ok & step' & a & _ & -> & Ha & _). exact (scaler_adjusted_pos a step step' Hs Ha).
      * exact (v_div _ _ _ _ I2).
      * exact (v_dom _ _ _ _ I2).
      * destruct (v_conv _ _ _ _ I2) as [Hn|Hn]; [|auto]. left. rewrite A3, F1 in Hn. rewrite Hn in Scl. apply Scl.
      * exact (v_total _ _ _ _ I2).
    + split; cbn [sm_samplers sm_counters sm_scaler sm_scaling sm_T sm_P sm_counted sm_adjust sm_div sm_performed sm_total sm_max cl_moves cl_scaled].
      * split; [rewrite B1, A1, M1, adjust_used_length; reflexivity|]. rewrite B2, A2. exact Lc.
      * intros k x c Hx Hc. destruct (Spec k x c Hx Hc) as (x' & c'' & a & m & Y1 & Y2 & Y3 & Y4 & Y5 & Y6). exists x', c'', a.
        split; [exact Y1|]. split; [exact Y2|]. split; [exact Y5|]. cbv zeta. split; [|rewrite <- F6, <- G4; congruence]. intros _. eauto.
      * destruct (sm_scaler s) as [step|]; [|exact Scl]. destruct Scl as (ok & step' & a & -> & -> & D1 & D2 & D3). exists ok, step', a.
        split; [reflexivity|]. split; [reflexivity|]. split; [exact D1|]. cbv zeta. split; [auto|rewrite <- F6, <- G4; congruence].
      * split; [congruence|]. split; [congruence|]. split; [congruence|]. split; [congruence|]. split; [congruence|]. split; [congruence|congruence].
      * intros a. rewrite A5. apply M6.
      * rewrite A5. exact Hd.
      * exact M4.
  - cbn [obind] in E. injection E as <- <-. split.
    + destruct I2. split; cbn; auto.
    + split; cbn [sm_samplers sm_counters sm_scaler sm_scaling sm_T sm_P sm_counted sm_adjust sm_div sm_performed sm_total sm_max cl_moves cl_scaled].
      * split; [rewrite A1, M1, adjust_used_length; reflexivity|]. rewrite A2. exact Lc.
      * intros k x c Hx Hc. exists (refreshed (pk_box (sm_pk s)) ms k x), (plus_moves ms k c), Kept. split; [auto|]. split; [auto|]. split; [reflexivity|].
        cbv zeta. split; [rewrite <- F6, <- G4; congruence|auto].
      * rewrite F1 in A6, A3. destruct (sm_scaler s) as [step|].
        -- destruct A6 as (ok & -> & Esc). exists ok, step, Kept. split; [reflexivity|]. split; [exact A3|]. split; [reflexivity|]. cbv zeta.
           split; [rewrite <- F6, <- G4; congruence|]. intros _. split; [reflexivity|]. congruence.
        -- destruct A6 as [-> Esc]. split; [exact A3|]. split; [congruence|reflexivity].
      * split; [congruence|]. split; [congruence|]. split; [congruence|]. split; [congruence|]. split; [congruence|]. split; [congruence|congruence].
      * intros a. rewrite A5. apply M6.
      * rewrite A5. exact Hd.
      * exact M4.
Qed.
Lemma enough_requested n s : requested s n <> None <-> enough_particles n s.
Proof. destruct s; simpl; try (split; [auto|discriminate]). destruct (Nat.ltb_spec every n); split; intros; auto; try discriminate; try lia. congruence. Qed.
Lemma cycle_total threads n ch s : 0 < threads -> good_chance threads ch -> scalable ch -> sinv inter threads n s -> num_domains (sm_div s) = 1 ->
  Forall (enough_particles n) (sm_samplers s) -> performCycle inter ch s <> None.
Proof.
  intros Hth Hch Hsc I H1 Hen. unfold performCycle. pose proof (moves_total inter ov en HL threads n ch s 0 Hth Hch I H1 Hen) as Hm.
  destruct (performMoves_sim _ 0 inter ch s) as [[s1 ms]|] eqn:Em; [|congruence]. cbn [obind fst snd].
  destruct (moves_done inter ov en HL threads n ch Hth Hch _ 0 s s1 ms I Em) as (I1 & M & _).
  assert (Hen1 : Forall (enough_particles n) (sm_samplers s1)).
  { rewrite (mv_samplers _ _ _ M). rewrite Forall_forall in *. intros x Hx. apply In_nth_error in Hx. destruct Hx as (k & Hk). rewrite adjust_used_nth in Hk.
    destruct (nth_error (sm_samplers s) k) as [x0|] eqn:E0; [|discriminate]. injection Hk as <-. pose proof (Hen x0 (nth_error_In _ _ E0)) as H0.
    destruct (used ms k); auto. destruct x0; auto. }
  assert (Ev : forall s2, sm_samplers s2 = sm_samplers s1 -> sm_counters s2 = sm_counters s1 -> pk_size (sm_pk s2) = n -> evaluateCounters s2 <> None).
  { intros s2 E1 E2 E3. unfold evaluateCounters. rewrite E1, E2, E3.
    pose proof (evaluate_all_total n (sm_samplers s1) (sm_counters s1) (v_samplers _ _ _ _ I1) Hen1 (v_counters _ _ _ _ I1)) as H.
    destruct (evaluateMoleculeMoveCounter n (sm_samplers s1) (sm_counters s1)) as [r|]; [|congruence]. cbn [obind].
    destruct (match sm_scaler s2 with Some step => _ | None => _ end); discriminate. }
  destruct (sm_scaler s1) as [step|] eqn:Esc.
  - pose proof (scaling_total threads n ch step s1 I1 Hch Hsc) as Ht. destruct (tryScaling_sim inter ch step s1) as [[pk' ok]|] eqn:Et; [|congruence]. cbn [obind fst snd sm_adjust].
    assert (Hcv : in_convex inter = false) by (destruct (v_conv _ _ _ _ I1); [congruence|auto]).
    destruct (scaling_step threads n ch step s1 pk' ok I1 Hch Hcv Et) as (_ & B & _).
    destruct (sm_adjust s1); [|discriminate]. match goal with |- context [evaluateCounters ?x] => pose proof (Ev x eq_refl eq_refl B) as He; destruct (evaluateCounters x); [discriminate|congruence] end.
  - cbn [obind fst snd]. destruct (sm_adjust s1); [|discriminate]. pose proof (Ev s1 eq_refl eq_refl (v_size _ _ _ _ I1)) as He. destruct (evaluateCounters s1); [discriminate|congruence].
Qed.
End Run.
