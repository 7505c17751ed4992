(** Whole runs. *)
From Coq Require Import Reals ZArith List Bool Lia Lra Permutation.
From Verif Require Import GeomModel BoxModel BoxSpec RFloorModel RFloorProofs PbcModel PbcSpec NGModel GeomProofs BoxProofs NGListProofs.
From Verif Require Import PackModel PackSpec PackSumProofs PackGridProofs PackCountProofs PackTotalProofs PackProofs PackInvProofs PackHistProofs PackFinalProofs.
From Verif Require Import DomModel DomSpec DomFinalProofs DomRunProofs DomRunFinalProofs DomMoreProofs RotModel RotSpec RotProofs RotFlipProofs.
From Verif Require Import SimModel SimSpec SimMoveProofs SimStateProofs SimPlanProofs SimCycleProofs SimRunProofs.
Import ListNotations.
Open Scope nat_scope.

Section Integrate.
Variables (inter : interaction) (ov : law bool) (en : law R).
Hypothesis HL : lawful inter ov en.
Notation total := (total inter).
Notation visited_good := (visited_good inter ov en HL).

Lemma sinv_thermo threads n t q s : sinv inter threads n s -> sinv inter threads n (updateThermodynamicParameters t q s).
Proof. intros []. split; auto. Qed.
Lemma sinv_adjust threads n x s : sinv inter threads n s -> sinv inter threads n (set_adjust s x).
Proof. intros []. split; auto. Qed.
Lemma continues_refl s : continues s s.
Proof. unfold continues. auto 20. Qed.
Lemma fix_spec threads n s : 0 < threads -> sinv inter threads n s -> exists s', fixRotationMatrices inter s = Some s' /\ sinv inter threads n s' /\ continues s s' /\
  sm_T s' = sm_T s /\ sm_P s' = sm_P s /\ sm_adjust s' = sm_adjust s.
Proof.
  intros Hth I. unfold fixRotationMatrices. pose proof (v_visited _ _ _ _ I) as V.
  destruct (renormalize_kept inter ov en HL threads 0 (sm_counted s) (sm_pk s) (visited_good _ _ V) Hth) as (pk' & m & E & V' & Z & B & W & C & S' & T).
  rewrite E. cbn [obind fst]. exists (set_pk s pk'). split; [reflexivity|]. split; [|split].
  - split; cbn [set_pk set_moved sm_pk sm_samplers sm_counters sm_scaler sm_counted sm_div]; try apply I.
    + exact (visit_renormalize inter threads 0 (sm_counted s) _ pk' m V Hth E).
    + rewrite Z. apply I.
    + rewrite C. apply I.
    + intros Hc. specialize (T Hc). pose proof (v_total _ _ _ _ I Hc). lia.
  - unfold continues. cbn. auto 20.
  - cbn. auto.
Qed.

(** One pass of the loops. *)
Definition pass_out (ph : phase) (p : parameters) (s : sim) : list output :=
  (if is_multiple (sm_total s) (pr_snapshotEvery p) then OutSnapshot (sm_total s) (sm_pk s) (sm_T s) (sm_P s) :: repeat (OutRecord (sm_total s) (sm_pk s)) (pr_recorders p) else []) ++
  (if match ph with Averaging => true | _ => false end && is_multiple (sm_total s) (pr_averagingEvery p) then [OutAverage (sm_pk s) (sm_T s) (sm_P s)] else []) ++
  (if is_multiple (sm_total s) (pr_inlineEvery p) then [OutInline (sm_total s) (sm_pk s) (sm_T s) (sm_P s)] else []).
Lemma pass_spec threads n ph t q p ch s s' out log : 0 < threads -> good_chance threads ch -> sinv inter threads n s ->
  one_pass inter ph t q p ch s = Some (s', out, log) ->
  sinv inter threads n s' /\ exists s1, performCycle inter ch s = Some (s1, log) /\ cycle_done n s s1 log /\ continues s1 s' /\ sm_adjust s' = sm_adjust s /\
    (ph = Averaging -> sm_T s' = sm_T s /\ sm_P s' = sm_P s) /\
    (ph <> Averaging -> sm_T s' = t (sm_total s') (sm_max s') /\ sm_P s' = match sm_scaler s' with Some _ => q (sm_total s') (sm_max s') | None => 0%R end) /\
    out = pass_out ph p s'.
Proof.
  intros Hth Hch I E. unfold one_pass in E. destruct (performCycle inter ch s) as [[s1 log1]|] eqn:Ec; [|discriminate]. cbn [obind fst snd] in E.
  destruct (cycle_spec inter ov en HL threads n ch s s1 log1 Hth Hch I Ec) as [I1 D].
  set (s2 := match ph with Averaging => s1 | _ => updateThermodynamicParameters t q s1 end) in E.
  assert (P2 : sinv inter threads n s2 /\ continues s1 s2 /\ sm_adjust s2 = sm_adjust s1 /\ (ph = Averaging -> sm_T s2 = sm_T s1 /\ sm_P s2 = sm_P s1) /\
     (ph <> Averaging -> sm_T s2 = t (sm_total s2) (sm_max s2) /\ sm_P s2 = match sm_scaler s2 with Some _ => q (sm_total s2) (sm_max s2) | None => 0%R end)).
  { unfold s2. destruct ph.
    - split; [apply sinv_thermo; exact I1|]. split; [unfold continues; cbn; auto 20|]. split; [reflexivity|]. split; [discriminate|]. auto.
    - split; [exact I1|]. split; [apply continues_refl|]. split; [reflexivity|]. split; [auto|]. congruence.
    - split; [apply sinv_thermo; exact I1|]. split; [unfold continues; cbn; auto 20|]. split; [reflexivity|]. split; [discriminate|]. auto. }
  clearbody s2. destruct P2 as (I2 & C2 & A2 & P2a & P2b).
  unfold every in E. destruct (pr_fixEvery p =? 0); [discriminate|]. cbn [obind] in E.
  destruct (if sm_total s2 mod pr_fixEvery p =? 0 then fixRotationMatrices inter s2 else Some s2) as [s3|] eqn:E3; [|discriminate]. cbn [obind] in E.
  assert (P3 : sinv inter threads n s3 /\ continues s2 s3 /\ sm_T s3 = sm_T s2 /\ sm_P s3 = sm_P s2 /\ sm_adjust s3 = sm_adjust s2).
  { destruct (sm_total s2 mod pr_fixEvery p =? 0).
    - destruct (fix_spec threads n s2 Hth I2) as (s3' & E3' & X). rewrite E3 in E3'. injection E3' as <-. exact X.
    - injection E3 as <-. split; [exact I2|]. split; [apply continues_refl|]. auto. }
  destruct P3 as (I3 & C3 & T3 & Q3 & A3).
  assert (C13 : continues s1 s3).
  { clear - C2 C3. unfold continues in *. destruct C2 as ((? & ? & ?) & ? & ? & ? & ? & ? & ? & ? & ? & ?), C3 as ((? & ? & ?) & ? & ? & ? & ? & ? & ? & ? & ? & ?).
    split; [split; [congruence|split; congruence]|]. repeat (split; [congruence|]). congruence. }
  assert (Same : sm_total s3 = sm_total s2 /\ sm_max s3 = sm_max s2 /\ sm_scaler s3 = sm_scaler s2) by (destruct C3 as (_ & ? & ? & ? & ? & ? & ? & ? & ? & ?); auto).
  destruct Same as (St & Sm & Ss).
  destruct (pr_snapshotEvery p =? 0); [discriminate|]. cbn [obind] in E.
  destruct (match ph with Averaging => if pr_averagingEvery p =? 0 then None else Some (sm_total s3 mod pr_averagingEvery p =? 0) | _ => Some false end) as [av|] eqn:Eav; [|discriminate]. cbn [obind] in E.
  destruct (pr_inlineEvery p =? 0); [discriminate|]. cbn [obind] in E. injection E as <- <- <-.
  split; [exact I3|]. exists s1. split; [reflexivity|]. split; [exact D|]. split; [exact C13|].
  destruct (cd_frame _ _ _ _ D) as (D1 & D2 & D3 & D4 & D5 & D6 & D7).
  split; [congruence|]. split; [intros H; specialize (P2a H); destruct P2a; split; congruence|].
  split; [intros H; specialize (P2b H); destruct P2b as [X Y]; split; [congruence|rewrite Q3, Y, Ss, St, Sm; reflexivity]|].
  unfold pass_out, is_multiple. f_equal. f_equal. destruct ph; cbn [andb].
  - injection Eav as <-. reflexivity.
  - destruct (pr_averagingEvery p =? 0); [discriminate|]. injection Eav as <-. reflexivity.
  - injection Eav as <-. reflexivity.
Qed.
Lemma pass_total threads n ph t q p ch s : 0 < threads -> good_chance threads ch -> scalable ch -> sinv inter threads n s -> num_domains (sm_div s) = 1 ->
  Forall (enough_particles n) (sm_samplers s) -> 0 < pr_fixEvery p -> 0 < pr_snapshotEvery p -> 0 < pr_inlineEvery p -> (ph = Averaging -> 0 < pr_averagingEvery p) ->
  one_pass inter ph t q p ch s <> None.
Proof.
  intros Hth Hch Hsc I H1 Hen P1 P2 P3 P4. unfold one_pass.
  pose proof (cycle_total inter ov en HL threads n ch s Hth Hch Hsc I H1 Hen) as Hc.
  destruct (performCycle inter ch s) as [[s1 log1]|] eqn:Ec; [|congruence]. cbn [obind fst snd].
  destruct (cycle_spec inter ov en HL threads n ch s s1 log1 Hth Hch I Ec) as [I1 D].
  set (s2 := match ph with Averaging => s1 | _ => updateThermodynamicParameters t q s1 end).
  assert (I2 : sinv inter threads n s2) by (unfold s2; destruct ph; auto using sinv_thermo). clearbody s2.
  unfold every. destruct (Nat.eqb_spec (pr_fixEvery p) 0); [lia|]. cbn [obind].
  assert (X : exists s3, (if sm_total s2 mod pr_fixEvery p =? 0 then fixRotationMatrices inter s2 else Some s2) = Some s3).
  { destruct (_ =? 0); [|eauto]. destruct (fix_spec threads n s2 Hth I2) as (s3 & E & _). eauto. }
  destruct X as (s3 & ->). cbn [obind]. destruct (Nat.eqb_spec (pr_snapshotEvery p) 0); [lia|]. cbn [obind].
  destruct (Nat.eqb_spec (pr_inlineEvery p) 0); [lia|].
  destruct ph; cbn [obind]; try discriminate. specialize (P4 eq_refl). destruct (Nat.eqb_spec (pr_averagingEvery p) 0); [lia|]. cbn [obind]. discriminate.
Qed.

(** A phase of a run. *)
Section Phase.
Variables (threads n : nat) (t q : parameter) (p : parameters) (chances : nat -> chance) (interrupted : nat -> bool).
Hypothesis Hth : 0 < threads.
Hypothesis Hch : forall c, good_chance threads (chances c).
Lemma phase_spec ph : forall k g g', sinv inter threads n (pg_sim g) -> run_phase inter ph t q p chances interrupted k g = Some g' ->
  let c0 := sm_total (pg_sim g) in let c1 := sm_total (pg_sim g') in
  exists st cycles, st c0 = pg_sim g /\ st c1 = pg_sim g' /\ pg_cycles g' = pg_cycles g ++ cycles /\ consecutive inter chances st c0 c1 cycles /\
    last_cycle interrupted c0 k c1 /\ (0 < k -> pg_interrupted g' = interrupted c1) /\ (k = 0 -> g' = g) /\
    (forall c, c0 <= c <= c1 -> sinv inter threads n (st c) /\ sm_total (st c) = c /\ sm_adjust (st c) = sm_adjust (pg_sim g) /\ sm_max (st c) = sm_max (pg_sim g)) /\
    (forall c, c0 <= c < c1 -> exists s1 log, performCycle inter (chances (S c)) (st c) = Some (s1, log) /\ nth_error cycles (c - c0) = Some log /\ cycle_done n (st c) s1 log /\ continues s1 (st (S c))) /\
    (forall c, c0 < c <= c1 ->
       (ph = Averaging -> sm_T (st c) = sm_T (pg_sim g) /\ sm_P (st c) = sm_P (pg_sim g)) /\
       (ph <> Averaging -> sm_T (st c) = t c (sm_max (pg_sim g)) /\ sm_P (st c) = match sm_scaler (st c) with Some _ => q c (sm_max (pg_sim g)) | None => 0%R end)) /\
    pg_out g' = pg_out g ++ flat_map (fun c => pass_out ph p (st c)) (seq (S c0) (c1 - c0)).
Proof.
  induction k as [|k IH]; intros g g' I E; cbv zeta; cbn [run_phase] in E.
  - injection E as <-. exists (fun _ => pg_sim g), []. rewrite Nat.sub_diag. cbn [seq flat_map]. rewrite !app_nil_r.
    split; [reflexivity|]. split; [reflexivity|]. split; [reflexivity|]. split; [split; [lia|split; [rewrite Nat.sub_diag; reflexivity|lia]]|].
    split; [split; [lia|split; lia]|]. split; [lia|]. split; [auto|]. split; [|split; [lia|split; [lia|reflexivity]]].
    intros c Hc. assert (c = sm_total (pg_sim g)) by lia. subst. auto.
  - set (c0 := sm_total (pg_sim g)) in *. destruct (one_pass inter ph t q p (chances (S c0)) (pg_sim g)) as [[[s' out] log]|] eqn:E1; [|discriminate]. cbn [obind] in E.
    destruct (pass_spec threads n ph t q p _ _ _ _ _ Hth (Hch _) I E1) as (I1 & s1 & Ec & D & C1 & A1 & Pa & Pb & Eo).
    destruct (cd_frame _ _ _ _ D) as (D1 & D2 & D3 & D4 & D5 & D6 & D7).
    assert (Ht : sm_total s' = S c0 /\ sm_max s' = sm_max (pg_sim g)). { destruct C1 as (_ & _ & _ & _ & _ & _ & _ & _ & X & Y). split; [rewrite X; exact D6|rewrite Y; exact D7]. }
    destruct Ht as [Ht Hmx].
    set (g1 := Progress s' (pg_out g ++ out) (pg_cycles g ++ [log]) (interrupted (sm_total s'))) in E.
    assert (Hstop : interrupted (S c0) = true -> g' = g1). { intros X. rewrite Ht, X in E. congruence. }
    assert (Hgo : interrupted (S c0) = false -> run_phase inter ph t q p chances interrupted k g1 = Some g'). { intros X. rewrite Ht, X in E. exact E. }
    assert (Fin : exists st cycles, let c1 := sm_total (pg_sim g') in st (S c0) = s' /\ st c1 = pg_sim g' /\ pg_cycles g' = (pg_cycles g ++ [log]) ++ cycles /\
       consecutive inter chances st (S c0) c1 cycles /\ last_cycle interrupted c0 (S k) c1 /\ pg_interrupted g' = interrupted c1 /\
       (forall c, S c0 <= c <= c1 -> sinv inter threads n (st c) /\ sm_total (st c) = c /\ sm_adjust (st c) = sm_adjust (pg_sim g) /\ sm_max (st c) = sm_max (pg_sim g)) /\
       (forall c, S c0 <= c < c1 -> exists s1 log, performCycle inter (chances (S c)) (st c) = Some (s1, log) /\ nth_error cycles (c - S c0) = Some log /\ cycle_done n (st c) s1 log /\ continues s1 (st (S c))) /\
       (forall c, S c0 < c <= c1 -> (ph = Averaging -> sm_T (st c) = sm_T s' /\ sm_P (st c) = sm_P s') /\
          (ph <> Averaging -> sm_T (st c) = t c (sm_max (pg_sim g)) /\ sm_P (st c) = match sm_scaler (st c) with Some _ => q c (sm_max (pg_sim g)) | None => 0%R end)) /\
       pg_out g' = (pg_out g ++ out) ++ flat_map (fun c => pass_out ph p (st c)) (seq (S (S c0)) (c1 - S c0))).
    { destruct (interrupted (S c0)) eqn:Ei.
      - rewrite (Hstop eq_refl). unfold g1. cbn [pg_sim pg_out pg_cycles pg_interrupted]. rewrite Ht. exists (fun _ => s'), []. cbv zeta. rewrite Nat.sub_diag. cbn [seq flat_map]. rewrite !app_nil_r.
        split; [reflexivity|]. split; [reflexivity|]. split; [reflexivity|]. split; [split; [lia|split; [rewrite Nat.sub_diag; reflexivity|lia]]|].
        split; [split; [lia|split; [lia|intros _; split; [exact Ei|lia]]]|]. split; [reflexivity|]. split; [|split; [lia|split; [lia|reflexivity]]].
        intros c Hc. assert (c = S c0) by lia. subst. split; [exact I1|]. split; [exact Ht|]. split; [exact A1|exact Hmx].
      - specialize (Hgo eq_refl). destruct (IH g1 g' I1 Hgo) as (st & cycles & B1 & B2 & B3 & B4 & B5 & B6 & B7 & B8 & B9 & B10 & B11).
        cbv zeta in *. unfold g1 in *. cbn [pg_sim pg_out pg_cycles pg_interrupted] in *. rewrite Ht in *. exists st, cycles.
        split; [exact B1|]. split; [exact B2|]. split; [exact B3|]. split; [exact B4|]. split.
        { destruct B5 as (X & Y & Z). split; [lia|]. split.
          - intros c Hc. destruct (Nat.eq_dec c (S c0)) as [->|]; [exact Ei|]. apply Y. lia.
          - intros Hl. split; [|lia]. apply Z. lia. }
        split. { destruct k as [|k']; [|apply B6; lia]. rewrite (B7 eq_refl). cbn [pg_sim pg_interrupted]. rewrite Ht. reflexivity. }
        split. { intros c Hc. destruct (B8 c Hc) as (X & Y & Z & W). split; [exact X|]. split; [exact Y|]. split; congruence. }
        split; [exact B9|]. split; [|exact B11]. intros c Hc. destruct (B10 c Hc) as [X Y]. rewrite Hmx in Y. split; auto. }
    destruct Fin as (st & cycles & B1 & B2 & B3 & B4 & B5 & B6 & B8 & B9 & B10 & B11). cbv zeta in *. destruct B4 as (B4a & B4b & B4c).
    set (c1 := sm_total (pg_sim g')) in *.
    set (st' := fun c => if c =? c0 then pg_sim g else st c).
    assert (St0 : st' c0 = pg_sim g) by (unfold st'; rewrite Nat.eqb_refl; reflexivity).
    assert (StS : forall c, c0 < c -> st' c = st c) by (intros c Hc; unfold st'; destruct (Nat.eqb_spec c c0); [lia|reflexivity]).
    assert (Nth : forall c, c0 <= c < c1 -> exists s2 log2, performCycle inter (chances (S c)) (st' c) = Some (s2, log2) /\ nth_error (log :: cycles) (c - c0) = Some log2 /\
       cycle_done n (st' c) s2 log2 /\ continues s2 (st' (S c))).
    { intros c Hc. rewrite (StS (S c)) by lia. destruct (Nat.eq_dec c c0) as [->|Hne].
      - rewrite Nat.sub_diag, St0. exists s1, log. split; [exact Ec|]. split; [reflexivity|]. split; [exact D|]. rewrite B1. exact C1.
      - rewrite StS by lia. destruct (B9 c) as (s2 & log2 & X1 & X2 & X3 & X4); [lia|]. exists s2, log2. split; [exact X1|]. split; [|auto].
        replace (c - c0) with (S (c - S c0)) by lia. exact X2. }
    exists st', (log :: cycles). split; [exact St0|]. split; [rewrite StS by lia; exact B2|]. split; [rewrite B3, <- app_assoc; reflexivity|].
    split. { split; [lia|]. split; [simpl; rewrite B4b; lia|]. intros c Hc. destruct (Nth c Hc) as (s2 & log2 & X1 & X2 & X3 & X4). eauto. }
    split; [exact B5|]. split; [intros _; exact B6|]. split; [discriminate|].
    split. { intros c Hc. destruct (Nat.eq_dec c c0) as [->|Hne]; [rewrite St0; auto|]. rewrite StS by lia. apply B8. lia. }
    split; [exact Nth|]. split.
    { intros c Hc. rewrite StS by lia. destruct (Nat.eq_dec c (S c0)) as [->|Hne].
      - rewrite B1. split; [exact Pa|]. intros H. destruct (Pb H) as [X Y]. rewrite Ht, Hmx in X, Y. auto.
      - destruct (B10 c) as [X Y]; [lia|]. split; [|exact Y]. intros H. destruct (X H), (Pa H). split; congruence. }
    rewrite B11, <- app_assoc. f_equal. replace (c1 - c0) with (S (c1 - S c0)) by lia. cbn [seq flat_map]. rewrite Eo. rewrite (StS (S c0)) by lia. rewrite B1. f_equal.
    clear - StS. generalize (c1 - S c0). intros m. assert (H : forall c, In c (seq (S (S c0)) m) -> pass_out ph p (st c) = pass_out ph p (st' c)).
    { intros c Hc. apply in_seq in Hc. rewrite StS by lia. reflexivity. }
    revert H. generalize (seq (S (S c0)) m). intros l H. induction l as [|x l IHl]; simpl; [reflexivity|]. rewrite H, IHl; simpl; auto. intros c Hc. apply H. right. exact Hc.
Qed.
Hypothesis Hsc : forall c, scalable (chances c).
Lemma enough_kept s s1 s' log : cycle_done n s s1 log -> continues s1 s' -> Forall good_sampler (sm_samplers s) -> length (sm_counters s) = length (sm_samplers s) ->
  Forall (enough_particles n) (sm_samplers s) -> Forall (enough_particles n) (sm_samplers s').
Proof.
  intros D C Hg Hl He. assert (Es : sm_samplers s' = sm_samplers s1) by apply C. rewrite Es. rewrite Forall_forall in *. intros x Hx. apply In_nth_error in Hx. destruct Hx as (k & Hk).
  destruct (cd_length _ _ _ _ D) as [L1 _]. assert (Hk2 : k < length (sm_samplers s)) by (rewrite <- L1; apply nth_error_Some; congruence).
  destruct (nth_error (sm_samplers s) k) as [x0|] eqn:E0; [|apply nth_error_None in E0; lia].
  destruct (nth_error (sm_counters s) k) as [c0|] eqn:Ec0; [|apply nth_error_None in Ec0; lia].
  destruct (cd_sampler _ _ _ _ D k x0 c0 E0 Ec0) as (x' & c' & a & X1 & _ & X3 & _). assert (x' = x) by congruence. subst x'.
  apply enough_requested. rewrite (adjusted_requested a _ x n (refreshed_good _ _ _ _ (Hg x0 (nth_error_In _ _ E0))) X3), refreshed_requested.
  apply enough_requested. apply He. eapply nth_error_In; eauto.
Qed.
Lemma domains_one div : num_domains div = 1 -> forall div', (forall a, 1 <= div' a <= div a) -> num_domains div' = 1.
Proof.
  unfold num_domains. intros H div' Hd. pose proof (Hd AX) as K1. pose proof (Hd AY) as K2. pose proof (Hd AZ) as K3.
  apply Nat.eq_mul_1 in H. destruct H as [H H3]. apply Nat.eq_mul_1 in H. destruct H as [H1 H2].
  replace (div' AX) with 1 by lia. replace (div' AY) with 1 by lia. replace (div' AZ) with 1 by lia. reflexivity.
Qed.
Lemma phase_total ph : 0 < pr_fixEvery p -> 0 < pr_snapshotEvery p -> 0 < pr_inlineEvery p -> (ph = Averaging -> 0 < pr_averagingEvery p) ->
  forall k g, sinv inter threads n (pg_sim g) -> num_domains (sm_div (pg_sim g)) = 1 -> Forall (enough_particles n) (sm_samplers (pg_sim g)) ->
  exists g', run_phase inter ph t q p chances interrupted k g = Some g' /\ num_domains (sm_div (pg_sim g')) = 1 /\ Forall (enough_particles n) (sm_samplers (pg_sim g')).
Proof.
  intros P1 P2 P3 P4. induction k as [|k IH]; intros g I H1 He; cbn [run_phase]; [eauto|].
  pose proof (pass_total threads n ph t q p (chances (S (sm_total (pg_sim g)))) _ Hth (Hch _) (Hsc _) I H1 He P1 P2 P3 P4) as Hp.
  destruct (one_pass inter ph t q p (chances (S (sm_total (pg_sim g)))) (pg_sim g)) as [[[s' out] log]|] eqn:E1; [|congruence]. cbn [obind].
  destruct (pass_spec threads n ph t q p _ _ _ _ _ Hth (Hch _) I E1) as (I1 & s1 & Ec & D & C1 & A1 & Pa & Pb & Eo).
  assert (H1' : num_domains (sm_div s') = 1). { apply (domains_one _ H1). assert (Ed : sm_div s' = sm_div s1) by apply C1. rewrite Ed. apply (cd_div _ _ _ _ D). }
  assert (He' : Forall (enough_particles n) (sm_samplers s')) by (apply (enough_kept (pg_sim g) s1 s' log D C1); auto; apply I).
  destruct (interrupted (sm_total s')); [eexists; split; [reflexivity|]; auto|]. apply IH; auto.
Qed.
End Phase.

(** *** integrate *)
Section Whole.
Variables (threads : nat) (t q : parameter) (samplers : list sampler) (scaler : option R) (div : axis -> nat) (p : parameters)
  (chances : nat -> chance) (interrupted : nat -> bool) (pk : packing).
Hypothesis (Hth : 0 < threads) (Hch : forall c, good_chance threads (chances c)) (V : visited inter threads pk)
  (Hs : Forall good_sampler samplers) (Hsc : match scaler with Some step => (0 < step)%R | None => True end)
  (Hdiv : forall a, 1 <= div a) (Hdom : num_domains div = 1 \/ domain_ok inter) (Hcv : scaler = None \/ in_convex inter = false).
Lemma ready counted : exists pk1 pk2, setupForInteraction inter pk = Some pk1 /\ toggleOverlapCounting counted inter pk1 = Some pk2 /\
  visited inter threads pk2 /\ pk_size pk2 = pk_size pk /\ pk_counting pk2 = counted /\ shapes_of pk2 = shapes_of pk /\ pk_box pk2 = pk_box pk /\ pk_wall pk2 = pk_wall pk /\
  countTotalOverlaps pk2 inter false = Some (total pk2).
Proof.
  destruct (setup_kept inter ov en HL threads pk (visited_good _ _ V)) as (pk1 & E1 & V1 & S1 & B1 & W1 & Z1).
  destruct (counting_kept inter ov en HL threads counted pk1 V1) as (pk2 & E2 & V2 & P2 & B2 & W2 & C2). exists pk1, pk2. split; [exact E1|]. split; [exact E2|].
  split. { apply (visit_counting inter threads counted pk1); auto. apply (visit_setup inter threads pk); auto. }
  split; [unfold pk_size in *; rewrite P2; exact Z1|]. split; [exact C2|]. split; [unfold shapes_of in *; rewrite P2; exact S1|]. split; [congruence|]. split; [congruence|].
  apply (total_count inter ov en HL). apply V2.
Qed.
Lemma start_sinv counted offset mx pk2 : visited inter threads pk2 -> pk_size pk2 = pk_size pk -> pk_counting pk2 = counted -> (counted = false -> total pk2 = 0) ->
  sinv inter threads (pk_size pk) (start_run t q samplers scaler div counted offset mx pk2).
Proof. intros V2 Z C T. unfold start_run. apply sinv_thermo. split; cbn [sm_pk sm_samplers sm_counters sm_scaler sm_counted sm_div]; auto. rewrite repeat_length. reflexivity. Qed.

Let n := pk_size pk.
Let o := pr_offset p.
Let h := pr_offset p + pr_thermalisation p.
Let e := pr_offset p + pr_thermalisation p + pr_averaging p.
Lemma due_therm c s : sm_total s = c -> c <= h -> pass_out Thermalisation p s = due p c (sm_pk s) (sm_T s) (sm_P s).
Proof. intros <- Hc. unfold pass_out, due. fold h. destruct (Nat.ltb_spec h (sm_total s)); [lia|]. reflexivity. Qed.
Lemma due_avg c s : sm_total s = c -> h < c -> pass_out Averaging p s = due p c (sm_pk s) (sm_T s) (sm_P s).
Proof. intros <- Hc. unfold pass_out, due. fold h. destruct (Nat.ltb_spec h (sm_total s)); [|lia]. reflexivity. Qed.
Lemma flat_map_ext' {A B} (f g : A -> list B) l : (forall x, In x l -> f x = g x) -> flat_map f l = flat_map g l.
Proof. induction l as [|x l IH]; intros H; simpl; [reflexivity|]. rewrite H, IH; simpl; auto. intros y Hy. apply H. right. exact Hy. Qed.

Lemma integrate_spec g : integrate inter t q samplers scaler div p chances interrupted pk = Some g ->
  0 < pr_thermalisation p + pr_averaging p /\
  let last := sm_total (pg_sim g) in
  exists st, last_cycle interrupted o (pr_thermalisation p + pr_averaging p) last /\ pg_interrupted g = interrupted last /\
    started inter samplers scaler div false o e pk (st o) /\ st last = pg_sim g /\ consecutive inter chances st o last (pg_cycles g) /\
    (forall c, o <= c <= last -> sinv inter threads n (st c) /\ sm_total (st c) = c /\ parameters_at t q p c (st c) /\ sm_max (st c) = e) /\
    (forall c, o <= c < last -> sm_adjust (st c) = (c <? h) /\
       exists s1 log, performCycle inter (chances (S c)) (st c) = Some (s1, log) /\ nth_error (pg_cycles g) (c - o) = Some log /\ cycle_done n (st c) s1 log /\ continues s1 (st (S c))) /\
    pg_out g = flat_map (fun c => due p c (sm_pk (st c)) (sm_T (st c)) (sm_P (st c))) (seq (S o) (last - o)).
Proof.
  unfold integrate. destruct ((0 <? pr_thermalisation p) || (0 <? pr_averaging p)) eqn:G1; [|discriminate]. cbn [negb].
  destruct ((0 <? pr_inlineEvery p) && (0 <? pr_fixEvery p)); [|discriminate]. cbn [negb].
  destruct ((0 <? pr_averaging p) && negb _); [discriminate|]. destruct (pr_snapshotEvery p <=? _); [|discriminate]. cbn [negb].
  assert (Hpos : 0 < pr_thermalisation p + pr_averaging p). { apply orb_true_iff in G1. destruct G1 as [G1|G1]; apply Nat.ltb_lt in G1; lia. }
  destruct (ready false) as (pk1 & pk2 & E1 & E2 & V2 & Z2 & C2 & S2 & B2 & W2 & N2). rewrite E1. cbn [obind]. rewrite E2. cbn [obind]. rewrite N2. cbn [obind].
  destruct (Nat.eqb_spec (total pk2) 0) as [T2|]; [|discriminate]. cbn [negb].
  set (s0 := start_run t q samplers scaler div false (pr_offset p) (pr_offset p + pr_thermalisation p + pr_averaging p) pk2).
  assert (I0 : sinv inter threads n s0) by (apply start_sinv; auto).
  assert (St0 : started inter samplers scaler div false o e pk s0) by (unfold started; cbn; auto 20).
  destruct (run_phase inter Thermalisation t q p chances interrupted (pr_thermalisation p) (Progress s0 [] [] false)) as [g1|] eqn:Er1; [|discriminate]. cbn [obind].
  destruct (phase_spec threads n t q p chances interrupted Hth Hch Thermalisation _ (Progress s0 [] [] false) _ I0 Er1) as (st1 & cy1 & A1 & A2 & A3 & A4 & A5 & A6 & A7 & A8 & A9 & A10 & A11). cbv zeta in *.
  cbn [pg_sim pg_out pg_cycles] in *. change (sm_total s0) with o in *. change (sm_max s0) with e in *. change (sm_adjust s0) with true in *. cbn [app] in *.
  set (c1 := sm_total (pg_sim g1)) in *.
  assert (Hc1 : o <= c1 <= h) by (destruct A5 as (X & _); unfold h; exact X).
  assert (Par1 : forall c, o <= c <= c1 -> parameters_at t q p c (st1 c)).
  { intros c Hc. unfold parameters_at. fold e. fold h. rewrite Nat.min_l by lia. destruct (Nat.eq_dec c o) as [->|Hne].
    - rewrite A1. unfold s0, start_run. cbn. auto.
    - destruct (A10 c) as [_ X]; [lia|]. apply X. discriminate. }
  assert (Out1 : flat_map (fun c => pass_out Thermalisation p (st1 c)) (seq (S o) (c1 - o)) = flat_map (fun c => due p c (sm_pk (st1 c)) (sm_T (st1 c)) (sm_P (st1 c))) (seq (S o) (c1 - o))).
  { apply flat_map_ext'. intros c Hc. apply in_seq in Hc. apply due_therm; [apply A8; lia|lia]. }
  destruct (pg_interrupted g1) eqn:Ei1.
  - intros E. injection E as <-. split; [exact Hpos|]. cbv zeta.
    assert (Hk : 0 < pr_thermalisation p). { destruct (Nat.eq_dec (pr_thermalisation p) 0) as [H0|]; [|lia]. rewrite (A7 H0) in Ei1. discriminate. }
    exists st1. rewrite A1. fold c1. split.
    { destruct A5 as (X & Y & Z). split; [lia|]. split; [exact Y|]. intros _. split; [symmetry; exact (A6 Hk)|].
      destruct (Nat.eq_dec c1 o) as [Hz|]; [|lia]. destruct (Z ltac:(lia)). lia. }
    split; [rewrite Ei1; exact (A6 Hk)|]. split; [exact St0|]. split; [exact A2|]. split; [rewrite A3; exact A4|].
    split. { intros c Hc. destruct (A8 c Hc) as (X & Y & Z & W). auto. }
    split. { intros c Hc. split. { destruct (A8 c ltac:(lia)) as (X & Y & Z & W). rewrite Z. symmetry. apply Nat.ltb_lt. lia. } rewrite A3. apply A9. exact Hc. }
    rewrite A11. exact Out1.
  - intros E. assert (Hint : c1 < h -> False).
    { intros Hlt. destruct A5 as (_ & _ & Z). destruct (Z ltac:(unfold h in Hlt; lia)) as [Z1 _]. rewrite <- A6 in Z1; [congruence|]. unfold h in Hlt. fold o in Hlt. lia. }
    assert (Eh : c1 = h) by lia.
    set (s1 := set_adjust (pg_sim g1) false) in E.
    assert (I1 : sinv inter threads n s1). { apply sinv_adjust. rewrite <- A2. apply A8. lia. }
    destruct (phase_spec threads n t q p chances interrupted Hth Hch Averaging _ (Progress s1 (pg_out g1) (pg_cycles g1) false) _ I1 E) as (st2 & cy2 & B1 & B2' & B3 & B4 & B5 & B6 & B7 & B8 & B9 & B10 & B11). cbv zeta in *.
    cbn [pg_sim pg_out pg_cycles] in *. change (sm_total s1) with c1 in *. change (sm_adjust s1) with false in *. rewrite Eh in *.
    assert (Mx : sm_max s1 = e). { change (sm_max (pg_sim g1) = e). rewrite <- A2. apply A8. lia. } rewrite Mx in *.
    set (c2 := sm_total (pg_sim g)) in *. assert (Hc2 : h <= c2 <= e) by (destruct B5 as (X & _); unfold e, h in *; lia).
    split; [exact Hpos|]. set (st := fun c => if c <? h then st1 c else st2 c).
    assert (Lo : forall c, c < h -> st c = st1 c) by (intros c Hc; unfold st; destruct (Nat.ltb_spec c h); [reflexivity|lia]).
    assert (Hi : forall c, h <= c -> st c = st2 c) by (intros c Hc; unfold st; destruct (Nat.ltb_spec c h); [lia|reflexivity]).
    assert (Cyc : pg_cycles g = cy1 ++ cy2) by (rewrite B3, A3; reflexivity).
    destruct A4 as (_ & Lcy1 & _). destruct B4 as (_ & Lcy2 & _).
    assert (Sst : st o = s0 \/ (o = h /\ st o = s1)).
    { destruct (Nat.eq_dec o h) as [Hoh|Hoh]; [right; split; [exact Hoh|]; rewrite Hi by lia; rewrite Hoh; exact B1|left; rewrite Lo by lia; exact A1]. }
    assert (S10 : o = h -> pg_sim g1 = s0). { intros Hoh. rewrite <- A2, <- Hoh. exact A1. }
    assert (Chain : forall c, o <= c < c2 -> sm_adjust (st c) = (c <? h) /\
       exists s1 log, performCycle inter (chances (S c)) (st c) = Some (s1, log) /\ nth_error (pg_cycles g) (c - o) = Some log /\ cycle_done n (st c) s1 log /\ continues s1 (st (S c))).
    { intros c Hc. rewrite Cyc. destruct (Nat.lt_ge_cases c h) as [Hl|Hl].
      - rewrite (Lo c Hl). split. { destruct (A8 c ltac:(lia)) as (X & Y & Z & W). rewrite Z. symmetry. apply Nat.ltb_lt. lia. }
        destruct (A9 c ltac:(lia)) as (s2 & log & X1 & X2 & X3 & X4). exists s2, log. split; [exact X1|]. split; [rewrite nth_error_app1 by lia; exact X2|]. split; [exact X3|].
        destruct (Nat.eq_dec (S c) h) as [Hz|Hz]; [|rewrite Lo by lia; exact X4]. rewrite Hi by lia. rewrite Hz, B1. rewrite Hz, A2 in X4. clear - X4. unfold continues in *. exact X4.
      - rewrite (Hi c Hl). split. { destruct (B8 c ltac:(lia)) as (X & Y & Z & W). rewrite Z. symmetry. apply Nat.ltb_ge. lia. }
        destruct (B9 c ltac:(lia)) as (s2 & log & X1 & X2 & X3 & X4). exists s2, log. split; [exact X1|]. split.
        { rewrite nth_error_app2 by lia. rewrite Lcy1. replace (c - o - (h - o)) with (c - h) by lia. exact X2. }
        split; [exact X3|]. rewrite Hi by lia. exact X4. }
    cbv zeta. exists st. split.
    { destruct A5 as (X & Y & Z), B5 as (X' & Y' & Z'). split; [lia|]. split.
      - intros c Hc. destruct (Nat.lt_trichotomy c h) as [Hl|[->|Hl]]; [apply Y; lia| |apply Y'; lia].
        rewrite <- A6; [reflexivity|]. unfold h in Hc. fold o in Hc. lia.
      - intros Hl. destruct Z' as [Z1 Zz]; [lia|]. split; [exact Z1|lia]. }
    split. { destruct (Nat.eq_dec (pr_averaging p) 0) as [H0|H0]; [|apply B6; lia].
             assert (c2 = h) by (unfold e in Hc2; fold h in Hc2; lia). rewrite (B7 H0). cbn [pg_interrupted]. rewrite H. rewrite <- A6; [reflexivity|lia]. }
    split. { destruct Sst as [->|[Hoh ->]]; [exact St0|]. unfold s1. rewrite (S10 Hoh). clear - St0. unfold started in *. exact St0. }
    split; [rewrite Hi by lia; exact B2'|].
    split. { split; [lia|]. split; [rewrite Cyc, app_length; lia|]. intros c Hc. destruct (Chain c Hc) as (_ & s2 & log & X1 & X2 & X3 & X4). eauto. }
    split. { intros c Hc. destruct (Nat.lt_ge_cases c h) as [Hl|Hl].
             - rewrite (Lo c Hl). destruct (A8 c ltac:(lia)) as (X & Y & Z & W). split; [exact X|]. split; [exact Y|]. split; [apply Par1; lia|exact W].
             - rewrite (Hi c Hl). destruct (B8 c ltac:(lia)) as (X & Y & Z & W). split; [exact X|]. split; [exact Y|]. split; [|exact W].
               pose proof (Par1 h ltac:(lia)) as [P1 P2]. fold e in P1, P2. fold h in P1, P2. rewrite Nat.min_id in P1, P2. rewrite A2 in P1, P2.
               unfold parameters_at. fold e. fold h. rewrite Nat.min_r by lia.
               assert (Sc : forall c, h <= c <= c2 -> (sm_scaler (st2 c) = None <-> sm_scaler (pg_sim g1) = None)).
               { intros k Hk. induction k as [|k IHk]; [assert (h = 0) by lia; rewrite <- H, B1; reflexivity|]. destruct (Nat.eq_dec (S k) h) as [->|]; [rewrite B1; reflexivity|].
                 rewrite <- IHk by lia. destruct (B9 k ltac:(lia)) as (s2 & log & X1 & X2 & X3 & X4). assert (Esc : sm_scaler (st2 (S k)) = sm_scaler s2) by apply X4. rewrite Esc.
                 pose proof (cd_scaler _ _ _ _ X3) as Hs3. destruct (sm_scaler (st2 k)); [destruct Hs3 as (ok & step' & a & _ & -> & _); split; discriminate|].
                 destruct Hs3 as (-> & _). split; reflexivity. }
               destruct (Nat.eq_dec c h) as [->|Hne]; [rewrite B1; exact (conj P1 P2)|]. destruct (B10 c ltac:(lia)) as [Q _]. destruct (Q eq_refl) as [Q1 Q2].
               rewrite Q1, Q2. split; [exact P1|]. change (sm_P s1) with (sm_P (pg_sim g1)). rewrite P2. pose proof (Sc c ltac:(lia)) as Hsc'.
               destruct (sm_scaler (pg_sim g1)), (sm_scaler (st2 c)); auto; [destruct Hsc' as [Hx _]|destruct Hsc' as [_ Hx]]; specialize (Hx eq_refl); discriminate. }
    split; [exact Chain|].
    rewrite B11, A11. replace (c2 - o) with ((h - o) + (c2 - h)) by lia. rewrite seq_app, flat_map_app. replace (S o + (h - o)) with (S h) by lia. f_equal.
    + rewrite Out1. apply flat_map_ext'. intros c Hc. apply in_seq in Hc. destruct (Nat.eq_dec c h) as [->|]; [|rewrite Lo by lia; reflexivity].
      rewrite Hi by lia. rewrite B1, A2. reflexivity.
    + apply flat_map_ext'. intros c Hc. apply in_seq in Hc. rewrite Hi by lia. apply due_avg; [apply B8; lia|lia].
Qed.
End Whole.
End Integrate.
