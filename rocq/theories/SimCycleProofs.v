(** What the moves of one cycle do to the state of a simulation. *)
From Coq Require Import Reals ZArith List Bool Lia Lra Permutation.
From Verif Require Import GeomModel BoxModel BoxSpec RFloorModel RFloorProofs PbcModel PbcSpec NGModel GeomProofs BoxProofs NGListProofs.
From Verif Require Import PackModel PackSpec PackSumProofs PackGridProofs PackCountProofs PackTotalProofs PackProofs PackInvProofs PackHistProofs PackFinalProofs.
From Verif Require Import DomModel DomSpec DomFinalProofs DomRunProofs DomRunFinalProofs DomMoreProofs RotModel RotSpec RotProofs RotFlipProofs.
From Verif Require Import SimModel SimSpec SimMoveProofs SimStateProofs SimPlanProofs.
Import ListNotations.
Open Scope nat_scope.

(** *** Domains of a division *)
Lemma in_domain_coords div c : In c (domain_coords div) <-> forall a, coords_of c a < div a.
Proof.
  unfold domain_coords. rewrite in_flat_map. destruct c as [[i j] k]. split.
  - intros (i' & Hi & H). apply in_flat_map in H. destruct H as (j' & Hj & H). apply in_map_iff in H. destruct H as (k' & E & Hk).
    injection E as -> -> ->. apply in_seq in Hi, Hj, Hk. intros []; simpl; lia.
  - intros H. pose proof (H AX) as H1. pose proof (H AY) as H2. pose proof (H AZ) as H3. simpl in *.
    exists i. split; [apply in_seq; lia|]. apply in_flat_map. exists j. split; [apply in_seq; lia|]. apply in_map_iff. exists k. split; [reflexivity|apply in_seq; lia].
Qed.
Lemma NoDup_app' {A} (l l' : list A) : NoDup l -> NoDup l' -> (forall x, In x l -> ~ In x l') -> NoDup (l ++ l').
Proof.
  induction 1 as [|x l Hx _ IH]; simpl; auto. intros Hl' H. constructor.
  - intros Hin. apply in_app_iff in Hin. destruct Hin as [Hin|Hin]; [contradiction|]. apply (H x); auto.
  - apply IH; auto.
Qed.
Lemma NoDup_flat_map {A B} (f : A -> list B) l : NoDup l -> (forall x, In x l -> NoDup (f x)) ->
  (forall x y z, In x l -> In y l -> In z (f x) -> In z (f y) -> x = y) -> NoDup (flat_map f l).
Proof.
  induction l as [|x l IH]; intros Hn Hf Hd; simpl; [constructor|]. inversion Hn as [|? ? Hx Hl E]. subst. apply NoDup_app'.
  - apply Hf. left. auto.
  - apply IH; auto; [intros y Hy; apply Hf; right; auto|]. intros y y' z Hy Hy'. apply Hd; right; auto.
  - intros z Hz Hz'. apply in_flat_map in Hz'. destruct Hz' as (y & Hy & Hzy). assert (x = y) by (apply (Hd x y z); simpl; auto). subst. auto.
Qed.
Lemma domain_coords_NoDup div : NoDup (domain_coords div).
Proof.
  unfold domain_coords. apply NoDup_flat_map; [apply seq_NoDup| |].
  - intros i _. apply NoDup_flat_map; [apply seq_NoDup| |].
    + intros j _. apply FinFun.Injective_map_NoDup; [|apply seq_NoDup]. intros k k' E. congruence.
    + intros j j' z _ _ H H'. apply in_map_iff in H, H'. destruct H as (k & <- & _), H' as (k' & E & _). congruence.
  - intros i i' z _ _ H H'. apply in_flat_map in H, H'. destruct H as (j & _ & H), H' as (j' & _ & H'). apply in_map_iff in H, H'.
    destruct H as (k & <- & _), H' as (k' & E & _). congruence.
Qed.
Lemma domain_coords_length div : length (domain_coords div) = num_domains div.
Proof.
  unfold domain_coords, num_domains. assert (L : forall {A B} (f : A -> list B) m l, (forall x, In x l -> length (f x) = m) -> length (flat_map f l) = length l * m).
  { intros A B f m l. induction l as [|x l IH]; intros H; simpl; [reflexivity|]. rewrite app_length, IH, H; simpl; auto. intros y Hy. apply H. right. auto. }
  rewrite (L _ _ _ (div AY * div AZ)).
  - rewrite seq_length. lia.
  - intros i _. rewrite (L _ _ _ (div AZ)); [rewrite seq_length; reflexivity|]. intros j _. rewrite map_length, seq_length. reflexivity.
Qed.
Lemma coords_of_differ c c' : c <> c' -> exists a, coords_of c a <> coords_of c' a.
Proof.
  destruct c as [[i j] k], c' as [[i' j'] k']. intros H.
  destruct (Nat.eq_dec i i'); [|exists AX; auto]. destruct (Nat.eq_dec j j'); [|exists AY; auto]. destruct (Nat.eq_dec k k'); [|exists AZ; auto]. congruence.
Qed.
Lemma nth_NoDup {A} (l : list A) i j x : NoDup l -> nth_error l i = Some x -> nth_error l j = Some x -> i = j.
Proof. intros H Hi Hj. rewrite NoDup_nth_error in H. apply H; [apply nth_error_Some; congruence|congruence]. Qed.

(** *** The invariant *)
Definition domain_ok (inter : interaction) : Prop := (in_rangeRadius inter <= in_totalRange inter)%R /\ centres_reach inter.
Record sinv (inter : interaction) (threads n : nat) (s : sim) : Prop := {
  v_visited : visited inter threads (sm_pk s);
  v_size : pk_size (sm_pk s) = n;
  v_counting : pk_counting (sm_pk s) = sm_counted s;
  v_samplers : Forall good_sampler (sm_samplers s);
  v_counters : length (sm_counters s) = length (sm_samplers s);
  v_scaler : match sm_scaler s with Some step => (0 < step)%R | None => True end;
  v_div : forall a, 1 <= sm_div s a;
  v_dom : num_domains (sm_div s) = 1 \/ domain_ok inter;
  v_conv : sm_scaler s = None \/ in_convex inter = false;
  v_total : sm_counted s = false -> total inter (sm_pk s) = 0 }.
(** Only the packing, maximal steps, counters and divisions are changed by moves. *)
Record moved_sim (s s' : sim) (ms : list (nat * bool)) : Prop := {
  mv_samplers : sm_samplers s' = adjust_used (pk_box (sm_pk s)) ms (sm_samplers s);
  mv_counters : forall k, nth_error (sm_counters s') k = option_map (plus_moves ms k) (nth_error (sm_counters s) k);
  mv_frame : sm_scaler s' = sm_scaler s /\ sm_scaling s' = sm_scaling s /\ sm_T s' = sm_T s /\ sm_P s' = sm_P s /\ sm_counted s' = sm_counted s /\
    sm_adjust s' = sm_adjust s /\ sm_performed s' = sm_performed s /\ sm_total s' = sm_total s /\ sm_max s' = sm_max s;
  mv_groups : forall m, In m ms -> fst m < length (sm_samplers s);
  mv_box : pk_box (sm_pk s') = pk_box (sm_pk s);
  mv_div : forall a, 1 <= sm_div s' a <= sm_div s a }.

Lemma adjust_good b s : good_sampler s -> good_sampler (adjustMax b s). Proof. destruct s; auto. Qed.
Lemma enumerate_from {A B} (f : nat -> A -> B) (l : list A) k : map (fun p : nat * A => f (fst p) (snd p)) (combine (seq k (length l)) l) =
  match l with [] => [] | x :: l' => f k x :: map (fun p : nat * A => f (fst p) (snd p)) (combine (seq (S k) (length l')) l') end.
Proof. destruct l; reflexivity. Qed.
Lemma adjust_used_nth b ms samplers g : nth_error (adjust_used b ms samplers) g =
  option_map (fun s => if used ms g then adjustMax b s else s) (nth_error samplers g).
Proof.
  unfold adjust_used, enumerate. set (f := fun (g : nat) s => if used ms g then adjustMax b s else s).
  change (nth_error (map (fun gs : nat * sampler => f (fst gs) (snd gs)) (combine (seq 0 (length samplers)) samplers)) g = option_map (f (0 + g)) (nth_error samplers g)).
  generalize 0. revert g. induction samplers as [|s l IH]; intros g k; [destruct g; reflexivity|]. rewrite enumerate_from.
  destruct g as [|g]; simpl; [rewrite Nat.add_0_r; reflexivity|]. rewrite IH. f_equal. f_equal. lia.
Qed.
Lemma adjust_used_length b ms samplers : length (adjust_used b ms samplers) = length samplers.
Proof. unfold adjust_used, enumerate. rewrite map_length, combine_length, seq_length. lia. Qed.
Lemma adjust_used_good b ms samplers : Forall good_sampler samplers -> Forall good_sampler (adjust_used b ms samplers).
Proof.
  rewrite !Forall_forall. intros H s Hs. apply In_nth_error in Hs. destruct Hs as (g & Hg). rewrite adjust_used_nth in Hg.
  destruct (nth_error samplers g) as [s0|] eqn:E; [|discriminate]. injection Hg as <-. pose proof (H s0 (nth_error_In _ _ E)).
  destruct (used ms g); auto using adjust_good.
Qed.

Section Cycle.
Variables (inter : interaction) (ov : law bool) (en : law R).
Hypothesis HL : lawful inter ov en.
Notation vgood := (vgood inter).
Notation total := (total inter).

Lemma visited_good threads pk : visited inter threads pk -> vgood threads pk.
Proof.
  induction 1 as [shapes b os pk Hre Hrot|pk pk' _ V E|on pk pk' _ V E|thread pl pk pk' ok _ V Hth Hpl E Ha|ws sch pk pk' ws' _ V Hr HC Hd E
                 |nb pk pk' e _ V Hb E|nb pk pk' e _ V Hb E|thread allow pk pk' n _ V Hth E].
  - destruct (reach_inv inter ov en HL threads shapes b os pk Hre) as (Hi & _ & Ht). split; auto.
  - destruct (setup_kept inter ov en HL threads pk V) as (pk2 & E2 & V2 & _). congruence.
  - destruct (counting_kept inter ov en HL threads on pk V) as (pk2 & E2 & V2 & _). congruence.
  - destruct (perform_spec inter ov en HL threads thread pl pk V Hth Hpl Ha) as (s & pk2 & ok2 & s' & _ & E2 & V2 & _). congruence.
  - apply (domains_kept inter ov en HL threads pk ws sch pk' ws' V Hr HC Hd E).
  - destruct (scaling_kept inter ov en HL threads nb pk V Hb) as (pk2 & e2 & E2 & V2 & _). congruence.
  - destruct (scaling_kept inter ov en HL threads nb pk V Hb) as (pk2 & e2 & E2 & _ & _ & _ & V2 & _). assert (pk2 = pk') by congruence. subst. exact V2.
  - destruct (renormalize_kept inter ov en HL threads thread allow pk V Hth) as (pk2 & n2 & E2 & V2 & _). congruence.
Qed.

(** *** Sequential moves *)
Lemma perform_plans_spec threads thread : forall pls pk, visited inter threads pk -> thread < threads ->
  (forall g pl, In (g, pl) pls -> safe (pk_size pk) thread pl) ->
  exists pk' ms, perform_plans inter thread pls pk = Some (pk', ms) /\ visited inter threads pk' /\ pk_size pk' = pk_size pk /\
    pk_counting pk' = pk_counting pk /\ pk_box pk' = pk_box pk /\ (pk_counting pk = false -> total pk' <= total pk) /\ map fst ms = map fst pls.
Proof.
  induction pls as [|[g pl] pls IH]; intros pk V Hth Hs.
  - exists pk, []. split; [reflexivity|]. split; [exact V|]. split; [reflexivity|]. split; [reflexivity|]. split; [reflexivity|]. split; [lia|reflexivity].
  - destruct (Hs g pl (or_introl eq_refl)) as [Hpl Ha].
    destruct (perform_spec inter ov en HL threads thread pl pk (visited_good _ _ V) Hth Hpl Ha) as (s & pk1 & ok & s' & _ & E & _ & _ & Z & B & W & C & T & _).
    assert (V1 : visited inter threads pk1) by exact (visit_move inter threads thread pl pk pk1 ok V Hth Hpl E Ha).
    destruct (IH pk1 V1 Hth) as (pk2 & ms & E2 & V2 & Z2 & C2 & B2 & T2 & M2).
    { intros g' pl' H'. rewrite Z. apply (Hs g'). right. exact H'. }
    exists pk2, ((g, ok) :: ms). cbn [perform_plans]. cbn [snd fst]. rewrite E. cbn [obind fst snd]. rewrite E2. cbn [obind fst snd].
    split; [reflexivity|]. split; [exact V2|]. split; [congruence|]. split; [congruence|]. split; [congruence|]. split; [|simpl; congruence].
    intros H. specialize (T H). assert (H1 : pk_counting pk1 = false) by congruence. specialize (T2 H1). lia.
Qed.
Lemma perform_plans_groups thread : forall pls pk pk' ms, perform_plans inter thread pls pk = Some (pk', ms) -> map fst ms = map fst pls.
Proof.
  induction pls as [|pl pls IH]; intros pk pk' ms E; cbn [perform_plans] in E; [injection E as <- <-; reflexivity|].
  destruct (perform_plan inter thread (snd pl) pk) as [[pk1 ok]|]; [|discriminate]. cbn [obind fst snd] in E.
  destruct (perform_plans inter thread pls pk1) as [[pk2 ms2]|] eqn:E2; [|discriminate]. cbn [obind fst snd] in E. injection E as <- <-. simpl. f_equal. eauto.
Qed.
Lemma size_pos threads pk : vgood threads pk -> 0 < pk_size pk. Proof. intros (Hi & _). apply (i_size _ _ Hi). Qed.
Lemma moved_sinv threads n s s' ms : sinv inter threads n s -> moved_sim s s' ms -> visited inter threads (sm_pk s') -> pk_size (sm_pk s') = n ->
  pk_counting (sm_pk s') = pk_counting (sm_pk s) -> (pk_counting (sm_pk s) = false -> total (sm_pk s') <= total (sm_pk s)) ->
  (num_domains (sm_div s') = 1 \/ domain_ok inter) -> sinv inter threads n s'.
Proof.
  intros I M V Z C T D. destruct M as [M1 M2 (F1 & F2 & F3 & F4 & F5 & F6 & F7 & F8 & F9) M4 M5 M6]. destruct I. split; auto.
  - congruence.
  - rewrite M1. apply adjust_used_good. auto.
  - rewrite M1, adjust_used_length, <- v_counters0. assert (H : forall k, nth_error (sm_counters s') k = None <-> nth_error (sm_counters s) k = None).
    { intros k. rewrite M2. destruct (nth_error (sm_counters s) k); simpl; split; congruence. }
    pose proof (H (length (sm_counters s))) as H1. pose proof (H (length (sm_counters s'))) as H2. rewrite !nth_error_None in H1, H2. lia.
  - rewrite F1. auto.
  - intros a. apply M6.
  - rewrite F1. auto.
  - rewrite F5. intros Hc. specialize (v_total0 Hc). specialize (T ltac:(congruence)). lia.
Qed.
Lemma sequential threads n ch s : 0 < threads -> sinv inter threads n s -> good_chance threads ch ->
  (forall s' ms, performMovesWithoutDomainDivision inter ch s = Some (s', ms) ->
     sinv inter threads n s' /\ moved_sim s s' ms /\ sm_div s' = sm_div s /\ length ms = requested_sum (sm_samplers s) n) /\
  (Forall (enough_particles n) (sm_samplers s) -> performMovesWithoutDomainDivision inter ch s <> None).
Proof.
  intros Hth I (Hd & _). pose proof (v_visited _ _ _ _ I) as V. pose proof (v_size _ _ _ _ I) as Hz. pose proof (v_samplers _ _ _ _ I) as Hs.
  pose proof (size_pos _ _ (visited_good _ _ V)) as Hpos.
  assert (Sf : forall accs pls, make_plans (pk_box (sm_pk s)) (sm_samplers s) accs (seq 0 (pk_size (sm_pk s))) 0 None (sm_T s) (ch_draws ch) = Some pls ->
     forall g pl, In (g, pl) pls -> safe (pk_size (sm_pk s)) 0 pl).
  { intros accs pls E g pl Hin. destruct (make_plans_good _ _ _ _ _ _ _ Hs _ _ Hd E) as [_ H]. destruct (H g pl Hin) as (_ & Hi & (u & Hu & Ea) & Ho).
    apply in_seq in Hi. apply (good_op_plan _ _ None pl u (sm_T s)); auto; try lia. apply Hu. }
  split.
  - intros s' ms E. unfold performMovesWithoutDomainDivision in E. cbv zeta in E.
    destruct (accumulations _ _ _) as [accs|] eqn:Eacc; [|discriminate]. cbn [obind] in E.
    destruct (make_plans _ _ _ _ _ _ _ _) as [pls|] eqn:Epl; [|discriminate]. cbn [obind] in E.
    destruct (perform_plans_spec threads 0 pls (sm_pk s) V Hth (Sf _ _ Epl)) as (pk' & ms' & Ep & V' & Z' & C' & B' & T' & G').
    rewrite Ep in E. cbn [obind fst snd] in E. injection E as <- <-.
    destruct (make_plans_good _ _ _ _ _ _ _ Hs _ _ Hd Epl) as [Hlen Hg].
    assert (M : moved_sim s (set_moved s pk' (adjust_used (pk_box (sm_pk s)) ms' (sm_samplers s)) (count_moves ms' (sm_counters s))) ms').
    { split; cbn [set_moved sm_samplers sm_counters sm_scaler sm_scaling sm_T sm_P sm_counted sm_adjust sm_performed sm_total sm_max sm_pk sm_div].
      - reflexivity.
      - intros k. apply count_moves_nth.
      - split; [|split; [|split; [|split; [|split; [|split; [|split; [|split]]]]]]]; reflexivity.
      - intros m Hm. assert (Hf : In (fst m) (map fst pls)) by (rewrite <- G'; apply in_map; exact Hm). apply in_map_iff in Hf. destruct Hf as ([g pl] & E1 & Hin).
        simpl in E1. subst g. apply (Hg _ _ Hin).
      - exact B'.
      - intros a. pose proof (v_div _ _ _ _ I a). lia. }
    split; [|split; [exact M|split; [reflexivity|]]].
    + apply (moved_sinv threads n s _ ms'); auto. cbn. congruence. exact (v_dom _ _ _ _ I).
    + rewrite <- (map_length fst ms'), G', map_length, Hlen. destruct (sm_samplers s) as [|x l] eqn:Esl.
      * simpl in Eacc. injection Eacc as <-. reflexivity.
      * rewrite (accumulations_last _ _ _ _ Eacc) by discriminate. rewrite Hz. reflexivity.
  - intros Hen. unfold performMovesWithoutDomainDivision. cbv zeta. rewrite Hz.
    destruct (accumulations_total (sm_samplers s) n 0 Hen) as (accs & Ea). rewrite Ea. cbn [obind].
    destruct (make_plans_total (pk_box (sm_pk s)) (sm_samplers s) accs (seq 0 n) 0 None (sm_T s) Hs (ch_draws ch)) as (pls & Ep).
    { exact (accumulations_length _ _ _ _ Ea). } { destruct n; [lia|discriminate]. }
    rewrite Ep. cbn [obind]. rewrite <- Hz in Ep.
    destruct (perform_plans_spec threads 0 pls (sm_pk s) V Hth (Sf _ _ Ep)) as (pk' & ms' & E2 & _). rewrite E2. cbn [obind]. discriminate.
Qed.

(** *** Domain moves *)
Lemma workers_length : forall sch st st', run_workers inter sch st = Some st' ->
  Forall2 (fun w w' => length (wk_log w') + length (wk_todo w') = length (wk_log w) + length (wk_todo w)) (snd st) (snd st').
Proof.
  assert (Rf : forall ws, Forall2 (fun w w' : worker => length (wk_log w') + length (wk_todo w') = length (wk_log w) + length (wk_todo w)) ws ws).
  { induction ws; constructor; auto. }
  induction sch as [|k sch IH]; intros st st' R; cbn [run_workers] in R; [injection R as <-; apply Rf|].
  destruct (workers_step inter k st) as [st1|] eqn:E; [|discriminate]. cbn [obind] in R. specialize (IH _ _ R).
  assert (S1 : Forall2 (fun w w' => length (wk_log w') + length (wk_todo w') = length (wk_log w) + length (wk_todo w)) (snd st) (snd st1)).
  { destruct st as [pk ws]. cbn [workers_step] in E. destruct (nth_error ws k) as [w|] eqn:Ew; [|discriminate]. cbn [obind] in E.
    destruct (match wk_pending w with None => busy (wk_thread w) ws | Some _ => false end); [discriminate|].
    destruct (worker_step inter pk w) as [[pk1 w1]|] eqn:E1; [|discriminate]. cbn [obind fst snd] in E.
    destruct (set_nth ws k w1) as [ws1|] eqn:E2; [|discriminate]. cbn [obind] in E. injection E as <-. cbn [snd].
    assert (L1 : length (wk_log w1) + length (wk_todo w1) = length (wk_log w) + length (wk_todo w)).
    { unfold worker_step in E1. destruct (wk_pending w) as [[pl e]|].
      - destruct (if pl_accept pl e then acceptMove (wk_thread w) pk else Some pk); [|discriminate]. cbn [obind] in E1. injection E1 as <- <-. reflexivity.
      - destruct (wk_todo w) as [|pl todo]; [discriminate|]. destruct (nth_error (pk_parts pk) (pl_i pl)); [|discriminate]. cbn [obind] in E1.
        destruct (try_op inter _ pk) as [[pk2 e]|]; [|discriminate]. cbn [obind fst snd] in E1. injection E1 as <- <-. simpl. lia. }
    clear - Ew E2 L1 Rf. revert ws ws1 Ew E2. induction k as [|k IH]; intros [|x ws] ws1 Ew E2; simpl in *; try discriminate.
    - injection Ew as ->. injection E2 as <-. constructor; auto.
    - destruct (set_nth ws k w1) as [ws2|] eqn:E; [|discriminate]. injection E2 as <-. constructor; eauto. }
  clear - S1 IH. revert S1 IH. generalize (snd st), (snd st1), (snd st'). intros l1 l2 l3 H. revert l3. induction H; intros l3 H3; inversion H3; subst; constructor; auto. congruence.
Qed.
Section Jobs.
Variables (threads n : nat) (ch : chance) (s : sim) (d : decomposition) (origin : vec).
Hypothesis (I : sinv inter threads n s) (Hch : good_chance threads ch) (HD : domain_ok inter).
Hypothesis (Ho : in_box (pk_box (sm_pk s)) origin) (Hd : decompose (sm_pk s) inter (sm_div s) origin = DdReady d).
Notation pk := (sm_pk s).
Notation job := (nat * nat * nat * list (nat * plan))%type.
Lemma job_facts jobs0 : map_opt (domain_job (pk_box pk) (sm_samplers s) (pk_size pk) (sm_div s) (sm_T s) d ch) (domain_coords (sm_div s)) = Some jobs0 ->
  NoDup (map fst (somes jobs0)) /\ forall jb, In jb (somes jobs0) -> (forall a, coords_of (fst jb) a < sm_div s a) /\
    domain_job (pk_box pk) (sm_samplers s) (pk_size pk) (sm_div s) (sm_T s) d ch (fst jb) = Some (Some jb).
Proof.
  intros E. apply map_opt_F2 in E.
  assert (H : forall l (js : list (option job)), Forall2 (fun c r => domain_job (pk_box pk) (sm_samplers s) (pk_size pk) (sm_div s) (sm_T s) d ch c = Some r) l js -> NoDup l ->
     NoDup (map fst (somes js)) /\ forall jb, In jb (somes js) -> In (fst jb) l /\
       domain_job (pk_box pk) (sm_samplers s) (pk_size pk) (sm_div s) (sm_T s) d ch (fst jb) = Some (Some jb)).
  { clear E jobs0. induction 1 as [|c r l js E _ IH]; intros Hn; [split; [constructor|intros jb []]|]. inversion Hn as [|? ? Hc Hn' Ec]. subst.
    destruct (IH Hn') as [IH1 IH2]. destruct r as [jb|]; unfold somes; cbn [flat_map].
    - assert (Ef : fst jb = c).
      { clear - E. unfold domain_job in E. destruct (getParticlesInRegion d (coords_of c)) as [[|x l0]|]; [| |discriminate]; cbn [obind] in E;
          destruct (getActiveDomainBounds d (coords_of c)); try discriminate; cbn [obind] in E; try discriminate.
        destruct (accumulations _ _ _); [|discriminate]. cbn [obind] in E. destruct (make_plans _ _ _ _ _ _ _ _); [|discriminate]. cbn [obind] in E.
        injection E as <-. reflexivity. }
      cbn [app map]. split.
      + constructor; [|exact IH1]. intros Hin. apply in_map_iff in Hin. destruct Hin as (jb' & E' & Hin). apply Hc. rewrite <- Ef, <- E'. apply (IH2 jb' Hin).
      + intros jb' [->|Hin]; [rewrite Ef; split; [left; reflexivity|exact E]|]. destruct (IH2 jb' Hin) as [A B]. split; [right; exact A|exact B].
    - cbn [app]. split; [exact IH1|]. intros jb' Hin. destruct (IH2 jb' Hin) as [A B]. split; [right; exact A|exact B]. }
  destruct (H _ _ E (domain_coords_NoDup _)) as [A B]. split; [exact A|]. intros jb Hin. destruct (B jb Hin) as [B1 B2].
  split; [apply in_domain_coords; exact B1|exact B2].
Qed.
Lemma job_plans jb : domain_job (pk_box pk) (sm_samplers s) (pk_size pk) (sm_div s) (sm_T s) d ch (fst jb) = Some (Some jb) ->
  exists ad l accs, getActiveDomainBounds d (coords_of (fst jb)) = Some ad /\ getParticlesInRegion d (coords_of (fst jb)) = Some l /\ l <> [] /\
    accumulations (sm_samplers s) (Nat.div (pk_size pk) (num_domains (sm_div s))) 0 = Some accs /\
    make_plans (pk_box pk) (sm_samplers s) accs l (ch_thread ch (fst jb)) (Some (isInside ad)) (sm_T s) (ch_domain ch (fst jb)) = Some (snd jb).
Proof.
  unfold domain_job. destruct (getParticlesInRegion d (coords_of (fst jb))) as [l|]; [|discriminate]. cbn [obind].
  destruct (getActiveDomainBounds d (coords_of (fst jb))) as [ad|]; [|discriminate]. cbn [obind].
  intros E. exists ad, l. destruct l as [|x l]; [discriminate|].
  destruct (accumulations _ _ _) as [accs|]; [|discriminate]. cbn [obind] in E. exists accs.
  destruct (make_plans _ _ _ _ _ _ _ _) as [pls|] eqn:Ep; [|discriminate]. cbn [obind] in E. injection E as E.
  split; [reflexivity|]. split; [reflexivity|]. split; [discriminate|]. split; [reflexivity|]. rewrite <- E. reflexivity.
Qed.
Lemma jobs_legal jobs0 : map_opt (domain_job (pk_box pk) (sm_samplers s) (pk_size pk) (sm_div s) (sm_T s) d ch) (domain_coords (sm_div s)) = Some jobs0 ->
  domain_workers threads inter pk (map (job_worker ch) (somes jobs0)).
Proof.
  intros E. destruct (job_facts _ E) as [Hnd Hj]. pose proof (v_visited _ _ _ _ I) as V. pose proof (visited_good _ _ V) as (Hi & Ht & Hrot).
  exists (sm_div s), origin, d, (map (fun jb : job => coords_of (fst jb)) (somes jobs0)).
  split; [apply I|]. split; [exact Ho|]. split; [exact Hd|].
  assert (Ediv : dd_div d = sm_div s).
  { pose proof Hd as Hd'. unfold decompose in Hd'. destruct (pk_ng pk) as [g0|] eqn:Eg; [|discriminate].
    pose proof (decomposition_spec pk inter (sm_div s) (cget (getCellDivisions g0)) origin (inv_well_placed _ _ Hi) (proj1 HD)
     (run_legal inter pk g0 (sm_div s) origin Hi Eg (v_div _ _ _ _ I) Ho)) as Sp. rewrite Hd' in Sp. apply Sp. }
  destruct Hch as (_ & Hdr & _ & Hth & _). split.
  - clear E Hnd. induction (somes jobs0) as [|jb l IH]; [constructor|]. cbn [map]. constructor.
    + destruct (Hj jb (or_introl eq_refl)) as [Hc Ej]. destruct (job_plans jb Ej) as (ad & pl & accs & E1 & E2 & _ & _ & E4).
      split; [rewrite Ediv; exact Hc|]. split; [apply Hth|]. split; [reflexivity|]. exists ad, pl. split; [exact E1|]. split; [exact E2|].
      intros p Hp. cbn [job_worker wk_todo wk_thread] in *. apply in_map_iff in Hp. destruct Hp as ([g p'] & <- & Hin). cbn [snd].
      destruct (make_plans_good _ _ _ _ _ _ _ (v_samplers _ _ _ _ I) _ _ (Hdr (fst jb)) E4) as [_ Hgood].
      destruct (Hgood g p' Hin) as (_ & A & (u & Hu & Ea) & B). split; [exact A|]. split; [rewrite Ea; apply metropolis_refuses, Hu|].
      intros sh Hsh. specialize (B sh Hsh). destruct (pl_op p' sh); simpl in B; try contradiction; exact B.
    + apply IH. intros jb' Hin. apply Hj. right. exact Hin.
  - intros k l c c' Hk Hl Hne. rewrite nth_error_map in Hk, Hl. destruct (nth_error (somes jobs0) k) as [jb|] eqn:Ek; [|discriminate].
    destruct (nth_error (somes jobs0) l) as [jb'|] eqn:El; [|discriminate]. injection Hk as <-. injection Hl as <-. apply coords_of_differ. intros Eq.
    apply Hne. apply (nth_NoDup (map fst (somes jobs0)) k l (fst jb) Hnd); rewrite nth_error_map, ?Ek, ?El; simpl; congruence.
Qed.
(** The number of domains with particles. *)
Definition busy_domains : nat := length (filter (fun c => match getParticlesInRegion d (coords_of c) with Some (_ :: _) => true | _ => false end) (domain_coords (sm_div s))).
Lemma divided s' ms : performMovesWithDomainDivision inter ch d s = Some (s', ms) ->
  sinv inter threads n s' /\ moved_sim s s' ms /\ sm_div s' = sm_div s /\
  length ms = busy_domains * requested_sum (sm_samplers s) (Nat.div n (num_domains (sm_div s))).
Proof.
  intros E. unfold performMovesWithDomainDivision in E. cbv zeta in E.
  destruct (map_opt _ _) as [jobs0|] eqn:Ej; [|discriminate]. cbn [obind] in E.
  set (jobs := somes jobs0) in *. set (ws := map (job_worker ch) jobs) in *.
  destruct (run_workers inter (ch_schedule ch pk ws) (pk, ws)) as [[pk' ws']|] eqn:R; [|discriminate]. cbn [obind fst snd] in E.
  destruct (forallb job_done ws') eqn:F; [|discriminate]. injection E as <- <-.
  pose proof (jobs_legal _ Ej) as Leg. pose proof (v_visited _ _ _ _ I) as V. destruct (job_facts _ Ej) as [Hnd Hj]. fold jobs in Hnd, Hj.
  assert (V' : visited inter threads pk') by exact (visit_domains inter threads ws _ pk pk' ws' V (proj1 HD) (proj2 HD) Leg R).
  destruct (domains_kept inter ov en HL threads pk ws _ pk' ws' (visited_good _ _ V) (proj1 HD) (proj2 HD) Leg R) as (_ & Z' & C' & B' & W' & T').
  assert (Fin : Forall finished ws').
  { apply Forall_forall. intros w Hw. rewrite forallb_forall in F. specialize (F w Hw). unfold job_done in F. unfold finished.
    destruct (wk_todo w); [|discriminate]. destruct (wk_pending w); [discriminate|]. auto. }
  specialize (T' Fin). pose proof (workers_length _ _ _ R) as Hlen. cbn [snd] in Hlen.
  set (moves := map (fun jw : job * worker => (ch_thread ch (fst (fst jw)), job_moves (fst jw) (snd jw))) (combine jobs ws')).
  destruct Hch as (_ & Hdr & _ & Hth & Hred & Hall & _).
  assert (Hlen2 : forall k jb w', nth_error jobs k = Some jb -> nth_error ws' k = Some w' -> length (wk_log w') = length (snd jb)).
  { intros k jb w' Hk Hw'. assert (Hw : nth_error ws k = Some (job_worker ch jb)) by (unfold ws; rewrite nth_error_map, Hk; reflexivity).
    pose proof (Forall2_nth _ _ _ Hlen k _ _ Hw Hw') as L. cbn [job_worker wk_log wk_todo length] in L. rewrite map_length in L.
    rewrite Forall_forall in Fin. destruct (Fin w' (nth_error_In _ _ Hw')) as [Fe _]. rewrite Fe in L. simpl in L. lia. }
  assert (Hl : length ws' = length jobs) by (rewrite <- (Forall2_len _ _ _ Hlen); unfold ws; apply map_length).
  assert (Mv : forall k jb, nth_error jobs k = Some jb -> exists w', nth_error ws' k = Some w' /\ length (job_moves jb w') = length (snd jb) /\
     map fst (job_moves jb w') = map fst (snd jb)).
  { intros k jb Hk. destruct (nth_error ws' k) as [w'|] eqn:Ew; [|apply nth_error_None in Ew; assert (k < length jobs) by (apply nth_error_Some; congruence); lia].
    exists w'. split; [reflexivity|]. pose proof (Hlen2 k jb w' Hk Ew) as L. unfold job_moves. split.
    - rewrite map_length, combine_length, rev_length, L. lia.
    - rewrite map_map. cbn [fst]. rewrite <- (rev_length (wk_log w')) in L. clear - L. revert L. generalize (rev (wk_log w')), (snd jb). intros a b. revert a.
      induction b as [|x b IH]; intros [|y a] L; simpl in *; try discriminate; auto. f_equal. apply IH. lia. }
  assert (Mt : forall tm, In tm moves -> In (fst tm) (ch_reduction ch)).
  { intros tm Htm. apply in_map_iff in Htm. destruct Htm as (jw & <- & _). apply Hall. }
  assert (M : moved_sim s (set_moved s pk' (adjust_used (pk_box pk) (concat (map snd moves)) (sm_samplers s))
     (accumulateCounters (sm_counters s) (fold_left (fun cs th => accumulateCounters cs (private_counters (length (sm_counters s)) moves th)) (ch_reduction ch)
        (repeat zeroCounter (length (sm_counters s)))))) (concat (map snd moves))).
  { split; cbn [set_moved sm_samplers sm_counters sm_scaler sm_scaling sm_T sm_P sm_counted sm_adjust sm_performed sm_total sm_max sm_pk sm_div].
    - reflexivity.
    - intros k. apply (reduced moves _ (ch_reduction ch) (sm_counters s) k eq_refl Hred Mt).
    - split; [|split; [|split; [|split; [|split; [|split; [|split; [|split]]]]]]]; reflexivity.
    - intros m Hm. apply in_concat in Hm. destruct Hm as (l & Hl1 & Hm). apply in_map_iff in Hl1. destruct Hl1 as (tm & <- & Htm).
      apply in_map_iff in Htm. destruct Htm as ([jb w'] & <- & Hin). cbn [fst snd] in Hm. apply In_nth_error in Hin. destruct Hin as (k & Hk).
      assert (Hk1 : nth_error jobs k = Some jb /\ nth_error ws' k = Some w').
      { clear - Hk. revert k ws' Hk. induction jobs as [|x l IH]; intros [|k] [|y l'] Hk; simpl in *; try discriminate; eauto. injection Hk as <- <-. auto. }
      destruct Hk1 as [Hk1 Hk2]. destruct (Mv k jb Hk1) as (w2 & Ew2 & _ & Emap). assert (w2 = w') by congruence. subst w2.
      assert (Hf : In (fst m) (map fst (snd jb))) by (rewrite <- Emap; apply in_map; exact Hm). apply in_map_iff in Hf. destruct Hf as ([g pl] & E1 & Hin).
      simpl in E1. subst g. destruct (Hj jb (nth_error_In _ _ Hk1)) as [_ Ejb]. destruct (job_plans jb Ejb) as (ad & pl0 & accs & _ & _ & _ & _ & E4).
      destruct (make_plans_good _ _ _ _ _ _ _ (v_samplers _ _ _ _ I) _ _ (Hdr (fst jb)) E4) as [_ Hgood]. apply (Hgood _ _ Hin).
    - exact B'.
    - intros a. pose proof (v_div _ _ _ _ I a). lia. }
  split; [|split; [exact M|split; [reflexivity|]]].
  - apply (moved_sinv threads n s _ _ I M); auto. cbn. rewrite Z'. exact (v_size _ _ _ _ I).
  - assert (Lj : forall jb, In jb jobs -> length (snd jb) = requested_sum (sm_samplers s) (n / num_domains (sm_div s))).
    { intros jb Hjb. destruct (Hj jb Hjb) as [_ Ejb]. destruct (job_plans jb Ejb) as (ad & pl0 & accs & _ & _ & _ & E3 & E4).
      destruct (make_plans_good _ _ _ _ _ _ _ (v_samplers _ _ _ _ I) _ _ (Hdr (fst jb)) E4) as [Hq _]. rewrite Hq. rewrite (v_size _ _ _ _ I) in E3.
      destruct (sm_samplers s) as [|x l]; [simpl in E3; injection E3 as <-; reflexivity|]. rewrite (accumulations_last _ _ _ _ E3) by discriminate. reflexivity. }
    assert (L1 : length (concat (map snd moves)) = length jobs * requested_sum (sm_samplers s) (n / num_domains (sm_div s))).
    { unfold moves. rewrite map_map. cbn [snd]. clear - Mv Lj Hl. revert ws' Mv Hl. induction jobs as [|jb l IH]; intros [|w' ws'] Mv Hl; simpl in *; try discriminate; auto.
      rewrite app_length. destruct (Mv 0 jb eq_refl) as (w2 & E2 & L2 & _). simpl in E2. injection E2 as <-. rewrite L2, (Lj jb) by (left; reflexivity).
      rewrite IH; auto. intros k jb' Hk. exact (Mv (S k) jb' Hk). }
    rewrite L1. f_equal. unfold busy_domains, jobs. clear - Ej. apply map_opt_F2 in Ej. induction Ej as [|c r l js E _ IH]; [reflexivity|].
    unfold somes. cbn [flat_map filter]. fold (somes js). rewrite app_length, IH. unfold domain_job in E.
    destruct (getParticlesInRegion d (coords_of c)) as [[|x l0]|]; [| |discriminate]; cbn [obind] in E;
      destruct (getActiveDomainBounds d (coords_of c)); try discriminate; cbn [obind] in E.
    + injection E as <-. reflexivity.
    + destruct (accumulations _ _ _); [|discriminate]. cbn [obind] in E. destruct (make_plans _ _ _ _ _ _ _ _); [|discriminate]. cbn [obind] in E.
      injection E as <-. reflexivity.
Qed.
End Jobs.

(** *** Retries with fewer domains *)
Lemma set_div_sinv threads n s div : sinv inter threads n s -> (forall a, 1 <= div a) -> (num_domains div = 1 \/ domain_ok inter) -> sinv inter threads n (set_div s div).
Proof. intros [] H1 H2. split; auto. Qed.
Lemma origin_in_box b v : valid_box b -> (forall a, (0 <= vget v a < 1)%R) -> in_box b (relativeToAbsolute b v).
Proof. intros Hb H a. rewrite rel_abs by exact Hb. apply H. Qed.
Definition all_domains (div : axis -> nat) (m : nat) (samplers : list sampler) (n : nat) : nat -> Prop := fun moves =>
  (num_domains div = 1 /\ moves = requested_sum samplers n) \/
  (num_domains div <> 1 /\ exists busy, busy <= num_domains div /\ moves = busy * requested_sum samplers (n / num_domains div)).
Lemma moves_done threads n ch : 0 < threads -> good_chance threads ch -> forall fuel k s s' ms, sinv inter threads n s ->
  performMoves_sim fuel k inter ch s = Some (s', ms) ->
  sinv inter threads n s' /\ moved_sim s s' ms /\ all_domains (sm_div s') 0 (sm_samplers s) n (length ms).
Proof.
  intros Hth Hch. induction fuel as [|fuel IH]; intros k s s' ms I E; cbn [performMoves_sim] in E; [discriminate|].
  destruct (Nat.eqb_spec (num_domains (sm_div s)) 1) as [H1|H1].
  - destruct (proj1 (sequential threads n ch s Hth I Hch) s' ms E) as (A & B & C & D). split; [exact A|]. split; [exact B|]. left. rewrite C. auto.
  - pose proof (visited_good _ _ (v_visited _ _ _ _ I)) as (Hi & _). pose proof (i_box _ _ Hi) as Hb.
    assert (Ho : in_box (pk_box (sm_pk s)) (relativeToAbsolute (pk_box (sm_pk s)) (ch_origin ch k))) by (apply origin_in_box; [exact Hb|apply Hch]).
    assert (HD : domain_ok inter) by (destruct (v_dom _ _ _ _ I); [contradiction|auto]).
    destruct (decompose _ _ _ _) as [d|a|] eqn:Ed; [| |discriminate].
    + destruct (divided threads n ch s d _ I Hch HD Ho Ed s' ms E) as (A & B & C & D). split; [exact A|]. split; [exact B|]. right. rewrite C. split; [exact H1|].
      eexists. split; [|exact D]. unfold busy_domains. rewrite <- domain_coords_length. clear. generalize (domain_coords (sm_div s)). intros l.
      induction l as [|x l IHl]; simpl; [lia|]. destruct (match getParticlesInRegion d (coords_of x) with Some (_ :: _) => true | _ => false end); simpl; lia.
    + assert (Ha : 2 <= sm_div s a).
      { unfold decompose in Ed. destruct (pk_ng (sm_pk s)) as [g0|] eqn:Eg; [|discriminate].
        pose proof (decomposition_spec (sm_pk s) inter (sm_div s) (cget (getCellDivisions g0)) _ (inv_well_placed _ _ Hi) (proj1 HD)
          (run_legal inter (sm_pk s) g0 (sm_div s) _ Hi Eg (v_div _ _ _ _ I) Ho)) as Sp. rewrite Ed in Sp. apply Sp. }
      assert (Hdiv : forall a', 1 <= decrement (sm_div s) a a' <= sm_div s a').
      { intros a'. pose proof (v_div _ _ _ _ I a'). unfold decrement. destruct (axis_eqb a' a) eqn:Ea; [|lia].
        assert (a' = a) by (destruct a', a; simpl in Ea; congruence). subst. lia. }
      destruct (IH (S k) _ s' ms (set_div_sinv threads n s _ I (fun a' => proj1 (Hdiv a')) (or_intror HD)) E) as (A & B & C).
      split; [exact A|]. split; [|exact C]. destruct B as [B1 B2 B3 B4 B5 B6]. split; auto.
      intros a'. specialize (B6 a'). specialize (Hdiv a'). cbn [set_div sm_div] in B6. lia.
Qed.
Lemma moves_total threads n ch s k : 0 < threads -> good_chance threads ch -> sinv inter threads n s -> num_domains (sm_div s) = 1 ->
  Forall (enough_particles n) (sm_samplers s) -> performMoves_sim (attempts (sm_div s)) k inter ch s <> None.
Proof.
  intros Hth Hch I H1 Hen. unfold attempts. cbn [performMoves_sim]. rewrite H1, Nat.eqb_refl. exact (proj2 (sequential threads n ch s Hth I Hch) Hen).
Qed.
End Cycle.
