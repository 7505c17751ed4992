(** Concurrent moves for reachable packings. *)
From Coq Require Import Reals ZArith List Bool Lia Lra.
From Verif Require Import GeomModel BoxModel BoxSpec PbcModel PbcSpec NGModel NGSpec NGListProofs.
From Verif Require Import PackModel PackSpec PackSumProofs PackCountProofs PackGridProofs PackTotalProofs PackProofs PackInvProofs PackHistProofs PackFinalProofs.
From Verif Require Import DomModel DomSpec DomFinalProofs DomRunProofs.
Import ListNotations.
Open Scope nat_scope.

(** *** Same particles, same counts and energies *)
Section Same.
Variables (inter : interaction) (ov : law bool) (en : law R).
Hypothesis HL : lawful inter ov en.
Variables pk pk' : packing.
Hypothesis Hi : inv inter pk.
Hypothesis Hi' : inv inter pk'.
Hypothesis Hparts : pk_parts pk = pk_parts pk'.
Hypothesis Hbox : pk_box pk = pk_box pk'.
Hypothesis Hwall : pk_wall pk = pk_wall pk'.
Hypothesis Hn : pk_ng pk <> None.
Hypothesis Hn' : pk_ng pk' <> None.
Lemma same_k : pk_k pk = pk_k pk'. Proof. rewrite (i_k _ _ Hi), (i_k _ _ Hi'). auto. Qed.
Lemma same_sum W wl : follows W wl -> symmetric_law wl ->
  (forall r1 c1 r2 c2 d, wl r1 c1 r2 c2 d (vnorm2 d) <> 0 -> vnorm d <= in_rangeRadius inter)%R ->
  Rsum (tv 0%R W pk) (total_list pk) = Rsum (tv 0%R W pk') (total_list pk').
Proof.
  intros HW Hs Hr. pose proof (total_sum W wl _ HW Hs Hr pk (inv_pgood _ _ Hi) (inv_range _ _ Hi)) as S.
  pose proof (total_sum W wl _ HW Hs Hr pk' (inv_pgood _ _ Hi') (inv_range _ _ Hi')) as S'.
  apply (sums_to_unique (term_ok pk') (tv 0%R W pk')); [|exact S'].
  apply (sums_to_ext (term_ok pk) (term_ok pk') (tv 0%R W pk)); [| |exact S].
  - intros [[a e] t]. unfold term_ok, sites_total, pk_size, shift_ok. rewrite same_k, Hparts, Hbox.
    destruct (pk_ng pk), (pk_ng pk'); tauto.
  - intros [[a e] t] _. unfold tv, rawv, spos, srot, bc_of. rewrite same_k, Hparts. destruct (pk_ng pk), (pk_ng pk'); tauto.
Qed.
Lemma same_tot : tot pk inter = tot pk' inter.
Proof.
  apply INR_eq. rewrite !INR_tot.
  apply (same_sum _ _ (wgt_follows inter ov en HL) (wov_sym inter ov en HL) (wov_range inter ov en HL)).
Qed.
Lemma same_walls ee : walls pk inter ee = walls pk' inter ee.
Proof. unfold walls. rewrite Hparts. apply esum_ext. intros p _. apply wallv_same; [apply same_k|exact Hbox|exact Hwall]. Qed.
Lemma same_count : exists m, countTotalOverlaps pk inter false = Some m /\ countTotalOverlaps pk' inter false = Some m /\
  m = tot pk inter + walls pk inter false.
Proof.
  destruct (count_total inter ov en HL pk false (inv_pgood _ _ Hi) (inv_range _ _ Hi)) as (a & E & A & _).
  destruct (count_total inter ov en HL pk' false (inv_pgood _ _ Hi') (inv_range _ _ Hi')) as (a' & E' & A' & _).
  specialize (A eq_refl). specialize (A' eq_refl). rewrite <- same_tot, <- same_walls in A'. subst a'. exists a. subst a. auto.
Qed.
Lemma same_energy : getTotalEnergy pk inter = getTotalEnergy pk' inter.
Proof.
  rewrite (energy_total inter ov en HL pk (inv_pgood _ _ Hi) (inv_range _ _ Hi)).
  rewrite (energy_total inter ov en HL pk' (inv_pgood _ _ Hi') (inv_range _ _ Hi')). f_equal. unfold etot. destruct (in_soft inter); auto.
  apply (same_sum _ _ (en_follows inter ov en HL) (en_sym inter ov en HL) (en_range inter ov en HL)).
Qed.
End Same.

(** *** Workers given by a list *)
Lemma pick {A B} (P : A -> B -> Prop) (dflt : B) (l : list A) : (forall x, In x l -> exists y, P x y) ->
  exists l', length l' = length l /\ forall k x, nth_error l k = Some x -> P x (nth k l' dflt).
Proof.
  induction l as [|x l IH]; intros H; [exists []; split; auto; intros [|k] y; discriminate|].
  destruct (H x (or_introl eq_refl)) as (y & Hy). destruct IH as (l' & E & Hl); [intros z Hz; apply H; right; auto|].
  exists (y :: l'). split; [simpl; congruence|]. intros [|k] z Ez; simpl in *; [injection Ez as <-; auto|auto].
Qed.
Lemma Forall2_len {A B} (P : A -> B -> Prop) l l' : Forall2 P l l' -> length l = length l'.
Proof. induction 1; simpl; auto. Qed.
Lemma Forall2_nth {A B} (P : A -> B -> Prop) l l' : Forall2 P l l' -> forall k x y, nth_error l k = Some x -> nth_error l' k = Some y -> P x y.
Proof. induction 1; intros [|k] a e E1 E2; try discriminate; simpl in *; [congruence|eauto]. Qed.

Lemma run_app inter s1 s2 st : run_workers inter (s1 ++ s2) st = (st' <- run_workers inter s1 st ;; run_workers inter s2 st').
Proof.
  revert st. induction s1 as [|k s1 IH]; intros st; simpl; auto. destruct (workers_step inter k st); simpl; auto.
Qed.
Lemma step_others inter k pk ws pk1 ws1 : workers_step inter k (pk, ws) = Some (pk1, ws1) ->
  exists w w1, nth_error ws k = Some w /\ worker_step inter pk w = Some (pk1, w1) /\ set_nth ws k w1 = Some ws1.
Proof.
  unfold workers_step. destruct (nth_error ws k) as [w|]; cbn [obind]; [|discriminate].
  destruct (match wk_pending w with None => _ | Some _ => _ end); [discriminate|].
  destruct (worker_step inter pk w) as [[p v]|] eqn:E; cbn [obind fst snd]; [|discriminate].
  destruct (set_nth ws k v) as [l|] eqn:E2; cbn [obind]; [|discriminate].
  intros H. apply (f_equal (fun o => match o with Some x => (fst x, snd x) | None => (pk, ws) end)) in H. cbn [fst snd] in H.
  apply pair_equal_spec in H. destruct H as [-> ->]. exists w, v. auto.
Qed.

Section Seq.
(** Any invariant which lets workers make steps lets them work one by one. *)
Variables (inter : interaction) (G : packing * list worker -> Prop).
Hypothesis Hstep : forall st k w, G st -> nth_error (snd st) k = Some w -> ~ finished w ->
  (wk_pending w = None -> busy (wk_thread w) (snd st) = false) -> exists st', workers_step inter k st = Some st' /\ G st'.
Definition idle_but (k : nat) (ws : list worker) : Prop := forall l w, nth_error ws l = Some w -> l <> k -> wk_pending w = None.
Lemma not_busy k ws w th : idle_but k ws -> nth_error ws k = Some w -> wk_pending w = None -> busy th ws = false.
Proof.
  intros H E Hp. unfold busy. destruct (existsb _ ws) eqn:Ex; auto. apply existsb_exists in Ex. destruct Ex as (v & Hv & Hb).
  apply In_nth_error in Hv. destruct Hv as (l & El).
  assert (wk_pending v = None) as E'. { destruct (Nat.eq_dec l k) as [->|Hl]; [congruence|exact (H l v El Hl)]. }
  rewrite E' in Hb. rewrite andb_false_r in Hb. discriminate.
Qed.
Lemma one_worker k : forall m st w, G st -> nth_error (snd st) k = Some w -> work w = m -> idle_but k (snd st) ->
  exists st' w', run_workers inter (repeat k m) st = Some st' /\ G st' /\ nth_error (snd st') k = Some w' /\ finished w' /\
    length (snd st') = length (snd st) /\ forall l, l <> k -> nth_error (snd st') l = nth_error (snd st) l.
Proof.
  induction m as [|m IH]; intros st w HG Ew Hm Hidle.
  - exists st, w. split; [reflexivity|]. split; [exact HG|]. split; [exact Ew|]. split; [exact (proj1 (work_0 w) Hm)|]. auto.
  - assert (Hf : ~ finished w) by (intros F; pose proof (proj2 (work_0 w) F); lia).
    destruct (Hstep st k w HG Ew Hf) as (st1 & E1 & G1); [intros Hp; exact (not_busy k _ w _ Hidle Ew Hp)|].
    destruct st as [pk ws], st1 as [pk1 ws1]. cbn [snd] in *.
    destruct (step_others inter k pk ws pk1 ws1 E1) as (w' & w1 & X1 & X2 & X3). rewrite Ew in X1. injection X1 as <-.
    pose proof (worker_step_work inter pk w pk1 w1 X2) as Hw.
    assert (Hget : forall l, nth_error ws1 l = if l =? k then Some w1 else nth_error ws l) by (intros l; exact (set_nth_get _ _ _ _ l X3)).
    destruct (IH (pk1, ws1) w1 G1) as (st' & w' & R & G' & F1 & F2 & F3 & F4).
    { cbn [snd]. rewrite Hget, Nat.eqb_refl. auto. }
    { lia. }
    { intros l v El Hl. cbn [snd] in El. rewrite Hget in El. destruct (Nat.eqb_spec l k); [contradiction|]. exact (Hidle l v El Hl). }
    exists st', w'. split; [cbn [repeat run_workers]; rewrite E1; exact R|]. split; [exact G'|]. split; [exact F1|]. split; [exact F2|].
    cbn [snd] in *. split; [rewrite F3; exact (set_nth_length _ _ _ _ X3)|].
    intros l Hl. rewrite F4 by auto. rewrite Hget. destruct (Nat.eqb_spec l k); [contradiction|auto].
Qed.
Lemma all_workers st : G st -> Forall (fun w => wk_pending w = None) (snd st) ->
  exists st', run_workers inter (one_by_one (snd st)) st = Some st' /\ G st' /\ length (snd st') = length (snd st) /\ Forall finished (snd st').
Proof.
  intros HG Hp. unfold one_by_one.
  assert (X : forall pre suf, snd st = pre ++ suf ->
    forall stm, G stm -> length (snd stm) = length (snd st) -> (forall l w, l < length pre -> nth_error (snd stm) l = Some w -> finished w) ->
    (forall l, length pre <= l -> nth_error (snd stm) l = nth_error (snd st) l) ->
    exists st', run_workers inter (flat_map (fun kw : nat * worker => repeat (fst kw) (2 * length (wk_todo (snd kw)))) (combine (seq (length pre) (length suf)) suf)) stm = Some st' /\
      G st' /\ length (snd st') = length (snd st) /\ Forall finished (snd st')).
  { intros pre suf. revert pre. induction suf as [|w suf IH]; intros pre Es stm Hm Hl Hfin Hrest.
    - exists stm. split; [reflexivity|]. split; [exact Hm|]. split; [exact Hl|]. apply Forall_forall. intros w Hw.
      apply In_nth_error in Hw. destruct Hw as (l & El). apply (Hfin l w); auto.
      assert (l < length (snd stm)) by (apply nth_error_Some; congruence). rewrite Hl, Es, app_length in H. simpl in H. lia.
    - cbn [length seq combine flat_map fst snd]. rewrite run_app.
      assert (Ew0 : nth_error (snd st) (length pre) = Some w) by (rewrite Es, nth_error_app2, Nat.sub_diag by lia; reflexivity).
      assert (Ew : nth_error (snd stm) (length pre) = Some w) by (rewrite Hrest by lia; auto).
      rewrite Forall_forall in Hp.
      assert (Hpw : wk_pending w = None) by (apply Hp; eapply nth_error_In; eauto).
      destruct (one_worker (length pre) (2 * length (wk_todo w)) stm w Hm Ew) as (st1 & w1 & R & G1 & F1 & F2 & F3 & F4).
      { unfold work. rewrite Hpw. lia. }
      { intros l v El Hlk. destruct (Nat.lt_ge_cases l (length pre)) as [H|H].
        - apply (Hfin l v); auto.
        - rewrite Hrest in El by lia. apply Hp. eapply nth_error_In; eauto. }
      rewrite R. cbn [obind].
      destruct (IH (pre ++ [w])) with (stm := st1) as (st' & R' & H').
      + rewrite <- app_assoc. exact Es.
      + exact G1.
      + congruence.
      + intros l v Hlt El. rewrite app_length in Hlt. simpl in Hlt. destruct (Nat.eq_dec l (length pre)) as [->|Hne].
        * rewrite F1 in El. injection El as <-. exact F2.
        * rewrite F4 in El by auto. apply (Hfin l v); auto. lia.
      + intros l Hle. rewrite app_length in Hle. simpl in Hle. rewrite F4 by lia. apply Hrest. lia.
      + rewrite app_length in R'. simpl in R'. rewrite Nat.add_1_r in R'. exists st'. split; [exact R'|exact H']. }
  apply (X [] (snd st) eq_refl st HG eq_refl); [simpl; lia|auto].
Qed.
End Seq.

Section Final.
Variables (inter : interaction) (ov : law bool) (en : law R).
Hypothesis HL : lawful inter ov en.
Hypothesis Hr : (in_rangeRadius inter <= in_totalRange inter)%R.
Hypothesis HC : centres_reach inter.
Variables (threads : nat) (pk0 : packing).
Hypothesis Hi : inv inter pk0.
Hypothesis Hth : length (pk_temps pk0) = threads.
Hypothesis Hrot : rotated_properly pk0.
Variables (div : axis -> nat) (origin : vec) (d : decomposition).
Hypothesis Hdiv : forall a, 1 <= div a.
Hypothesis Ho : in_box (pk_box pk0) origin.
Hypothesis Hd : decompose pk0 inter div origin = DdReady d.
Variables (cs : list (axis -> nat)) (ws0 : list worker).
Hypothesis Hleg : Forall2 (legal_worker threads d) cs ws0.
Hypothesis Hdiff : different_domains cs.

Lemma run_facts_inv :
  (exists pk ws, run_workers inter (one_by_one ws0) (pk0, ws0) = Some (pk, ws) /\ Forall finished ws) /\
  (forall s pk ws, run_workers inter s (pk0, ws0) = Some (pk, ws) ->
     base inter pk0 pk /\ rotated_properly pk /\
     (forall k w, nth_error ws k = Some w -> ~ finished w -> (wk_pending w = None -> busy (wk_thread w) ws = false) ->
        workers_step inter k (pk, ws) <> None) /\
     exists m, countTotalOverlaps pk inter false = Some m /\ (pk_counting pk = true -> getCachedNumberOfOverlaps pk = Some (Z.of_nat m))) /\
  (forall s1 s2 pk1 ws1 pk2 ws2, run_workers inter s1 (pk0, ws0) = Some (pk1, ws1) -> Forall finished ws1 ->
     run_workers inter s2 (pk0, ws0) = Some (pk2, ws2) -> Forall finished ws2 ->
     ws1 = ws2 /\ shapes_of pk1 = shapes_of pk2 /\ map wk_log ws1 = map wk_log ws2 /\
     countTotalOverlaps pk1 inter false = countTotalOverlaps pk2 inter false /\
     getTotalEnergy pk1 inter = getTotalEnergy pk2 inter /\
     (pk_counting pk0 = true -> getCachedNumberOfOverlaps pk1 = getCachedNumberOfOverlaps pk2)).
Proof.
  unfold decompose in Hd. destruct (pk_ng pk0) as [g0|] eqn:Eg; [|discriminate].
  pose proof (decomposition_spec pk0 inter div (cget (getCellDivisions g0)) origin (inv_well_placed _ _ Hi) Hr
     (run_legal inter pk0 g0 div origin Hi Eg Hdiv Ho)) as Sp. rewrite Hd in Sp. destruct Sp as (_ & Ediv & _).
  assert (Hlen : length cs = length ws0) by exact (Forall2_len _ _ _ Hleg).
  assert (Hex : forall c, In c cs -> exists al : activeDomain * list nat, getActiveDomainBounds d c = Some (fst al) /\ getParticlesInRegion d c = Some (snd al)).
  { intros c Hc. apply In_nth_error in Hc. destruct Hc as (k & Ek).
    destruct (nth_error ws0 k) as [w|] eqn:Ew; [|apply nth_error_None in Ew; assert (k < length cs) by (apply nth_error_Some; congruence); lia].
    destruct (Forall2_nth _ _ _ Hleg k c w Ek Ew) as (_ & _ & _ & ad & l & E1 & E2 & _). exists (ad, l). auto. }
  set (da := (ActiveDomain (pk_box pk0) (fun _ => None), []) : activeDomain * list nat).
  destruct (pick _ da cs Hex) as (als & Hals & Hal). set (n := length cs) in *.
  set (cc := fun k => nth k cs (fun _ => 0)).
  set (adk := fun k => fst (nth k als da)). set (Lk := fun k => snd (nth k als da)).
  assert (Hnth : forall k, k < n -> nth_error cs k = Some (cc k)) by (intros k Hk; apply nth_error_nth'; auto).
  assert (H1 : forall k, k < n -> valid_coords div (cc k)).
  { intros k Hk. destruct (nth_error ws0 k) as [w|] eqn:Ew; [|apply nth_error_None in Ew; lia].
    rewrite <- Ediv. apply (Forall2_nth _ _ _ Hleg k _ w (Hnth k Hk) Ew). }
  assert (H2 : forall k, k < n -> getActiveDomainBounds d (cc k) = Some (adk k)) by (intros k Hk; apply (Hal k _ (Hnth k Hk))).
  assert (H3 : forall k, k < n -> getParticlesInRegion d (cc k) = Some (Lk k)) by (intros k Hk; apply (Hal k _ (Hnth k Hk))).
  assert (H4 : forall k l, k < n -> l < n -> k <> l -> exists a, cc k a <> cc l a).
  { intros k l Hk Hl Hkl. exact (Hdiff k l _ _ (Hnth k Hk) (Hnth l Hl) Hkl). }
  assert (H5 : forall p, In p (pk_parts pk0) -> isometry (pt_rot p)).
  { intros p Hp. apply (Hrot (pt_shape p)). apply in_map. exact Hp. }
  assert (H6 : forall k w, nth_error ws0 k = Some w -> wk_thread w < length (pk_temps pk0) /\ wk_pending w = None /\
    forall pl, In pl (wk_todo w) -> legal_plan (wk_thread w) (adk k) (Lk k) pl).
  { intros k w Ew. assert (Hk : k < n) by (rewrite Hlen; apply nth_error_Some; congruence).
    destruct (Forall2_nth _ _ _ Hleg k _ w (Hnth k Hk) Ew) as (_ & A1 & A2 & ad & l & A3 & A4 & A5).
    rewrite (H2 k Hk) in A3. injection A3 as <-. rewrite (H3 k Hk) in A4. injection A4 as <-.
    split; [rewrite Hth; exact A1|]. split; [exact A2|exact A5]. }
  pose (G := ginv inter pk0 n adk Lk ws0).
  assert (G0 : G (pk0, ws0)).
  { exact (ginv_0 inter Hr pk0 g0 div origin d Hi Eg Hdiv Ho Hd n cc adk Lk H1 H2 H3 H4 H5 ws0 (eq_sym Hlen) H6). }
  assert (Gs : forall st k w, G st -> nth_error (snd st) k = Some w -> ~ finished w ->
     (wk_pending w = None -> busy (wk_thread w) (snd st) = false) -> exists st', workers_step inter k st = Some st' /\ G st').
  { exact (ginv_step inter ov en HL Hr HC pk0 g0 div origin d Hi Eg Hdiv Ho Hd n cc adk Lk H1 H2 H3 H4 H5 ws0 (eq_sym Hlen) H6). }
  assert (Gr : forall s st', run_workers inter s (pk0, ws0) = Some st' -> G st').
  { intros s st'. apply (ginv_run inter ov en HL Hr HC pk0 g0 div origin d Hi Eg Hdiv Ho Hd n cc adk Lk H1 H2 H3 H4 H5 ws0 (eq_sym Hlen) H6 s _ _ G0). }
  pose proof (schedules_agree inter ov en HL Hr HC pk0 g0 div origin d Hi Eg Hdiv Ho Hd n cc adk Lk H1 H2 H3 H4 H5 ws0 (eq_sym Hlen) H6) as HS.
  split; [|split].
  - destruct (all_workers inter G Gs (pk0, ws0) G0) as ([pk ws] & R & _ & _ & F); [|exists pk, ws; split; [exact R|exact F]].
    apply Forall_forall. intros w Hw. apply In_nth_error in Hw. destruct Hw as (k & Ek). apply (H6 k w Ek).
  - intros s pk ws R. pose proof (Gr s _ R) as Gst. split; [exact (proj1 (proj1 Gst))|]. split; [|split].
    + intros s0 Hs0. unfold shapes_of in Hs0. apply in_map_iff in Hs0. destruct Hs0 as (p & <- & Hp). apply In_nth_error in Hp. destruct Hp as (j & Ej).
      destruct Gst as ((_ & P1 & P2) & _). cbn [fst] in *.
      destruct (in_some_dec pk0 div d n cc adk Lk H1 H2 H3 H4 ws0 (eq_sym Hlen) H6 j) as [(l & Hl & Hin)|No].
      * destruct (P1 l j Hl Hin) as (p' & E' & Hres). rewrite Ej in E'. injection E' as <-. apply Hres.
      * rewrite (P2 j No) in Ej. apply H5. eapply nth_error_In; eauto.
    + intros k w Ew Hf Hb. destruct (Gs (pk, ws) k w Gst Ew Hf Hb) as (st' & -> & _). discriminate.
    + destruct Gst as (((Hi1 & Hng & _) & _) & _). cbn [fst] in *.
      destruct (same_count inter ov en HL pk pk Hi1 Hi1 eq_refl eq_refl eq_refl Hng Hng) as (m & E & _ & Em). exists m. split; [exact E|].
      intros C. unfold getCachedNumberOfOverlaps. rewrite C. rewrite (i_count _ _ Hi1 C), Em. reflexivity.
  - intros s1 s2 pk1 ws1 pk2 ws2 R1 F1 R2 F2. destruct (HS _ _ _ _ _ _ R1 F1 R2 F2) as [Ep ->].
    destruct (Gr s1 _ R1) as (((I1 & N1 & B1 & W1 & C1 & _) & _) & _). destruct (Gr s2 _ R2) as (((I2 & N2 & B2 & W2 & C2 & _) & _) & _).
    cbn [fst] in *. assert (Eb : pk_box pk1 = pk_box pk2) by congruence. assert (Ew : pk_wall pk1 = pk_wall pk2) by congruence.
    destruct (same_count inter ov en HL pk1 pk2 I1 I2 Ep Eb Ew N1 N2) as (m & E1 & E2 & Em).
    split; [reflexivity|]. split; [unfold shapes_of; rewrite Ep; reflexivity|]. split; [reflexivity|]. split; [congruence|].
    split; [exact (same_energy inter ov en HL pk1 pk2 I1 I2 Ep Eb N1 N2)|].
    intros C. unfold getCachedNumberOfOverlaps. rewrite C1, C2, C. rewrite (i_count _ _ I1), (i_count _ _ I2) by congruence.
    rewrite (same_tot inter ov en HL pk1 pk2 I1 I2 Ep Eb N1 N2), (same_walls inter pk1 pk2 I1 I2 Ep Eb Ew). reflexivity.
Qed.
End Final.

Section Reach.
Variables (inter : interaction) (ov : law bool) (en : law R).
Hypothesis HL : lawful inter ov en.
Hypothesis Hr : (in_rangeRadius inter <= in_totalRange inter)%R.
Hypothesis HC : centres_reach inter.
Variables (threads : nat) (shapes : list shape) (b : box) (os : list pack_op) (pk0 : packing).
Hypothesis HR : reachable threads shapes b inter os pk0.
Hypothesis Hrot : rotated_properly pk0.
Variables (div : axis -> nat) (origin : vec) (d : decomposition).
Hypothesis Hdiv : forall a, 1 <= div a.
Hypothesis Ho : in_box (pk_box pk0) origin.
Hypothesis Hd : decompose pk0 inter div origin = DdReady d.
Variables (cs : list (axis -> nat)) (ws0 : list worker).
Hypothesis Hleg : Forall2 (legal_worker threads d) cs ws0.
Hypothesis Hdiff : different_domains cs.

Lemma run_facts :
  (exists pk ws, run_workers inter (one_by_one ws0) (pk0, ws0) = Some (pk, ws) /\ Forall finished ws) /\
  (forall s pk ws, run_workers inter s (pk0, ws0) = Some (pk, ws) ->
     (forall k w, nth_error ws k = Some w -> ~ finished w -> (wk_pending w = None -> busy (wk_thread w) ws = false) ->
        workers_step inter k (pk, ws) <> None) /\
     exists m, countTotalOverlaps pk inter false = Some m /\ (pk_counting pk = true -> getCachedNumberOfOverlaps pk = Some (Z.of_nat m))) /\
  (forall s1 s2 pk1 ws1 pk2 ws2, run_workers inter s1 (pk0, ws0) = Some (pk1, ws1) -> Forall finished ws1 ->
     run_workers inter s2 (pk0, ws0) = Some (pk2, ws2) -> Forall finished ws2 ->
     shapes_of pk1 = shapes_of pk2 /\ map wk_log ws1 = map wk_log ws2 /\
     countTotalOverlaps pk1 inter false = countTotalOverlaps pk2 inter false /\
     getTotalEnergy pk1 inter = getTotalEnergy pk2 inter /\
     (pk_counting pk0 = true -> getCachedNumberOfOverlaps pk1 = getCachedNumberOfOverlaps pk2)).
Proof.
  destruct (reach_inv inter ov en HL _ _ _ _ _ HR) as (Hi & _ & Hth).
  destruct (run_facts_inv inter ov en HL Hr HC threads pk0 Hi Hth Hrot div origin d Hdiv Ho Hd cs ws0 Hleg Hdiff) as (A & B & C).
  split; [exact A|]. split.
  - intros s pk ws R. exact (proj2 (proj2 (B s pk ws R))).
  - intros s1 s2 pk1 ws1 pk2 ws2 R1 F1 R2 F2. exact (proj2 (C s1 s2 pk1 ws1 pk2 ws2 R1 F1 R2 F2)).
Qed.
End Reach.
