(** Moves made concurrently in active domains do not depend on the schedule. *)
From Coq Require Import Reals ZArith List Bool Lia Lra.
From Verif Require Import GeomModel BoxModel BoxSpec RFloorModel PbcModel PbcTotalModel PbcSpec NGModel NGSpec GeomProofs BoxProofs RFloorProofs PbcProofs NGListProofs NGProofs NGPairProofs.
From Verif Require Import PackModel PackSpec PackSumProofs PackCountProofs PackGridProofs PackTotalProofs PackProofs PackInvProofs PackContactProofs PackHistProofs PackFinalProofs.
From Verif Require Import DomModel DomSpec DomProofs DomDecProofs DomFinalProofs.
Import ListNotations.
Open Scope nat_scope.

(** Trying a move writes to the temporaries of its own thread only. *)
Lemma finish_temps pk inter th i p tmp dl pk1 e : finish_try pk inter th i p tmp dl = Some (pk1, e) ->
  forall t, t <> th -> nth_error (pk_temps pk1) t = nth_error (pk_temps pk) t.
Proof.
  intros H t Ht. unfold finish_try in H.
  destruct (set_nth (pk_temps pk) th (Temp i dl tmp)) as [t1|]; cbn [obind] in H; [|discriminate].
  destruct (calculateMoveOverlapEnergy _ _ _ _ _ _) as [od|]; cbn [obind] in H; [|discriminate].
  destruct (set_nth (pk_temps pk) th (Temp i (snd od) tmp)) as [t2|] eqn:E2; cbn [obind] in H; [|discriminate].
  assert (pk1 = set_temps pk t2) as ->.
  { destruct (fst od); try (apply (f_equal (option_map fst)) in H; simpl in H; congruence).
    destruct (calculateParticleEnergy _ _ _ _); cbn [obind] in H; [|discriminate].
    destruct (calculateParticleEnergy _ _ _ _); cbn [obind] in H; [|discriminate].
    apply (f_equal (option_map fst)) in H; simpl in H; congruence. }
  cbn [pk_temps set_temps]. rewrite (set_nth_get _ _ _ _ t E2). destruct (Nat.eqb_spec t th); [contradiction|auto].
Qed.
Lemma refuse_temps pk th i tm s pk1 e : refuse pk th i tm s = Some (pk1, e) ->
  forall t, t <> th -> nth_error (pk_temps pk1) t = nth_error (pk_temps pk) t.
Proof.
  intros H t Ht. unfold refuse in H. destruct (set_nth _ _ _) as [t2|] eqn:E2; cbn [obind] in H; [|discriminate].
  apply (f_equal (option_map fst)) in H. simpl in H. injection H as <-.
  cbn [pk_temps set_temps]. rewrite (set_nth_get _ _ _ _ t E2). destruct (Nat.eqb_spec t th); [contradiction|auto].
Qed.
Lemma try_temps inter o pk pk1 e th i : op_target o = Some (th, i) -> try_op inter o pk = Some (pk1, e) ->
  forall t, t <> th -> nth_error (pk_temps pk1) t = nth_error (pk_temps pk) t.
Proof.
  destruct o; try discriminate; intros Eo; injection Eo as -> ->; cbn [try_op];
    [unfold tryTranslation|unfold tryRotation|unfold tryMove];
    (destruct (negb _); [discriminate|]; destruct (nth_error (pk_parts pk) i) as [p|]; cbn [obind]; [|discriminate];
     destruct (nth_error (pk_temps pk) th) as [tm|]; cbn [obind]; [|discriminate]); cbv zeta.
  - destruct (match inside with Some _ => _ | None => _ end); [apply refuse_temps|apply finish_temps].
  - apply finish_temps.
  - destruct (match inside with Some _ => _ | None => _ end); [apply refuse_temps|apply finish_temps].
Qed.

Section Run.
Variables (inter : interaction) (ov : law bool) (en : law R).
Hypothesis HL : lawful inter ov en.
Hypothesis Hr : (in_rangeRadius inter <= in_totalRange inter)%R.
Hypothesis HC : centres_reach inter.
Variables (pk0 : packing) (g0 : grid) (div : axis -> nat) (origin : vec) (d : decomposition).
Notation ng := (cget (getCellDivisions g0)).
Notation b := (pk_box pk0).
Hypothesis Hi0 : inv inter pk0.
Hypothesis Hg0 : pk_ng pk0 = Some g0.
Hypothesis Hdiv : forall a, 1 <= div a.
Hypothesis Ho : in_box b origin.
Hypothesis Hd : makeDecomposition pk0 inter div ng origin = DdReady d.
(** Domains being worked on. *)
Variables (n : nat) (cc : nat -> axis -> nat) (adk : nat -> activeDomain) (Lk : nat -> list nat).
Hypothesis Hcc : forall k, k < n -> valid_coords div (cc k).
Hypothesis Had : forall k, k < n -> getActiveDomainBounds d (cc k) = Some (adk k).
Hypothesis HLk : forall k, k < n -> getParticlesInRegion d (cc k) = Some (Lk k).
Hypothesis Hne : forall k l, k < n -> l < n -> k <> l -> exists a, cc k a <> cc l a.
Hypothesis Hiso : forall p, In p (pk_parts pk0) -> isometry (pt_rot p).

Local Notation wp := (inv_well_placed inter pk0 Hi0).
Lemma run_legal : legal_decomposition pk0 inter div ng origin.
Proof.
  intros a. destruct (inv_divisions inter pk0 g0 Hi0 Hg0 a) as [H1 H2].
  assert (H0 : (0 <= vget (absoluteToRelative b origin) a < 1)%R) by apply (Ho a).
  split; [exact H0|]. split; [apply Hdiv|]. split; [exact H1|]. intros _. exact H2.
Qed.
Local Notation spec := (decomposition_spec pk0 inter div ng origin wp Hr run_legal).

Definition resident (k : nat) (p : particle) : Prop :=
  part_inv b (in_centres inter) p /\ isometry (pt_rot p) /\ isInside (adk k) (pt_pos p) = true.

Lemma listed k j : k < n -> In j (Lk k) <-> j < pk_size pk0 /\ isInside (adk k) (nth j (map pt_pos (pk_parts pk0)) vzero) = true.
Proof.
  intros Hk. pose proof spec as H. rewrite Hd in H. destruct H as (_ & _ & _ & cells & _ & _ & H).
  destruct (H (cc k) (Hcc k Hk)) as (ad & E1 & _ & _ & E2). rewrite (Had k Hk) in E1. injection E1 as <-.
  rewrite (HLk k Hk) in E2. injection E2 as ->. rewrite filter_In, in_seq. split; intros [A B]; split; auto; lia.
Qed.
Lemma listed_resident k j : k < n -> In j (Lk k) -> exists p, nth_error (pk_parts pk0) j = Some p /\ resident k p.
Proof.
  intros Hk H. apply (listed k j Hk) in H. destruct H as [Hj H]. unfold pk_size in Hj.
  destruct (nth_error (pk_parts pk0) j) as [p|] eqn:E; [|apply nth_error_None in E; lia].
  exists p. split; auto. split; [apply (inv_part inter pk0 j p Hi0 E)|]. split; [apply Hiso; eapply nth_error_In; eauto|].
  rewrite (nth_error_map_nth pt_pos _ _ p) in H; auto.
Qed.
Lemma resident_apart k l p q u v t : k < n -> l < n -> k <> l -> resident k p -> resident l q -> is_lattice_vector b t ->
  (2 * vnorm u <= in_totalRange inter - in_rangeRadius inter)%R -> (2 * vnorm v <= in_totalRange inter - in_rangeRadius inter)%R ->
  (in_rangeRadius inter < vnorm (vsub (vadd (vadd (pt_pos q) v) t) (vadd (pt_pos p) u)))%R.
Proof.
  intros Hk Hl Hkl (P1 & _ & P2) (Q1 & _ & Q2) Ht Hu Hv. destruct (Hne k l Hk Hl Hkl) as (a & Ha).
  eapply Rle_lt_trans; [apply (inv_divisions inter pk0 g0 Hi0 Hg0 a)|].
  apply (sites_apart pk0 inter div ng origin wp Hr run_legal d Hd (cc k) (cc l) (adk k) (adk l) (pt_pos p) (pt_pos q)); auto;
    [apply P1|apply Q1].
Qed.
Lemma range_pos : (0 < in_rangeRadius inter)%R. Proof. apply HL. Qed.
Lemma vnorm_0 : vnorm vzero = 0%R.
Proof. unfold vnorm. replace (vnorm2 vzero) with 0%R by (unfold vnorm2, vdot; simpl; ring). apply sqrt_0. Qed.
Lemma resident_unique k l p : k < n -> l < n -> resident k p -> resident l p -> k = l.
Proof.
  intros Hk Hl P Q. destruct (Nat.eq_dec k l) as [|Hkl]; auto. exfalso.
  assert (H : (2 * vnorm vzero <= in_totalRange inter - in_rangeRadius inter)%R) by (rewrite vnorm_0; lra).
  pose proof (resident_apart k l p p vzero vzero vzero Hk Hl Hkl P Q (lattice_0 _) H H) as A.
  replace (vsub _ _) with vzero in A by (apply vec_ext; simpl; ring). rewrite vnorm_0 in A. pose proof range_pos. lra.
Qed.
Lemma listed_unique k l j : k < n -> l < n -> In j (Lk k) -> In j (Lk l) -> k = l.
Proof.
  intros Hk Hl H1 H2. destruct (listed_resident k j Hk H1) as (p & E & P). destruct (listed_resident l j Hl H2) as (q & E' & Q).
  rewrite E in E'. injection E' as <-. exact (resident_unique k l p Hk Hl P Q).
Qed.

(** *** Sites of particles in different domains do not interact *)
Lemma site_near p c : part_inv b (in_centres inter) p -> isometry (pt_rot p) -> c < sites_of (length (in_centres inter)) ->
  exists u t, nth c (sitepos (length (in_centres inter)) p) vzero = vadd (vadd (pt_pos p) u) t /\ is_lattice_vector b t /\
    (2 * vnorm u <= in_totalRange inter - in_rangeRadius inter)%R.
Proof.
  intros (H1 & H2 & H3) Hm Hc. unfold sitepos. unfold sites_of in Hc. destruct (Nat.eqb_spec (length (in_centres inter)) 0) as [E|E].
  - assert (c = 0) as -> by lia. exists vzero, vzero. split; [apply vec_ext; simpl; ring|]. split; [apply lattice_0|].
    rewrite vnorm_0. lra.
  - rewrite H3. unfold absolute_centres. rewrite H2.
    destruct (nth_error (in_centres inter) c) as [x|] eqn:Ex; [|apply nth_error_None in Ex; lia].
    exists (mvec (pt_rot p) x).
    exists (correction b (vadd (pt_pos p) (mvec (pt_rot p) x))). split; [|split; [apply correction_lattice|]].
    + rewrite (nth_error_map_nth _ _ _ (mvec (pt_rot p) x)); [reflexivity|]. rewrite nth_error_map, Ex. reflexivity.
    + unfold vnorm. rewrite Hm. pose proof (HC x (nth_error_In _ _ Ex)) as H. unfold vnorm in H. lra.
Qed.

Section W.
Variable W : vec -> mat -> nat -> vec -> mat -> nat -> bcond -> R.
Variable wl : law R.
Hypothesis HW : follows W wl.
Hypothesis HWr : forall r1 c1 r2 c2 dd, (wl r1 c1 r2 c2 dd (vnorm2 dd) <> 0 -> vnorm dd <= in_rangeRadius inter)%R.
Notation K := (sites_of (length (in_centres inter))).
Notation sp := (sitepos (length (in_centres inter))).

Lemma lattice_neg t : is_lattice_vector b t -> is_lattice_vector b (vneg t).
Proof. intros (i & j & k & ->). exists (-i)%Z, (-j)%Z, (-k)%Z. unfold lattice_vector. rewrite !opp_IZR. apply vec_ext; simpl; ring. Qed.
Lemma apart_value k l p q c1 c2 t : k < n -> l < n -> k <> l -> resident k p -> resident l q -> c1 < K -> c2 < K ->
  is_lattice_vector b t -> W (nth c1 (sp p) vzero) (pt_rot p) c1 (nth c2 (sp q) vzero) (pt_rot q) c2 (hardcoded t) = 0%R.
Proof.
  intros Hk Hl Hkl P Q H1 H2 Ht. destruct (Req_dec (W (nth c1 (sp p) vzero) (pt_rot p) c1 (nth c2 (sp q) vzero) (pt_rot q) c2 (hardcoded t)) 0) as [E|E]; auto.
  exfalso. rewrite HW in E. cbn [bc_translation bc_distance2 hardcoded] in E.
  apply HWr in E.
  destruct (site_near p c1 (proj1 P) (proj1 (proj2 P)) H1) as (u & t1 & E1 & L1 & N1).
  destruct (site_near q c2 (proj1 Q) (proj1 (proj2 Q)) H2) as (v & t2 & E2 & L2 & N2).
  assert (LT : is_lattice_vector b (vadd (vadd t2 t) (vneg t1))).
  { apply lattice_add; [apply lattice_add; auto|apply lattice_neg; auto]. }
  pose proof (resident_apart k l p q u v _ Hk Hl Hkl P Q LT N1 N2) as A.
  rewrite E1, E2 in E.
  replace (vsub (vadd (vadd (vadd (pt_pos q) v) t2) t) (vadd (vadd (pt_pos p) u) t1))
     with (vsub (vadd (vadd (pt_pos q) v) (vadd (vadd t2 t) (vneg t1))) (vadd (pt_pos p) u)) in E by (apply vec_ext; simpl; ring). lra.
Qed.

(** Two packings which differ, as seen from the [k]-th domain, only by particles moved inside other domains. *)
Definition base (pk : packing) : Prop :=
  inv inter pk /\ pk_ng pk <> None /\ pk_box pk = b /\ pk_wall pk = pk_wall pk0 /\ pk_counting pk = pk_counting pk0 /\
  length (pk_parts pk) = length (pk_parts pk0) /\ length (pk_temps pk) = length (pk_temps pk0).
Definition agree (k : nat) (pk pk' : packing) : Prop :=
  forall j p p', nth_error (pk_parts pk) j = Some p -> nth_error (pk_parts pk') j = Some p' ->
    p = p' \/ exists l, l < n /\ l <> k /\ resident l p /\ resident l p'.

Lemma base_k pk : base pk -> pk_k pk = length (in_centres inter). Proof. intros H. apply (i_k inter pk). apply H. Qed.
Lemma base_bc pk t : base pk -> bc_of pk t = hardcoded t.
Proof. intros (_ & H & _). unfold bc_of. destruct (pk_ng pk); congruence. Qed.
Lemma base_shift pk t : base pk -> shift_ok pk t <-> is_lattice_vector b t.
Proof. intros (_ & H & E & _). unfold shift_ok. destruct (pk_ng pk); [|congruence]. rewrite E. tauto. Qed.
Lemma base_total pk : base pk -> sites_total pk = K * length (pk_parts pk0).
Proof. intros H. unfold sites_total, pk_size. rewrite (base_k pk H). destruct H as (_ & _ & _ & _ & _ & -> & _). auto. Qed.
Lemma base_ok pk i x : base pk -> part_ok pk i x <->
  let '(c, a, t) := x in c < K /\ a < K * length (pk_parts pk0) /\ a / K <> i /\ is_lattice_vector b t.
Proof.
  intros H. destruct x as [[c a] t]. unfold part_ok. rewrite (base_total pk H), (base_shift pk t H), (base_k pk H). tauto.
Qed.

Lemma part_local k pk pk' i c : k < n -> base pk -> base pk' -> agree k pk pk' -> resident k c ->
  Rsum (pv 0%R W pk i c) (part_list pk c) = Rsum (pv 0%R W pk' i c) (part_list pk' c).
Proof.
  intros Hk H H' HA Hc. pose proof (proj1 H) as Hi. pose proof (proj1 H') as Hi'.
  assert (E1 : pk_box pk = b) by apply H. assert (E2 : pk_box pk' = b) by apply H'.
  assert (G : part_good pk c) by (apply (part_inv_good inter); auto; rewrite E1; apply Hc).
  assert (G' : part_good pk' c) by (apply (part_inv_good inter); auto; rewrite E2; apply Hc).
  pose proof (part_sum W wl _ HW HWr pk i c (inv_pgood inter pk Hi) (inv_range inter pk Hi) G) as S.
  pose proof (part_sum W wl _ HW HWr pk' i c (inv_pgood inter pk' Hi') (inv_range inter pk' Hi') G') as S'.
  apply (sums_to_unique (part_ok pk' i) (pv 0%R W pk' i c)); [|exact S'].
  apply (sums_to_ext (part_ok pk i) (part_ok pk' i) (pv 0%R W pk i c)); [| |exact S].
  { intros x. rewrite (base_ok pk i x H), (base_ok pk' i x H'). tauto. }
  intros [[a e] t] Hx. pose proof (proj1 (base_ok pk i _ H) Hx) as (X1 & X2 & X3 & X4).
  unfold pv. rewrite (base_bc pk t H), (base_bc pk' t H'), (base_k pk H), (base_k pk' H').
  destruct (Nat.eqb_spec (e / K) i) as [Ei|_]; [contradiction|].
  assert (T : e < sites_total pk) by (rewrite (base_total pk H); auto).
  assert (T' : e < sites_total pk') by (rewrite (base_total pk' H'); auto).
  destruct (spos_nth pk e (inv_pgood inter pk Hi) T) as (p & P1 & P2 & ->).
  destruct (spos_nth pk' e (inv_pgood inter pk' Hi') T') as (p' & P1' & P2' & ->).
  rewrite (base_k pk H) in P1, P2. rewrite (base_k pk' H') in P1', P2'.
  apply nth_error_nth with (d := vzero) in P2. apply nth_error_nth with (d := vzero) in P2'. rewrite <- P2, <- P2'.
  assert (HK : e mod K < K) by (apply Nat.mod_upper_bound; pose proof (sites_of_pos (length (in_centres inter))); lia).
  destruct (HA _ p p' P1 P1') as [->|(l & Hl & Hlk & R & R')]; [reflexivity|].
  rewrite (apart_value k l c p); auto. rewrite (apart_value k l c p'); auto.
Qed.
End W.

Lemma base_refl : base pk0.
Proof. split; auto. split; [congruence|]. auto. Qed.

(** *** Energies and overlap counts seen from a domain *)
Lemma count_local k pk pk' i c : k < n -> base pk -> base pk' -> agree k pk pk' -> resident k c ->
  new_count inter pk i c = new_count inter pk' i c.
Proof.
  intros Hk H H' HA Hc. unfold new_count. f_equal.
  - apply INR_eq. rewrite !INR_part. apply (part_local (wgt inter) (wov ov) (wgt_follows inter ov en HL) (wov_range inter ov en HL) k); auto.
  - destruct H as (Hi & _ & B1 & W1 & _). destruct H' as (Hi' & _ & B2 & W2 & _). apply wallv_same; [|congruence|congruence].
    rewrite (i_k _ _ Hi), (i_k _ _ Hi'). auto.
Qed.
Lemma energy_local k pk pk' i c : k < n -> base pk -> base pk' -> agree k pk pk' -> resident k c ->
  epart inter pk i c = epart inter pk' i c.
Proof.
  intros Hk H H' HA Hc. unfold epart. destruct (in_soft inter); auto.
  apply (part_local (in_energy inter) en (en_follows inter ov en HL) (en_range inter ov en HL) k); auto.
Qed.
Lemma result_local k pk pk' i p c x x' : k < n -> base pk -> base pk' -> agree k pk pk' -> resident k p -> resident k c ->
  fst (move_result inter pk i p c x) = fst (move_result inter pk' i p c x').
Proof.
  intros Hk H H' HA Hp Hc. unfold move_result. rewrite !(energy_local k pk pk') by auto. rewrite !(count_local k pk pk') by auto.
  assert (E : pk_counting pk = pk_counting pk') by (destruct H as (_ & _ & _ & _ & -> & _), H' as (_ & _ & _ & _ & -> & _); auto).
  rewrite E. destruct (negb (in_hard inter)), (pk_counting pk'); reflexivity.
Qed.

(** *** Steps of a worker *)
Lemma candidate_resident k th pl p : k < n -> legal_plan th (adk k) (Lk k) pl -> resident k p ->
  let o := pl_op pl (pt_shape p) in
  op_target o = Some (th, pl_i pl) /\ (op_outside b o p = false -> resident k (candidate b o p)).
Proof.
  intros Hk (_ & _ & Hpl) (P1 & P2 & P3) o. specialize (Hpl (pt_shape p) P2). fold o in Hpl.
  pose proof (candidate_inv inter b o p (i_box _ _ Hi0) P1) as Hc.
  assert (Hm : forall r, isometry r -> isometry (mmul r (pt_rot p))).
  { intros r H v. rewrite mvec_mmul, H. apply P2. }
  destruct o as [th' i' t inside a|th' i' r a|th' i' t r inside a| | | |] eqn:Eo; try contradiction.
  - destruct Hpl as (-> & -> & ->). split; [reflexivity|]. intros Hout. split; [exact Hc|]. split; [exact P2|].
    cbn [op_outside] in Hout. apply negb_false_iff in Hout. exact Hout.
  - destruct Hpl as (-> & -> & Hr'). split; [reflexivity|]. intros _. split; [exact Hc|]. split; [apply Hm; auto|exact P3].
  - destruct Hpl as (-> & -> & -> & Hr'). split; [reflexivity|]. intros Hout. split; [exact Hc|]. split; [apply Hm; auto|].
    cbn [op_outside] in Hout. apply negb_false_iff in Hout. exact Hout.
Qed.

(** A move tried and not yet decided about is kept, consistent with the packing, by the thread. *)
Definition pend (pk : packing) (k : nat) (w : worker) (c : particle) : Prop :=
  match wk_pending w with
  | None => True
  | Some (pl, e) => In (pl_i pl) (Lk k) /\
    (pl_accept pl e = true -> exists p delta, nth_error (pk_parts pk) (pl_i pl) = Some p /\ resident k p /\ resident k c /\
       nth_error (pk_temps pk) (wk_thread w) = Some (Temp (pl_i pl) delta c) /\
       (pk_counting pk = true -> delta = (Z.of_nat (new_count inter pk (pl_i pl) c) - Z.of_nat (new_count inter pk (pl_i pl) p))%Z))
  end.
Lemma pend_move k pk pk' w c : k < n -> base pk -> base pk' -> agree k pk pk' ->
  (forall j, In j (Lk k) -> nth_error (pk_parts pk') j = nth_error (pk_parts pk) j) ->
  (wk_pending w <> None -> nth_error (pk_temps pk') (wk_thread w) = nth_error (pk_temps pk) (wk_thread w)) ->
  pend pk k w c -> pend pk' k w c.
Proof.
  intros Hk H H' HA Hj Ht. unfold pend. destruct (wk_pending w) as [[pl e]|]; auto. intros (Hin & Hp). split; auto.
  intros Ha. destruct (Hp Ha) as (p & delta & P1 & P2 & P3 & P4 & P5). exists p, delta. rewrite Hj by auto.
  split; auto. split; auto. split; auto. rewrite Ht by congruence. split; auto.
  rewrite <- !(count_local k pk pk') by auto. intros C. apply P5. rewrite <- C.
  destruct H as (_ & _ & _ & _ & -> & _), H' as (_ & _ & _ & _ & -> & _); auto.
Qed.

Lemma try_step pk k w pl todo p : k < n -> base pk -> wk_pending w = None -> wk_todo w = pl :: todo ->
  legal_plan (wk_thread w) (adk k) (Lk k) pl -> wk_thread w < length (pk_temps pk0) ->
  nth_error (pk_parts pk) (pl_i pl) = Some p -> resident k p ->
  exists pk1 e tm, worker_step inter pk w = Some (pk1, Worker (wk_thread w) todo (Some (pl, e)) (e :: wk_log w)) /\
    base pk1 /\ pk_parts pk1 = pk_parts pk /\ (forall t, t <> wk_thread w -> nth_error (pk_temps pk1) t = nth_error (pk_temps pk) t) /\
    e = (if op_outside b (pl_op pl (pt_shape p)) p then PosInf
         else fst (move_result inter pk (pl_i pl) p (candidate b (pl_op pl (pt_shape p)) p) (tm_delta tm))) /\
    pend pk1 k (Worker (wk_thread w) todo (Some (pl, e)) (e :: wk_log w)) (candidate b (pl_op pl (pt_shape p)) p).
Proof.
  intros Hk H Hn Et Hpl Hth Ep Rp. pose proof (proj1 H) as Hi. assert (Eb : pk_box pk = b) by apply H.
  assert (El : length (pk_temps pk) = length (pk_temps pk0)) by apply H.
  destruct (candidate_resident k _ pl p Hk Hpl Rp) as [Ho1 Ho2]. set (o := pl_op pl (pt_shape p)) in *.
  destruct (nth_error (pk_temps pk) (wk_thread w)) as [tm|] eqn:Etm; [|apply nth_error_None in Etm; lia].
  destruct (try_move_spec inter pk o _ _ p tm Hi Ho1 Ep Etm) as (temps & e & Etry & Hi1 & Hlen & He). rewrite Eb in He.
  exists (set_temps pk temps), e, tm.
  assert (Hb : base (set_temps pk temps)).
  { destruct H as (_ & B1 & B2 & B3 & B4 & B5 & B6). split; [exact Hi1|]. split; [exact B1|]. split; [exact B2|]. split; [exact B3|].
    split; [exact B4|]. split; [exact B5|]. simpl. congruence. }
  split. { unfold worker_step. rewrite Hn, Et, Ep. cbn [obind]. fold o. rewrite Etry. reflexivity. }
  split; [exact Hb|]. split; [reflexivity|].
  destruct (op_outside b o p) eqn:Eout.
  - subst e. split.
    { exact (try_temps inter o pk _ _ _ _ Ho1 Etry). }
    split; [reflexivity|]. unfold pend. cbn [wk_pending]. split; [apply Hpl|]. intros Ha. destruct Hpl as (_ & Hpl & _). congruence.
  - cbv zeta in He. destruct He as [-> Hset]. split.
    { intros t Ht'. cbn [pk_temps set_temps]. rewrite (set_nth_get _ _ _ _ t Hset). destruct (Nat.eqb_spec t (wk_thread w)); [contradiction|auto]. }
    split; [reflexivity|]. unfold pend. cbn [wk_pending wk_thread]. split; [apply Hpl|]. intros _.
    exists p, (snd (move_result inter pk (pl_i pl) p (candidate b o p) (tm_delta tm))). split; [exact Ep|]. split; [exact Rp|].
    split; [exact (Ho2 eq_refl)|]. split.
    { cbn [pk_temps set_temps]. rewrite (set_nth_get _ _ _ _ (wk_thread w) Hset), Nat.eqb_refl. reflexivity. }
    intros C. change (new_count inter (set_temps pk temps)) with (new_count inter pk).
    change (pk_counting (set_temps pk temps)) with (pk_counting pk) in C. unfold move_result. rewrite C.
    destruct (in_hard inter) eqn:Hh; [reflexivity|]. cbn [negb snd]. rewrite !(no_hard_part inter ov en HL pk _ _ Hh). simpl.
    pose proof (i_delta _ _ Hi Hh) as Hdl. rewrite Forall_forall in Hdl. apply Hdl. eapply nth_error_In; eauto.
Qed.

Lemma accept_step pk k w pl e c : k < n -> base pk -> wk_pending w = Some (pl, e) -> pend pk k w c ->
  exists pk1, worker_step inter pk w = Some (pk1, Worker (wk_thread w) (wk_todo w) None (wk_log w)) /\
    base pk1 /\ pk_temps pk1 = pk_temps pk /\
    (forall j, j <> pl_i pl -> nth_error (pk_parts pk1) j = nth_error (pk_parts pk) j) /\
    (nth_error (pk_parts pk1) (pl_i pl) = if pl_accept pl e then Some c else nth_error (pk_parts pk) (pl_i pl)) /\
    (pl_accept pl e = true -> resident k c).
Proof.
  intros Hk H Hp Hpend. unfold worker_step. rewrite Hp. unfold pend in Hpend. rewrite Hp in Hpend. destruct Hpend as [_ Hpend].
  destruct (pl_accept pl e) eqn:Ha; cbn [obind].
  2:{ exists pk. split; [reflexivity|]. split; [exact H|]. split; [reflexivity|]. split; [reflexivity|]. split; [reflexivity|]. discriminate. }
  destruct (Hpend eq_refl) as (p & delta & P1 & P2 & P3 & P4 & P5). pose proof (proj1 H) as Hi. assert (Eb : pk_box pk = b) by apply H.
  unfold acceptMove. rewrite P4. cbn [obind tm_last tm_part tm_delta]. rewrite P1. cbn [obind].
  destruct (replace_spec inter ov en HL pk true (pl_i pl) p c delta Hi P1) as (pk1 & E & Hrep & Hi1 & W1 & C1 & T1 & B1 & _);
    [rewrite Eb; apply P3|discriminate|exact P5|].
  rewrite E. cbn [obind]. exists pk1. split; [reflexivity|].
  destruct Hrep as (_ & _ & _ & Hng & _ & Hset). pose proof (set_nth_length _ _ _ _ Hset) as Hlen.
  split.
  { destruct H as (_ & A1 & A2 & A3 & A4 & A5 & A6). split; [exact Hi1|]. split; [tauto|]. split; [congruence|]. split; [congruence|].
    split; [congruence|]. split; [congruence|]. congruence. }
  split; [exact T1|]. split.
  { intros j Hj. rewrite (set_nth_get _ _ _ _ j Hset). destruct (Nat.eqb_spec j (pl_i pl)); [contradiction|auto]. }
  split; [rewrite (set_nth_get _ _ _ _ _ Hset), Nat.eqb_refl; reflexivity|]. auto.
Qed.

(** *** The whole run *)
Variable ws0 : list worker.
Hypothesis Hws : length ws0 = n.
Hypothesis Hleg : forall k w, nth_error ws0 k = Some w -> wk_thread w < length (pk_temps pk0) /\ wk_pending w = None /\
  forall pl, In pl (wk_todo w) -> legal_plan (wk_thread w) (adk k) (Lk k) pl.

(** The k-th worker alone. *)
Fixpoint solo (m : nat) (st : packing * worker) : option (packing * worker) :=
  match m with
  | 0 => Some st
  | S m' => st' <- solo m' st ;; worker_step inter (fst st') (snd st')
  end.

Definition worker_inv (k : nat) (w : worker) : Prop :=
  wk_thread w < length (pk_temps pk0) /\ forall pl, In pl (wk_todo w) -> legal_plan (wk_thread w) (adk k) (Lk k) pl.
Definition placed (pk : packing) : Prop :=
  base pk /\ (forall k j, k < n -> In j (Lk k) -> exists p, nth_error (pk_parts pk) j = Some p /\ resident k p) /\
  (forall j, (forall k, k < n -> ~ In j (Lk k)) -> nth_error (pk_parts pk) j = nth_error (pk_parts pk0) j).
Definition alone (k : nat) (w : worker) (pk : packing) (pkk : packing) : Prop :=
  placed pkk /\ (forall j, In j (Lk k) -> nth_error (pk_parts pkk) j = nth_error (pk_parts pk) j) /\
  (forall j, ~ In j (Lk k) -> nth_error (pk_parts pkk) j = nth_error (pk_parts pk0) j) /\
  exists c, pend pk k w c /\ pend pkk k w c.
Definition ginv (st : packing * list worker) : Prop :=
  placed (fst st) /\ length (snd st) = n /\
  forall k w, nth_error (snd st) k = Some w -> worker_inv k w /\
    exists w0 m pkk, nth_error ws0 k = Some w0 /\ wk_thread w = wk_thread w0 /\ solo m (pk0, w0) = Some (pkk, w) /\ alone k w (fst st) pkk.

Lemma in_some_dec j : (exists l, l < n /\ In j (Lk l)) \/ forall l, l < n -> ~ In j (Lk l).
Proof.
  assert (H : forall m, (exists l, l < m /\ In j (Lk l)) \/ forall l, l < m -> ~ In j (Lk l)).
  { induction m as [|m [(l & H1 & H2)|H]]; [right; lia|left; exists l; auto|].
    destruct (in_dec Nat.eq_dec j (Lk m)) as [H1|H1]; [left; exists m; auto|].
    right. intros l Hl. destruct (Nat.eq_dec l m) as [->|]; [auto|apply H; lia]. }
  apply H.
Qed.
Lemma placed_agree k pk pk' : k < n -> placed pk -> placed pk' ->
  (forall j, In j (Lk k) -> nth_error (pk_parts pk') j = nth_error (pk_parts pk) j) -> agree k pk pk'.
Proof.
  intros Hk (_ & A1 & A2) (_ & B1 & B2) Hj j p p' P P'.
  destruct (in_some_dec j) as [(l & Hl & Hin)|Hno].
  - destruct (Nat.eq_dec l k) as [->|Hlk]; [left; rewrite (Hj j Hin) in P'; congruence|].
    right. exists l. destruct (A1 l j Hl Hin) as (q & Eq & Rq). destruct (B1 l j Hl Hin) as (q' & Eq' & Rq').
    split; auto. split; auto. split; congruence.
  - left. rewrite (A2 j Hno) in P. rewrite (B2 j Hno) in P'. congruence.
Qed.
Lemma placed_0 : placed pk0.
Proof. split; [apply base_refl|]. split; [intros k j Hk Hj; exact (listed_resident k j Hk Hj)|auto]. Qed.
Lemma ginv_0 : ginv (pk0, ws0).
Proof.
  split; [apply placed_0|]. split; [exact Hws|]. intros k w E. cbn [fst snd] in *. destruct (Hleg k w E) as (H1 & H2 & H3).
  split; [split; auto|]. exists w, 0, pk0. split; [exact E|]. split; [reflexivity|]. split; [reflexivity|].
  split; [apply placed_0|]. split; [auto|]. split; [auto|].
  assert (Hk : exists c : particle, True).
  { destruct (pk_parts pk0) as [|p l] eqn:Ep; [|exists p; auto]. pose proof (i_size _ _ Hi0) as Hs. unfold pk_size in Hs. rewrite Ep in Hs. simpl in Hs. lia. }
  destruct Hk as (c & _). exists c. unfold pend. rewrite H2. auto.
Qed.
(** A placed packing after a change of a particle of one domain. *)
Lemma placed_step pk pk1 k i c : k < n -> placed pk -> base pk1 -> In i (Lk k) ->
  (forall j, j <> i -> nth_error (pk_parts pk1) j = nth_error (pk_parts pk) j) ->
  (nth_error (pk_parts pk1) i = nth_error (pk_parts pk) i \/ (nth_error (pk_parts pk1) i = Some c /\ resident k c)) -> placed pk1.
Proof.
  intros Hk (H0 & A1 & A2) Hb Hi Hj Hc. split; [exact Hb|]. split.
  - intros l j Hl Hin. destruct (Nat.eq_dec j i) as [->|Hji].
    + assert (l = k) as -> by exact (listed_unique l k i Hl Hk Hin Hi). destruct Hc as [->|[-> Hc]]; [apply A1; auto|eauto].
    + rewrite Hj by auto. apply A1; auto.
  - intros j Hno. rewrite Hj; [apply A2; auto|]. intros ->. exact (Hno k Hk Hi).
Qed.

(** The same step in the packing shared by all workers and in the one of the worker alone. *)
Lemma step_both k w pk pkk : k < n -> placed pk -> worker_inv k w -> alone k w pk pkk -> ~ finished w ->
  exists pk1 pkk1 w1, worker_step inter pk w = Some (pk1, w1) /\ worker_step inter pkk w = Some (pkk1, w1) /\
    placed pk1 /\ worker_inv k w1 /\ alone k w1 pk1 pkk1 /\ wk_thread w1 = wk_thread w /\
    (forall j, ~ In j (Lk k) -> nth_error (pk_parts pk1) j = nth_error (pk_parts pk) j) /\
    (forall t, t <> wk_thread w \/ wk_pending w <> None -> nth_error (pk_temps pk1) t = nth_error (pk_temps pk) t).
Proof.
  intros Hk Hpl Hw (Hpkk & HA & HB & c & Pc & Pc') Hfin.
  pose proof (proj1 Hpl) as Hb. pose proof (proj1 Hpkk) as Hbk. destruct Hw as [Hth Htodo].
  assert (Hagree : agree k pk pkk) by (apply placed_agree; auto).
  destruct (wk_pending w) as [[pl e]|] eqn:Ep.
  - destruct (accept_step pk k w pl e c Hk Hb Ep Pc) as (pk1 & E1 & B1 & T1 & J1 & I1 & R1).
    destruct (accept_step pkk k w pl e c Hk Hbk Ep Pc') as (pkk1 & E2 & B2 & T2 & J2 & I2 & R2).
    assert (Hin : In (pl_i pl) (Lk k)) by (unfold pend in Pc; rewrite Ep in Pc; apply Pc).
    exists pk1, pkk1, (Worker (wk_thread w) (wk_todo w) None (wk_log w)). split; [exact E1|]. split; [exact E2|].
    split. { apply (placed_step pk pk1 k (pl_i pl) c Hk Hpl B1 Hin J1). destruct (pl_accept pl e); [right|left]; auto. }
    split; [split; auto|]. split.
    { split. { apply (placed_step pkk pkk1 k (pl_i pl) c Hk Hpkk B2 Hin J2). destruct (pl_accept pl e); [right|left]; auto. }
      split. { intros j Hj. destruct (Nat.eq_dec j (pl_i pl)) as [->|Hji]; [rewrite I1, I2|rewrite J1, J2 by auto; auto].
               destruct (pl_accept pl e); auto. }
      split. { intros j Hj. rewrite J2; [auto|]. intros ->. auto. }
      exists c. split; exact I. }
    split; [reflexivity|]. split.
    { intros j Hj. apply J1. intros ->. auto. }
    intros t _. rewrite T1. reflexivity.
  - destruct (wk_todo w) as [|pl todo] eqn:Et; [destruct Hfin; split; auto|].
    assert (Hlp : legal_plan (wk_thread w) (adk k) (Lk k) pl) by (apply Htodo; left; auto).
    assert (Hin : In (pl_i pl) (Lk k)) by apply Hlp.
    destruct (proj1 (proj2 Hpl) k (pl_i pl) Hk Hin) as (p & Xp & Rp).
    assert (Xp' : nth_error (pk_parts pkk) (pl_i pl) = Some p) by (rewrite HA; auto).
    destruct (try_step pk k w pl todo p Hk Hb Ep Et Hlp Hth Xp Rp) as (pk1 & e & tm & E1 & B1 & P1 & T1 & He & D1).
    destruct (try_step pkk k w pl todo p Hk Hbk Ep Et Hlp Hth Xp' Rp) as (pkk1 & e' & tm' & E2 & B2 & P2 & T2 & He' & D2).
    assert (e' = e) as ->.
    { rewrite He, He'. destruct (op_outside b (pl_op pl (pt_shape p)) p) eqn:Eout; [reflexivity|].
      symmetry. apply (result_local k); auto. apply (candidate_resident k (wk_thread w) pl p); auto. }
    exists pk1, pkk1, (Worker (wk_thread w) todo (Some (pl, e)) (e :: wk_log w)). split; [exact E1|]. split; [exact E2|].
    split. { apply (placed_step pk pk1 k (pl_i pl) p Hk Hpl B1 Hin); [|left]; rewrite P1; auto. }
    split. { split; [exact Hth|]. intros pl' H'. apply Htodo. right. exact H'. }
    split.
    { split. { apply (placed_step pkk pkk1 k (pl_i pl) p Hk Hpkk B2 Hin); [|left]; rewrite P2; auto. }
      rewrite P1, P2. split; [exact HA|]. split; [exact HB|]. eexists. split; [exact D1|exact D2]. }
    split; [reflexivity|]. split; [intros; rewrite P1; auto|].
    intros t [Ht|Ht]; [apply T1; auto|congruence].
Qed.

Lemma busy_false th ws k w : busy th ws = false -> nth_error ws k = Some w -> wk_pending w <> None -> wk_thread w <> th.
Proof.
  unfold busy. intros H E Hp Ht. apply nth_error_In in E.
  assert (X : existsb (fun w => (wk_thread w =? th) && match wk_pending w with Some _ => true | None => false end) ws = true).
  { apply existsb_exists. exists w. split; auto. destruct (wk_pending w); [|congruence]. rewrite Ht, Nat.eqb_refl. reflexivity. }
  congruence.
Qed.

(** A worker which has something to do, and whose thread is not in the middle of a move in another domain, makes a step, and
    everything stays in order. *)
Lemma ginv_step st k w : ginv st -> nth_error (snd st) k = Some w -> ~ finished w ->
  (wk_pending w = None -> busy (wk_thread w) (snd st) = false) ->
  exists st', workers_step inter k st = Some st' /\ ginv st'.
Proof.
  destruct st as [pk ws]. intros (Hpl & Hlen & Hall) Ew Hf Hbusy. cbn [fst snd] in *.
  assert (Hk : k < n) by (rewrite <- Hlen; apply nth_error_Some; congruence).
  destruct (Hall k w Ew) as (Hw & w0 & m & pkk & E0 & Et0 & Es & Ha).
  destruct (step_both k w pk pkk Hk Hpl Hw Ha Hf) as (pk1 & pkk1 & w1 & S1 & S2 & Hp1 & Hw1 & Ha1 & Et1 & J1 & T1).
  destruct (set_nth_Some ws k w1) as (ws1 & Eset); [lia|].
  exists (pk1, ws1). split.
  { unfold workers_step. rewrite Ew. cbn [obind].
    replace (match wk_pending w with None => busy (wk_thread w) ws | Some _ => false end) with false
      by (destruct (wk_pending w); [reflexivity|rewrite Hbusy; auto]).
    rewrite S1. cbn [obind fst snd]. rewrite Eset. reflexivity. }
  split; [exact Hp1|]. split; [cbn [snd]; rewrite (set_nth_length _ _ _ _ Eset); auto|].
  intros l v Ev. cbn [fst snd] in *. rewrite (set_nth_get _ _ _ _ l Eset) in Ev. destruct (Nat.eqb_spec l k) as [->|Hlk].
  - injection Ev as <-. split; [exact Hw1|]. exists w0, (S m), pkk1. split; [exact E0|]. split; [congruence|]. split; [|exact Ha1].
    cbn [solo]. rewrite Es. cbn [obind fst snd]. exact S2.
  - destruct (Hall l v Ev) as (Hv & v0 & ml & pkl & F0 & Ft0 & Fs & (G1 & G2 & G3 & c & Gc & Gc')). split; [exact Hv|].
    exists v0, ml, pkl. split; [exact F0|]. split; [exact Ft0|]. split; [exact Fs|].
    assert (Hl : l < n) by (rewrite <- Hlen; apply nth_error_Some; congruence).
    assert (Hsame : forall j, In j (Lk l) -> nth_error (pk_parts pk1) j = nth_error (pk_parts pk) j).
    { intros j Hj. apply J1. intros Hj'. apply Hlk. exact (listed_unique l k j Hl Hk Hj Hj'). }
    split; [exact G1|]. split; [intros j Hj; rewrite Hsame by auto; auto|]. split; [exact G3|].
    exists c. split; [|exact Gc']. apply (pend_move l pk pk1 v c Hl (proj1 Hpl) (proj1 Hp1)); auto.
    + apply placed_agree; auto.
    + intros Hp. apply T1. destruct (wk_pending w) eqn:Ep; [right; discriminate|left].
      exact (busy_false _ ws l v (Hbusy eq_refl) Ev Hp).
Qed.
Lemma ginv_step_inv st k st' : ginv st -> workers_step inter k st = Some st' -> ginv st'.
Proof.
  destruct st as [pk ws]. intros H E. unfold workers_step in E.
  destruct (nth_error ws k) as [w|] eqn:Ew; cbn [obind] in E; [|discriminate].
  destruct (match wk_pending w with None => busy (wk_thread w) ws | Some _ => false end) eqn:Eb; [discriminate|].
  assert (Hf : ~ finished w).
  { intros [F1 F2]. unfold worker_step in E. rewrite F1, F2 in E. discriminate. }
  destruct (ginv_step (pk, ws) k w H Ew Hf) as (st2 & E2 & H2).
  { intros Hp. rewrite Hp in Eb. exact Eb. }
  unfold workers_step in E2. rewrite Ew in E2. cbn [obind] in E2. rewrite Eb in E2. rewrite E in E2. injection E2 as ->. exact H2.
Qed.
Lemma ginv_run sched : forall st st', ginv st -> run_workers inter sched st = Some st' -> ginv st'.
Proof.
  induction sched as [|k sched IH]; intros st st' H E; cbn [run_workers] in E; [injection E as <-; exact H|].
  destruct (workers_step inter k st) as [st1|] eqn:E1; cbn [obind] in E; [|discriminate].
  apply (IH st1 st'); auto. exact (ginv_step_inv st k st1 H E1).
Qed.

(** *** Solo runs are deterministic, and end *)
Lemma solo_end m m' st pk1 w1 pk2 w2 : solo m st = Some (pk1, w1) -> finished w1 -> solo m' st = Some (pk2, w2) -> m <= m' -> m' = m.
Proof.
  intros E (F1 & F2) E2 Hm. destruct (Nat.eq_dec m' m) as [|Hne']; auto. exfalso.
  assert (X : forall k, m + S k <= m' -> solo (m + S k) st = None).
  { induction k as [|k IH]; intros H.
    - rewrite Nat.add_1_r. cbn [solo]. rewrite E. cbn [obind fst snd]. unfold worker_step. rewrite F1, F2. reflexivity.
    - rewrite Nat.add_succ_r. cbn [solo]. rewrite IH by lia. reflexivity. }
  specialize (X (m' - S m)). replace (m + S (m' - S m)) with m' in X by lia. rewrite X in E2 by lia. discriminate.
Qed.
Lemma solo_unique m m' st pk1 w1 pk2 w2 : solo m st = Some (pk1, w1) -> finished w1 -> solo m' st = Some (pk2, w2) -> finished w2 ->
  (pk1, w1) = (pk2, w2).
Proof.
  intros E F E' F'. assert (m = m') as ->; [|congruence].
  destruct (Nat.le_gt_cases m m') as [H|H].
  - symmetry. exact (solo_end m m' st _ _ _ _ E F E' H).
  - apply (solo_end m' m st _ _ _ _ E' F' E). lia.
Qed.
Lemma nth_error_ext' {A} (l l' : list A) : (forall j, nth_error l j = nth_error l' j) -> l = l'.
Proof.
  revert l'. induction l as [|x l IH]; intros [|y l'] H; auto.
  - specialize (H 0). discriminate.
  - specialize (H 0). discriminate.
  - f_equal; [specialize (H 0); injection H; auto|]. apply IH. intros j. exact (H (S j)).
Qed.

Lemma schedules_agree s1 s2 pk1 ws1 pk2 ws2 :
  run_workers inter s1 (pk0, ws0) = Some (pk1, ws1) -> Forall finished ws1 ->
  run_workers inter s2 (pk0, ws0) = Some (pk2, ws2) -> Forall finished ws2 ->
  pk_parts pk1 = pk_parts pk2 /\ ws1 = ws2.
Proof.
  intros R1 F1 R2 F2. pose proof (ginv_run s1 _ _ ginv_0 R1) as (P1 & L1 & A1). pose proof (ginv_run s2 _ _ ginv_0 R2) as (P2 & L2 & A2).
  cbn [fst snd] in *.
  assert (X : forall k, k < n -> exists w, nth_error ws1 k = Some w /\ nth_error ws2 k = Some w /\
                forall j, In j (Lk k) -> nth_error (pk_parts pk1) j = nth_error (pk_parts pk2) j).
  { intros k Hk. destruct (nth_error ws1 k) as [w|] eqn:E1; [|apply nth_error_None in E1; lia].
    destruct (nth_error ws2 k) as [w'|] eqn:E2; [|apply nth_error_None in E2; lia].
    destruct (A1 k w E1) as (_ & w0 & m & pkk & Q1 & _ & Q2 & (_ & Q3 & _)).
    destruct (A2 k w' E2) as (_ & w0' & m' & pkk' & Q1' & _ & Q2' & (_ & Q3' & _)).
    rewrite Q1 in Q1'. injection Q1' as <-. rewrite Forall_forall in F1, F2.
    pose proof (solo_unique m m' _ _ _ _ _ Q2 (F1 w (nth_error_In _ _ E1)) Q2' (F2 w' (nth_error_In _ _ E2))) as E.
    apply pair_equal_spec in E. destruct E as [-> ->]. exists w'. split; auto. split; auto.
    intros j Hj. rewrite <- Q3, <- Q3' by auto. reflexivity. }
  split.
  - apply nth_error_ext'. intros j. destruct (in_some_dec j) as [(l & Hl & Hin)|Hno].
    + destruct (X l Hl) as (w & _ & _ & H). auto.
    + destruct P1 as (_ & _ & P1). destruct P2 as (_ & _ & P2). rewrite P1, P2 by auto. reflexivity.
  - apply nth_error_ext'. intros j. destruct (Nat.lt_ge_cases j n) as [Hj|Hj].
    + destruct (X j Hj) as (w & -> & -> & _). reflexivity.
    + transitivity (@None worker); [|symmetry]; apply nth_error_None; lia.
Qed.

End Run.

(** Steps which remain: a run can always be continued until all is done. *)
Definition work (w : worker) : nat := 2 * length (wk_todo w) + (match wk_pending w with Some _ => 1 | None => 0 end).
Lemma work_0 w : work w = 0 <-> finished w.
Proof.
  unfold work, finished. destruct (wk_todo w), (wk_pending w); simpl; split; try lia; try (intros [? ?]; congruence); auto.
Qed.
Lemma worker_step_work inter pk w pk1 w1 : worker_step inter pk w = Some (pk1, w1) -> work w1 + 1 = work w.
Proof.
  unfold worker_step, work. destruct (wk_pending w) as [[pl e]|].
  - destruct (if pl_accept pl e then _ else _); cbn [obind]; [|discriminate]. intros E. apply (f_equal (option_map snd)) in E.
    simpl in E. injection E as <-. simpl. lia.
  - destruct (wk_todo w) as [|pl todo]; [discriminate|]. destruct (nth_error _ _); cbn [obind]; [|discriminate].
    destruct (try_op _ _ _); cbn [obind]; [|discriminate]. intros E. apply (f_equal (option_map snd)) in E.
    simpl in E. injection E as <-. simpl. lia.
Qed.
