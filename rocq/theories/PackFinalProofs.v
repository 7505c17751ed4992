(** Proofs of the packing properties in the form of the specification. *)
From Coq Require Import Reals ZArith List Bool Lia Lra Permutation.
From Verif Require Import GeomModel BoxModel BoxSpec RFloorModel PbcModel PbcSpec PbcTotalModel NGModel NGSpec GeomProofs BoxProofs RFloorProofs PbcProofs NGListProofs NGGeomProofs NGProofs.
From Verif Require Import PackModel PackSpec ParModel PackSumProofs NGPairProofs PackGridProofs PackCountProofs PackTotalProofs PackProofs PackInvProofs PackHistProofs PackContactProofs ParProofs.
Import ListNotations.
Open Scope nat_scope.

Lemma Rsum_nonneg {A} (w : A -> R) l : (forall x, (0 <= w x)%R) -> (0 <= Rsum w l)%R.
Proof. intros H. induction l as [|x l IH]; simpl; [lra|]. specialize (H x). lra. Qed.
Lemma esum_member {A} (v : A -> nat) l x : In x l -> v x <= esum false v l.
Proof. induction l as [|y l IH]; simpl; [tauto|]. intros [->|H]; [lia|]. specialize (IH H). lia. Qed.

Section F.
Variables (inter : interaction) (ov : law bool) (en : law R).
Hypothesis HL : lawful inter ov en.
Notation inv := (inv inter).

Lemma part_le_total pk i p : inv pk -> nth_error (pk_parts pk) i = Some p ->
  new_count inter pk i p <= tot pk inter + walls pk inter false.
Proof.
  intros Hi Hp. pose proof (inv_pgood inter pk Hi) as Hg. pose proof (part_inv_good inter pk p Hi (inv_part inter pk i p Hi Hp)) as Gp.
  pose proof (total_sum (wgt inter) (wov ov) (in_rangeRadius inter) (wgt_follows inter ov en HL) (wov_sym inter ov en HL) (wov_range inter ov en HL)
    pk Hg (inv_range inter pk Hi)) as T.
  pose proof (involve_sum (wgt inter) (wov ov) (in_rangeRadius inter) (wgt_follows inter ov en HL) (wov_sym inter ov en HL) (wov_range inter ov en HL)
    pk pk i p Hg Hg (inv_range inter pk Hi) Gp (replaced_refl pk i p Hp)) as A.
  pose proof (sums_to_split _ _ _ _ _ T A) as (l & _ & _ & _ & E).
  assert (N : (0 <= Rsum (tv 0%R (wgt inter) pk) l)%R).
  { apply Rsum_nonneg. intros x. rewrite <- INR_tv. apply pos_INR. }
  rewrite <- E, <- INR_tot, <- INR_part in N.
  assert (part pk inter i p <= tot pk inter) by (apply INR_le; lra).
  assert (wallv pk inter false p <= walls pk inter false) by (apply esum_member; eapply nth_error_In; eauto).
  unfold new_count. lia.
Qed.

Lemma candidate_moves b o p thread i : valid_box b -> in_box b (pt_pos p) -> particle_move o thread i ->
  moves_to b o (pt_shape p) (pt_shape (candidate b o p)).
Proof.
  intros Hv Hp Ho.
  assert (M : forall t, in_box b (sh_pos (translated b t (pt_shape p))) /\
    is_lattice_vector b (vsub (sh_pos (translated b t (pt_shape p))) (vadd (sh_pos (pt_shape p)) t))).
  { intros t. split; [apply correction_in_box; auto|]. simpl.
    replace (vsub _ _) with (correction b (vadd (sh_pos (pt_shape p)) t)) by (apply vec_ext; simpl; ring). apply correction_lattice. }
  destruct o; try contradiction; simpl; auto; split; auto; apply M.
Qed.
Lemma outside_candidate b o p : op_outside b o p = true <-> outside_domain o (sh_pos (pt_shape (candidate b o p))).
Proof.
  unfold op_outside, outside_domain, pt_pos. destruct o as [? ? ? inside ?|? ? ? ?|? ? ? ? inside ?| | | |]; try (split; [discriminate|contradiction]);
    destruct inside; try (split; [discriminate|contradiction]); apply negb_true_iff.
Qed.

Lemma move_theorem pk o thread i s : inv pk -> particle_move o thread i -> nth_error (shapes_of pk) i = Some s ->
  thread < length (pk_temps pk) ->
  exists pk1 e s', try_op inter o pk = Some (pk1, e) /\ same_packing pk pk1 /\ moves_to (pk_box pk) o s s' /\
    (outside_domain o (sh_pos s') -> e = PosInf) /\
    (~ outside_domain o (sh_pos s') -> exists pk2 n0 n2 e0 e2, accept_op o pk1 = Some pk2 /\
       set_nth (shapes_of pk) i s' = Some (shapes_of pk2) /\ pk_box pk2 = pk_box pk /\ pk_wall pk2 = pk_wall pk /\
       pk_counting pk2 = pk_counting pk /\
       countTotalOverlaps pk inter false = Some n0 /\ countTotalOverlaps pk2 inter false = Some n2 /\
       getTotalEnergy pk inter = Some e0 /\ getTotalEnergy pk2 inter = Some e2 /\
       (pk_counting pk = true \/ n0 = 0 -> e = energy_change n0 n2 e0 e2 (pk_counting pk)) /\
       (e = Fin (e2 - e0) \/ e = PosInf \/ e = NegInf) /\
       (pk_counting pk = false -> e <> NegInf) /\
       (pk_counting pk = false -> e <> PosInf -> n2 <= n0)).
Proof.
  intros Hi Ho Hs Hth. pose proof (inv_pgood inter pk Hi) as Hg.
  assert (Ht : op_target o = Some (thread, i)) by (destruct o; try contradiction; destruct Ho; subst; reflexivity).
  unfold shapes_of in Hs. rewrite nth_error_map in Hs. destruct (nth_error (pk_parts pk) i) as [p|] eqn:Hp; [|discriminate].
  simpl in Hs. injection Hs as <-. destruct (nth_error (pk_temps pk) thread) as [tm|] eqn:Htm; [|apply nth_error_None in Htm; lia].
  destruct (try_move_spec inter pk o thread i p tm Hi Ht Hp Htm) as (temps & e & E & Hi1 & Hlt & He).
  exists (set_temps pk temps), e, (pt_shape (candidate (pk_box pk) o p)).
  split; [exact E|]. split; [unfold same_packing; simpl; auto 10|].
  split; [apply (candidate_moves _ _ _ thread i); auto; [apply Hi|apply (inv_part inter pk i p Hi Hp)]|].
  rewrite <- outside_candidate. destruct (op_outside (pk_box pk) o p); [split; [auto|congruence]|]. split; [discriminate|]. intros _.
  cbv zeta in He. destruct He as [-> Hset].
  destruct (accept_move_spec inter ov en HL pk o thread i p tm temps Hi Ht Hp Htm Hset Hi1) as (pk2 & Ea & Hrep & Hi2 & Hw & Hc & _ & Hb & Hcnt & Hen).
  pose proof (inv_pgood inter pk2 Hi2) as Hg2.
  destruct (count_total inter ov en HL pk false Hg (inv_range inter pk Hi)) as (n0 & En0 & N0 & _).
  destruct (count_total inter ov en HL pk2 false Hg2 (inv_range inter pk2 Hi2)) as (n2 & En2 & N2 & _).
  specialize (N0 eq_refl). specialize (N2 eq_refl). pose proof (part_le_total pk i p Hi Hp) as Hle.
  exists pk2, n0, n2, (etot inter pk), (etot inter pk2). split; [exact Ea|]. split.
  { destruct Hrep as (_ & _ & _ & _ & _ & Hset2). clear - Hset2. unfold shapes_of. revert Hset2. generalize (pk_parts pk), (pk_parts pk2).
    revert i. intros i l. revert i. induction l as [|x l IH]; intros [|i] l' H; simpl in *; try discriminate.
    - injection H as <-. reflexivity.
    - destruct (set_nth l i _) as [l2|] eqn:El; [|discriminate]. injection H as <-. rewrite (IH i l2 El). reflexivity. }
  split; [exact Hb|]. split; [exact Hw|]. split; [exact Hc|]. split; [exact En0|]. split; [exact En2|].
  split; [apply (energy_total inter ov en HL); auto; apply inv_range; auto|].
  split; [apply (energy_total inter ov en HL); auto; apply inv_range; auto|].
  set (c := candidate (pk_box pk) o p) in *. rewrite <- N0, <- N2 in *.
  assert (Hz : in_hard inter = false -> n0 = 0 /\ n2 = 0).
  { intros Hh. rewrite N0, N2, !(no_hard_tot inter ov en HL _ Hh). auto. }
  unfold move_result, energy_change. rewrite <- Hen. destruct (in_hard inter) eqn:Hh; cbn [negb].
  2: { destruct (Hz eq_refl) as [-> ->]. cbn [fst]. destruct (pk_counting pk); simpl; (split; [auto|split; [auto|split; [intros; discriminate|auto]]]). }
  destruct (pk_counting pk); cbn [fst].
  - split; [|split; [|split; discriminate]].
    + intros _. destruct (Z.ltb_spec (Z.of_nat (new_count inter pk i c) - Z.of_nat (new_count inter pk i p)) 0), (Nat.ltb_spec n2 n0); try lia; auto.
      destruct (Z.ltb_spec 0 (Z.of_nat (new_count inter pk i c) - Z.of_nat (new_count inter pk i p))), (Nat.ltb_spec n0 n2); try lia; auto.
    + destruct (_ <? 0)%Z; auto. destruct (0 <? _)%Z; auto.
  - split; [|split; [|split]].
    + intros [|Hn0]; [discriminate|]. destruct (Nat.ltb_spec 0 (new_count inter pk i c)), (Nat.ltb_spec 0 n2); try lia; auto.
    + destruct (0 <? _); auto.
    + intros _. destruct (0 <? _); discriminate.
    + intros _. destruct (Nat.ltb_spec 0 (new_count inter pk i c)); [congruence|]. intros _. lia.
Qed.

Lemma scaling_theorem pk newBox : inv pk -> constructed newBox ->
  exists pk1 e n0 n1 e0 e1, tryScaling newBox inter pk = Some (pk1, e) /\ pk_box pk1 = newBox /\
    shapes_of pk1 = map (fun s => Shape (relativeToAbsolute newBox (absoluteToRelative (pk_box pk) (sh_pos s))) (sh_rot s)) (shapes_of pk) /\
    pk_wall pk1 = pk_wall pk /\ pk_counting pk1 = pk_counting pk /\ same_packing pk (revertScaling pk1) /\
    countTotalOverlaps pk inter false = Some n0 /\ countTotalOverlaps pk1 inter false = Some n1 /\
    getTotalEnergy pk inter = Some e0 /\ getTotalEnergy pk1 inter = Some e1 /\
    (pk_counting pk = true \/ in_convex inter = false \/ isBoxUpscaled (pk_box pk) newBox = false ->
     e = energy_change n0 n1 e0 e1 (pk_counting pk)) /\
    (pk_counting pk = false -> in_convex inter = true -> isBoxUpscaled (pk_box pk) newBox = true -> e = Fin (e1 - e0)).
Proof.
  intros Hi Hb. apply constructed_valid in Hb.
  destruct (scaling_spec inter ov en HL newBox pk Hi Hb) as (pk1 & e & E & Hi1 & He & B & S & W & C & T & Hir & R1 & R2 & R3 & R4 & R5 & R6 & _).
  pose proof (inv_pgood inter pk Hi) as Hg. pose proof (inv_pgood inter pk1 Hi1) as Hg1.
  destruct (count_total inter ov en HL pk false Hg (inv_range inter pk Hi)) as (n0 & En0 & N0 & _).
  destruct (count_total inter ov en HL pk1 false Hg1 (inv_range inter pk1 Hi1)) as (n1 & En1 & N1 & _).
  specialize (N0 eq_refl). specialize (N1 eq_refl).
  exists pk1, e, n0, n1, (etot inter pk), (etot inter pk1). split; [exact E|]. split; [exact B|]. split; [exact S|]. split; [exact W|]. split; [exact C|].
  split.
  { unfold same_packing. rewrite R1, R2, R3, R4, R5, R6. repeat split; auto.
    - rewrite (i_k _ _ Hir), (i_k _ _ Hi). auto.
    - rewrite (i_range _ _ Hir), (i_range _ _ Hi). auto. }
  split; [exact En0|]. split; [exact En1|].
  split; [apply (energy_total inter ov en HL); auto; apply inv_range; auto|].
  split; [apply (energy_total inter ov en HL); auto; apply inv_range; auto|].
  assert (Hz : in_hard inter = false -> n0 = 0 /\ n1 = 0).
  { intros Hh. rewrite N0, N1, !(no_hard_tot inter ov en HL _ Hh). auto. }
  unfold scaling_result in He. rewrite <- N0, <- N1, B in He. unfold energy_change. destruct (in_hard inter) eqn:Hh; cbn [negb] in He.
  2: { destruct (Hz eq_refl) as [-> ->]. destruct (pk_counting pk); simpl; auto. }
  destruct (pk_counting pk); [split; [auto|discriminate]|].
  destruct (in_convex inter); cbn [andb] in He; [|split; [auto|intros; discriminate]].
  destruct (isBoxUpscaled (pk_box pk) newBox); cbn [andb] in He; split; auto; [intros [|[|]]|intros]; discriminate.
Qed.

(** Histories. *)
Lemma reach_inv threads shapes b os pk : reachable threads shapes b inter os pk -> inv pk /\ pk_size pk = length shapes /\ length (pk_temps pk) = threads.
Proof. intros H. exact (reachable_ok inter ov en HL threads shapes b os pk H). Qed.

Lemma cached_overlaps threads shapes b os pk : reachable threads shapes b inter os pk -> pk_counting pk = true ->
  exists n, countTotalOverlaps pk inter false = Some n /\ getCachedNumberOfOverlaps pk = Some (Z.of_nat n).
Proof.
  intros H C. destruct (reach_inv _ _ _ _ _ H) as (Hi & _). pose proof (inv_pgood inter pk Hi) as Hg.
  destruct (count_total inter ov en HL pk false Hg (inv_range inter pk Hi)) as (n & En & N & _). exists n. split; auto.
  unfold getCachedNumberOfOverlaps. rewrite C. f_equal. rewrite (i_count _ _ Hi C), (N eq_refl). auto.
Qed.
Lemma stay_in_box threads shapes b os pk : reachable threads shapes b inter os pk ->
  length (pk_parts pk) = length shapes /\
  forall p, In p (pk_parts pk) -> in_box (pk_box pk) (pt_pos p) /\
    length (pt_abs p) = length (in_centres inter) /\
    forall c q v, nth_error (pt_abs p) c = Some q -> nth_error (in_centres inter) c = Some v ->
      in_box (pk_box pk) q /\ is_lattice_vector (pk_box pk) (vsub q (vadd (pt_pos p) (mvec (pt_rot p) v))).
Proof.
  intros H. destruct (reach_inv _ _ _ _ _ H) as (Hi & Hs & _). split; [exact Hs|]. intros p Hp. apply In_nth_error in Hp. destruct Hp as (i & Hp).
  destruct (inv_part inter pk i p Hi Hp) as (H1 & H2 & H3). split; auto. rewrite H3, H2. unfold absolute_centres. rewrite !map_length. split; auto.
  intros c q v Hq Hv. rewrite map_map, nth_error_map, Hv in Hq. simpl in Hq. injection Hq as <-.
  split; [apply correction_in_box, Hi|].
  pose proof (correction_lattice (pk_box pk) (vadd (pt_pos p) (mvec (pt_rot p) v))) as Hl.
  revert Hl. generalize (correction (pk_box pk) (vadd (pt_pos p) (mvec (pt_rot p) v))). intros l Hl.
  replace (vsub _ _) with l; auto. apply vec_ext; simpl; ring.
Qed.

Lemma counts_contacts pk : inv pk -> (pk_ng pk = None -> one_image (pk_box pk) inter /\ trusted_distance (pk_box pk) ov) ->
  exists n w, countTotalOverlaps pk inter false = Some (n + w) /\ counts (overlapping ov (pk_box pk) inter (shapes_of pk)) n /\
    countWallOverlaps pk inter false = Some w.
Proof.
  intros Hi Hn. pose proof (inv_pgood inter pk Hi) as Hg. pose proof (inv_range inter pk Hi) as Hr.
  destruct (count_total inter ov en HL pk false Hg Hr) as (m & Em & M & _).
  exists (tot pk inter), (walls pk inter false). rewrite <- (M eq_refl). split; auto. split; [|apply walls_total].
  apply (counts_of_sums (valid_contact (pk_box pk) (length (shapes_of pk)) inter) (contact_value ov inter (shapes_of pk))).
  rewrite INR_tot. apply (contact_sum inter (wgt inter) (wov ov)).
  - apply (wgt_follows inter ov en HL).
  - apply (wov_range inter ov en HL).
  - auto.
  - intros E. destruct (Hn E) as [H1 H2]. split; auto. destruct H2 as [H2|H2]; [left; auto|right]. intros. unfold wov. rewrite (H2 r1 c1 r2 c2 d s s'). auto.
  - apply (total_sum (wgt inter) (wov ov) (in_rangeRadius inter)); auto.
    + apply (wgt_follows inter ov en HL).
    + apply (wov_sym inter ov en HL).
    + apply (wov_range inter ov en HL).
Qed.
Lemma energy_contacts pk : inv pk -> in_soft inter = true -> (pk_ng pk = None -> one_image (pk_box pk) inter /\ trusted_distance (pk_box pk) en) ->
  exists e, getTotalEnergy pk inter = Some e /\ total_energy en (pk_box pk) inter (shapes_of pk) e.
Proof.
  intros Hi Hs Hn. pose proof (inv_pgood inter pk Hi) as Hg. pose proof (inv_range inter pk Hi) as Hr.
  exists (etot inter pk). split; [apply (energy_total inter ov en HL); auto|]. unfold etot. rewrite Hs.
  apply (contact_sum inter (in_energy inter) en).
  - apply (en_follows inter ov en HL).
  - apply (en_range inter ov en HL).
  - auto.
  - intros E. destruct (Hn E) as [H1 H2]. split; auto.
  - apply (total_sum (in_energy inter) en (in_rangeRadius inter)); auto.
    + apply (en_follows inter ov en HL).
    + apply (en_sym inter ov en HL).
    + apply (en_range inter ov en HL).
Qed.
Lemma grid_or_not pk : inv pk -> one_image (pk_box pk) inter -> trusted_distance (pk_box pk) ov ->
  countTotalOverlaps (set_ng pk None) inter false = countTotalOverlaps pk inter false.
Proof.
  intros Hi H1 H2. pose proof (inv_pgood inter pk Hi) as Hg. pose proof (inv_range inter pk Hi) as Hr.
  destruct (counts_contacts pk Hi (fun _ => conj H1 H2)) as (n & w & E & Hc & Hw).
  assert (Hi' : inv (set_counting (set_ng pk None) false)) by (destruct Hi; constructor; try assumption; [exact I|cbn; intros; discriminate]).
  destruct (counts_contacts (set_counting (set_ng pk None) false) Hi' (fun _ => conj H1 H2)) as (n' & w' & E' & Hc' & Hw').
  pose proof (counts_unique _ _ _ Hc Hc') as <-.
  assert (Hg' : pgood (set_ng pk None)) by exact (inv_pgood inter (set_counting (set_ng pk None) false) Hi').
  destruct (count_total inter ov en HL (set_ng pk None) false Hg' Hr) as (m & Em & M & _).
  destruct (count_total inter ov en HL (set_counting (set_ng pk None) false) false Hg' Hr) as (m' & Em' & M' & _).
  rewrite Em' in E'. injection E' as E'. rewrite Em, E. f_equal.
  rewrite walls_total in Hw, Hw'. injection Hw as Hw. injection Hw' as Hw'. specialize (M' eq_refl). specialize (M eq_refl).
  change (tot (set_counting (set_ng pk None) false) inter) with (tot (set_ng pk None) inter) in M'.
  change (walls (set_counting (set_ng pk None) false) inter false) with (walls pk inter false) in *.
  change (walls (set_ng pk None) inter false) with (walls pk inter false) in *. lia.
Qed.
Lemma energy_grid_or_not pk : inv pk -> in_soft inter = true -> one_image (pk_box pk) inter -> trusted_distance (pk_box pk) en ->
  getTotalEnergy (set_ng pk None) inter = getTotalEnergy pk inter.
Proof.
  intros Hi Hs H1 H2. pose proof (inv_pgood inter pk Hi) as Hg. pose proof (inv_range inter pk Hi) as Hr.
  destruct (energy_contacts pk Hi Hs (fun _ => conj H1 H2)) as (e & E & He).
  assert (Hi' : inv (set_counting (set_ng pk None) false)) by (destruct Hi; constructor; try assumption; [exact I|cbn; intros; discriminate]).
  destruct (energy_contacts (set_counting (set_ng pk None) false) Hi' Hs (fun _ => conj H1 H2)) as (e' & E' & He').
  pose proof (sums_to_unique _ _ _ _ He He') as <-.
  assert (Hg' : pgood (set_ng pk None)) by exact (inv_pgood inter (set_counting (set_ng pk None) false) Hi').
  rewrite E, <- E'. rewrite (energy_total inter ov en HL (set_ng pk None) Hg' Hr).
  rewrite (energy_total inter ov en HL (set_counting (set_ng pk None) false) Hg' Hr). reflexivity.
Qed.
End F.

Lemma no_endless_run {A} ee (f : A -> option nat) (run : nat -> pstate A) : ~ (forall k, pstep A ee f (run k) (run (S k))).
Proof.
  intros H. assert (K : forall k, total_left A (run k) + k <= total_left A (run 0)).
  { induction k; [lia|]. pose proof (step_measure A ee f (fun _ => 0) _ _ (H k)). lia. }
  specialize (K (S (total_left A (run 0)))). lia.
Qed.

Section Reach.
Variables (inter : interaction) (ov : law bool) (en : law R).
Hypothesis HL : lawful inter ov en.

Lemma reach_counts threads shapes b os pk : reachable threads shapes b inter os pk ->
  (pk_ng pk <> None \/ one_image (pk_box pk) inter /\ trusted_distance (pk_box pk) ov) ->
  exists n w, countTotalOverlaps pk inter false = Some (n + w) /\ counts (overlapping ov (pk_box pk) inter (shapes_of pk)) n /\
    countWallOverlaps pk inter false = Some w.
Proof.
  intros H C. apply (counts_contacts inter ov en HL); [apply (reach_inv inter ov en HL _ _ _ _ _ H)|].
  intros E. destruct C as [C|C]; [contradiction|auto].
Qed.
Lemma reach_energy threads shapes b os pk : reachable threads shapes b inter os pk -> in_soft inter = true ->
  (pk_ng pk <> None \/ one_image (pk_box pk) inter /\ trusted_distance (pk_box pk) en) ->
  exists e, getTotalEnergy pk inter = Some e /\ total_energy en (pk_box pk) inter (shapes_of pk) e.
Proof.
  intros H S C. apply (energy_contacts inter ov en HL); [apply (reach_inv inter ov en HL _ _ _ _ _ H)|auto|].
  intros E. destruct C as [C|C]; [contradiction|auto].
Qed.
Lemma reach_same threads shapes b os pk : reachable threads shapes b inter os pk -> one_image (pk_box pk) inter ->
  (trusted_distance (pk_box pk) ov -> countTotalOverlaps (set_ng pk None) inter false = countTotalOverlaps pk inter false) /\
  (in_soft inter = true -> trusted_distance (pk_box pk) en -> getTotalEnergy (set_ng pk None) inter = getTotalEnergy pk inter).
Proof.
  intros H O. pose proof (proj1 (reach_inv inter ov en HL _ _ _ _ _ H)) as Hi. split; intros.
  - apply (grid_or_not inter ov en HL); auto.
  - apply (energy_grid_or_not inter ov en HL); auto.
Qed.
Lemma reach_early threads shapes b os pk : reachable threads shapes b inter os pk ->
  exists n full, countTotalOverlaps pk inter true = Some n /\ countTotalOverlaps pk inter false = Some full /\ (0 < n <-> 0 < full).
Proof.
  intros H. pose proof (proj1 (reach_inv inter ov en HL _ _ _ _ _ H)) as Hi. pose proof (inv_pgood inter pk Hi) as Hg.
  destruct (count_total inter ov en HL pk false Hg (inv_range inter pk Hi)) as (n0 & En0 & N0 & _).
  destruct (count_total inter ov en HL pk true Hg (inv_range inter pk Hi)) as (n & En & _ & N).
  exists n, n0. split; auto. split; auto. rewrite (N0 eq_refl). lia.
Qed.
Lemma reach_parallel threads shapes b os pk ee full : reachable threads shapes b inter os pk -> countTotalOverlaps pk inter false = Some full ->
  (exists n, parallelTotalOverlaps pk inter ee n) /\
  forall n, parallelTotalOverlaps pk inter ee n -> (ee = false -> n = full) /\ (0 < n <-> 0 < full).
Proof.
  intros H E. pose proof (proj1 (reach_inv inter ov en HL _ _ _ _ _ H)) as Hi. pose proof (inv_pgood inter pk Hi) as Hg.
  destruct (count_total inter ov en HL pk false Hg (inv_range inter pk Hi)) as (n0 & En0 & N0 & _). specialize (N0 eq_refl).
  rewrite E in En0. injection En0 as <-.
  split; [apply (parallel_total_some inter); auto|].
  intros n Hn. destruct (parallel_total inter ov en HL pk ee n Hg (inv_range inter pk Hi) Hn) as [P1 P2]. split; [intros X; rewrite (P1 X); auto|lia].
Qed.
Lemma reach_try threads shapes b os pk o thread i pk1 e : reachable threads shapes b inter os pk -> particle_move o thread i ->
  i < length shapes -> thread < threads -> try_op inter o pk = Some (pk1, e) -> same_packing pk pk1.
Proof.
  intros H Ho Hi Ht E. destruct (reach_inv inter ov en HL _ _ _ _ _ H) as (Hinv & Hs & Htt).
  destruct (nth_error (shapes_of pk) i) as [s|] eqn:Es.
  2: { apply nth_error_None in Es. unfold shapes_of in Es. rewrite map_length in Es. unfold pk_size in Hs. lia. }
  destruct (move_theorem inter ov en HL pk o thread i s Hinv Ho Es) as (pk1' & e' & s' & E' & S & _); [lia|]. rewrite E in E'.
  assert (pk1 = pk1') as -> by congruence. auto.
Qed.
Lemma reach_move threads shapes b os pk o thread i s : reachable threads shapes b inter os pk -> particle_move o thread i ->
  nth_error (shapes_of pk) i = Some s -> thread < threads ->
  exists pk1 e s', try_op inter o pk = Some (pk1, e) /\ moves_to (pk_box pk) o s s' /\
    (outside_domain o (sh_pos s') -> e = PosInf) /\
    (~ outside_domain o (sh_pos s') -> exists pk2 n0 n2 e0 e2, accept_op o pk1 = Some pk2 /\
       set_nth (shapes_of pk) i s' = Some (shapes_of pk2) /\ pk_box pk2 = pk_box pk /\ pk_wall pk2 = pk_wall pk /\
       pk_counting pk2 = pk_counting pk /\
       countTotalOverlaps pk inter false = Some n0 /\ countTotalOverlaps pk2 inter false = Some n2 /\
       getTotalEnergy pk inter = Some e0 /\ getTotalEnergy pk2 inter = Some e2 /\
       (pk_counting pk = true \/ n0 = 0 -> e = energy_change n0 n2 e0 e2 (pk_counting pk)) /\
       (e = Fin (e2 - e0) \/ e = PosInf \/ e = NegInf) /\
       (pk_counting pk = false -> e <> NegInf) /\
       (pk_counting pk = false -> e <> PosInf -> n2 <= n0)).
Proof.
  intros H Ho Hs Ht. destruct (reach_inv inter ov en HL _ _ _ _ _ H) as (Hinv & Hsz & Htt).
  destruct (move_theorem inter ov en HL pk o thread i s Hinv Ho Hs) as (pk1 & e & s' & E & S & R); [lia|]. exists pk1, e, s'. auto.
Qed.
Lemma reach_scaling threads shapes b os pk newBox : reachable threads shapes b inter os pk -> constructed newBox ->
  exists pk1 e n0 n1 e0 e1, tryScaling newBox inter pk = Some (pk1, e) /\ pk_box pk1 = newBox /\
    shapes_of pk1 = map (fun s => Shape (relativeToAbsolute newBox (absoluteToRelative (pk_box pk) (sh_pos s))) (sh_rot s)) (shapes_of pk) /\
    pk_wall pk1 = pk_wall pk /\ pk_counting pk1 = pk_counting pk /\
    countTotalOverlaps pk inter false = Some n0 /\ countTotalOverlaps pk1 inter false = Some n1 /\
    getTotalEnergy pk inter = Some e0 /\ getTotalEnergy pk1 inter = Some e1 /\
    (pk_counting pk = true \/ in_convex inter = false \/ isBoxUpscaled (pk_box pk) newBox = false ->
     e = energy_change n0 n1 e0 e1 (pk_counting pk)) /\
    (pk_counting pk = false -> in_convex inter = true -> isBoxUpscaled (pk_box pk) newBox = true -> e = Fin (e1 - e0)).
Proof.
  intros H Hb. destruct (reach_inv inter ov en HL _ _ _ _ _ H) as (Hinv & _).
  destruct (scaling_theorem inter ov en HL pk newBox Hinv Hb) as (pk1 & e & n0 & n1 & e0 & e1 & A1 & A2 & A3 & A4 & A5 & A6 & R).
  exists pk1, e, n0, n1, e0, e1. auto 10.
Qed.
Lemma reach_revert threads shapes b os pk newBox : reachable threads shapes b inter os pk -> constructed newBox ->
  exists pk1 e, tryScaling newBox inter pk = Some (pk1, e) /\ same_packing pk (revertScaling pk1).
Proof.
  intros H Hb. destruct (reach_inv inter ov en HL _ _ _ _ _ H) as (Hinv & _).
  destruct (scaling_theorem inter ov en HL pk newBox Hinv Hb) as (pk1 & e & n0 & n1 & e0 & e1 & A1 & A2 & A3 & A4 & A5 & A6 & R). eauto.
Qed.
Lemma reach_renormalize threads shapes b os pk thread : reachable threads shapes b inter os pk -> thread < threads ->
  exists pk' bad n0 n1, renormalizeOrientations thread inter false pk = Some (pk', length bad) /\
    pk_box pk' = pk_box pk /\ pk_wall pk' = pk_wall pk /\ pk_counting pk' = pk_counting pk /\ NoDup bad /\ (in_hard inter = false -> bad = []) /\
    length (shapes_of pk') = length (shapes_of pk) /\
    (forall i s, nth_error (shapes_of pk) i = Some s ->
       (~ In i bad -> nth_error (shapes_of pk') i = Some (Shape (sh_pos s) (fixRotationMatrix (sh_rot s)))) /\
       (In i bad -> nth_error (shapes_of pk') i = Some s)) /\
    countTotalOverlaps pk inter false = Some n0 /\ countTotalOverlaps pk' inter false = Some n1 /\ n1 <= n0.
Proof.
  intros H Hth. destruct (reach_inv inter ov en HL _ _ _ _ _ H) as (Hinv & Hs & Htt).
  destruct (renormalize_spec inter ov en HL thread false pk Hinv) as (pk' & bad & E & Hi' & B & W & C & L & S & _ & R); [lia|].
  destruct (R eq_refl) as (R1 & R2 & R3 & R4).
  destruct (count_total inter ov en HL pk false (inv_pgood inter pk Hinv) (inv_range inter pk Hinv)) as (n0 & En0 & N0 & _).
  destruct (count_total inter ov en HL pk' false (inv_pgood inter pk' Hi') (inv_range inter pk' Hi')) as (n1 & En1 & N1 & _).
  exists pk', bad, n0, n1. split; auto. split; auto. split; auto. split; auto. split; auto. split; auto.
  split; [unfold shapes_of; rewrite !map_length; exact S|]. split.
  - intros i s Hi. assert (Hin : In i (seq 0 (pk_size pk))).
    { apply in_seq. pose proof (proj1 (nth_error_Some (shapes_of pk) i) ltac:(congruence)). unfold shapes_of in *. rewrite map_length in *. unfold pk_size. lia. }
    destruct (R3 i s Hi) as [G1 G2]. split; [intros; apply G1; auto|intros; apply G2; auto].
  - split; auto. split; auto. rewrite (N0 eq_refl), (N1 eq_refl). auto.
Qed.
Lemma reach_renormalize_allowed threads shapes b os pk thread : reachable threads shapes b inter os pk -> thread < threads ->
  exists pk', renormalizeOrientations thread inter true pk = Some (pk', 0) /\ shapes_of pk' = shapes_of pk.
Proof.
  intros H Hth. destruct (reach_inv inter ov en HL _ _ _ _ _ H) as (Hinv & Hs & Htt).
  destruct (renormalize_spec inter ov en HL thread true pk Hinv) as (pk' & bad & E & Hi' & B & W & C & L & S & R & _); [lia|].
  destruct (R eq_refl) as (R1 & ->). eauto.
Qed.
End Reach.
