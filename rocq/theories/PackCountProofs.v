(** Overlap counts and energies computed by a packing, as sums over pairs of sites. *)
From Coq Require Import Reals ZArith List Bool Lia Lra Permutation.
From Verif Require Import GeomModel BoxModel BoxSpec RFloorModel PbcModel PbcSpec PbcTotalModel NGModel NGSpec GeomProofs BoxProofs RFloorProofs PbcProofs NGListProofs NGGeomProofs NGProofs.
From Verif Require Import PackModel PackSpec PackSumProofs NGPairProofs PackGridProofs.
Import ListNotations.
Open Scope nat_scope.

Notation dims_of pk := (sites_of (pk_k pk)).
Definition sites_total (pk : packing) : nat := sites_of (pk_k pk) * pk_size pk.
Definition spos (pk : packing) (a : nat) : vec := nth a (site_positions (pk_k pk) (pk_parts pk)) vzero.
Definition srot (pk : packing) (a : nat) : mat :=
  match nth_error (pk_parts pk) (a / sites_of (pk_k pk)) with Some p => pt_rot p | None => mid end.

Definition pgood (pk : packing) : Prop :=
  valid_box (pk_box pk) /\ Forall (fun p => length (sitepos (pk_k pk) p) = sites_of (pk_k pk)) (pk_parts pk) /\
  (forall p, In p (site_positions (pk_k pk) (pk_parts pk)) -> in_box (pk_box pk) p) /\
  match pk_ng pk with
  | None => True
  | Some g => grid_holds (pk_box pk) (pk_range pk) (site_positions (pk_k pk) (pk_parts pk)) g
  end.

Lemma pgood_length pk : pgood pk -> length (site_positions (pk_k pk) (pk_parts pk)) = sites_total pk.
Proof. intros (_ & Hl & _). apply length_site_positions; auto. Qed.
Lemma div_lt_total pk a : a < sites_total pk <-> a / dims_of pk < pk_size pk.
Proof.
  unfold sites_total. pose proof (sites_of_pos (pk_k pk)). split; intros Ha.
  - apply Nat.div_lt_upper_bound; lia.
  - pose proof (Nat.div_mod a (dims_of pk)). pose proof (Nat.mod_upper_bound a (dims_of pk)). nia.
Qed.
Lemma spos_nth pk a : pgood pk -> a < sites_total pk -> exists p,
  nth_error (pk_parts pk) (a / dims_of pk) = Some p /\
  nth_error (sitepos (pk_k pk) p) (a mod dims_of pk) = Some (spos pk a) /\ srot pk a = pt_rot p.
Proof.
  intros Hg Ha. pose proof (pgood_length pk Hg) as Hl. pose proof Hg as (_ & Hf & _).
  pose proof (nth_site_positions (pk_k pk) (pk_parts pk) a Hf) as E.
  rewrite (nth_error_nth' _ vzero) in E by lia.
  destruct (nth_error (pk_parts pk) (a / dims_of pk)) as [p|] eqn:Ep; simpl in E; [|discriminate].
  exists p. split; auto. split; auto. unfold srot. rewrite Ep; auto.
Qed.
Lemma spos_in_box pk a : pgood pk -> a < sites_total pk -> in_box (pk_box pk) (spos pk a).
Proof. intros Hg Ha. apply Hg. apply nth_In. rewrite pgood_length; auto. Qed.
Lemma sites_of_0 k : k = 0 -> sites_of k = 1.
Proof. intros ->. reflexivity. Qed.
Lemma sites_of_S k : k <> 0 -> sites_of k = k.
Proof. unfold sites_of. destruct (Nat.eqb_spec k 0); lia. Qed.

Lemma site_eq pk a : pgood pk -> a < sites_total pk ->
  site pk a = Some (a / dims_of pk, a mod dims_of pk, spos pk a, srot pk a).
Proof.
  intros Hg Ha. destruct (spos_nth pk a Hg Ha) as (p & Ep & Es & Er). unfold site, sitepos in *.
  destruct (Nat.eqb_spec (pk_k pk) 0) as [Hk|Hk].
  - rewrite (sites_of_0 _ Hk) in *. rewrite Nat.div_1_r in *. change (a mod 1) with 0 in *. rewrite Ep. simpl in *.
    injection Es as <-. rewrite Er. reflexivity.
  - rewrite (sites_of_S _ Hk) in *. rewrite Ep. simpl. rewrite Es. simpl. rewrite Er. reflexivity.
Qed.
Lemma particle_sites_enum k p : particle_sites k p = enumerate (sitepos k p).
Proof. unfold particle_sites, sitepos. destruct (Nat.eqb k 0); reflexivity. Qed.
Lemma enumerate_seq {A} (l : list A) d : enumerate l = map (fun c => (c, nth c l d)) (seq 0 (length l)).
Proof.
  unfold enumerate. apply (nth_ext _ _ (0, d) (0, d)).
  - rewrite combine_length, map_length, seq_length. lia.
  - intros n Hn. rewrite combine_length, seq_length, Nat.min_id in Hn. rewrite combine_nth by (rewrite seq_length; auto).
    rewrite (nth_indep _ _ ((fun c => (c, nth c l d)) 0)) by (rewrite map_length, seq_length; auto).
    rewrite (map_nth (fun c => (c, nth c l d))). rewrite seq_nth by auto. reflexivity.
Qed.

(** *** Terms *)
Definition bc_of (pk : packing) (t : vec) : bcond :=
  match pk_ng pk with Some _ => hardcoded t | None => periodic (pk_box pk) end.
Definition shift_ok (pk : packing) (t : vec) : Prop :=
  match pk_ng pk with Some _ => is_lattice_vector (pk_box pk) t | None => t = vzero end.
Definition rawv {T} (f : vec -> mat -> nat -> vec -> mat -> nat -> bcond -> T) (pk : packing) (x : nat * nat * vec) : T :=
  let '(a, b, t) := x in
  f (spos pk a) (srot pk a) (a mod dims_of pk) (spos pk b) (srot pk b) (b mod dims_of pk) (bc_of pk t).
Definition tv {T} (z : T) f (pk : packing) (x : nat * nat * vec) : T :=
  let '(a, b, _) := x in if a / dims_of pk =? b / dims_of pk then z else rawv f pk x.
Definition pv {T} (z : T) (f : vec -> mat -> nat -> vec -> mat -> nat -> bcond -> T) (pk : packing) (i : nat) (p : particle)
    (x : nat * nat * vec) : T :=
  let '(c, b, t) := x in
  if b / dims_of pk =? i then z
  else f (nth c (sitepos (pk_k pk) p) vzero) (pt_rot p) c (spos pk b) (srot pk b) (b mod dims_of pk) (bc_of pk t).

Definition expand (K i j : nat) : list (nat * nat * vec) :=
  flat_map (fun c1 => map (fun c2 => (i * K + c1, j * K + c2, vzero)) (seq 0 K)) (seq 0 K).
Fixpoint pairs_from (i m : nat) : list (nat * nat) :=
  match m with 0 => [] | S m' => map (fun j => (i, j)) (seq (S i) m') ++ pairs_from (S i) m' end.
Definition total_list (pk : packing) : list (nat * nat * vec) :=
  match pk_ng pk with
  | Some g => all_terms g
  | None => flat_map (fun ij => expand (dims_of pk) (fst ij) (snd ij)) (pairs_from 0 (pk_size pk))
  end.
Definition part_list (pk : packing) (p : particle) : list (nat * nat * vec) :=
  match pk_ng pk with
  | Some g => flat_map (fun c => map (fun bt => (c, fst bt, snd bt)) (view_pairs (views_near g (nth c (sitepos (pk_k pk) p) vzero))))
                       (seq 0 (dims_of pk))
  | None => flat_map (fun j => expand (dims_of pk) 0 j) (seq 0 (pk_size pk))
  end.
Definition term_ok (pk : packing) (x : nat * nat * vec) : Prop :=
  let '(a, b, t) := x in a < b < sites_total pk /\ a / dims_of pk <> b / dims_of pk /\ shift_ok pk t.
Definition part_ok (pk : packing) (i : nat) (x : nat * nat * vec) : Prop :=
  let '(c, b, t) := x in c < dims_of pk /\ b < sites_total pk /\ b / dims_of pk <> i /\ shift_ok pk t.

(** *** Membership *)
Lemma in_expand K i j a b t : In (a, b, t) (expand K i j) <->
  exists c1 c2, c1 < K /\ c2 < K /\ a = i * K + c1 /\ b = j * K + c2 /\ t = vzero.
Proof.
  unfold expand. rewrite in_flat_map. split.
  - intros (c1 & H1 & H). apply in_map_iff in H. destruct H as (c2 & E & H2). apply in_seq in H1, H2.
    apply pair_eq in E. destruct E as [E <-]. injection E as <- <-. exists c1, c2. repeat split; lia.
  - intros (c1 & c2 & H1 & H2 & -> & -> & ->). exists c1. split; [apply in_seq; lia|]. apply in_map_iff. exists c2.
    split; auto. apply in_seq; lia.
Qed.
Lemma NoDup_expand K i j : NoDup (expand K i j).
Proof.
  unfold expand. apply NoDup_flat_map; [apply seq_NoDup| |].
  - intros c _. apply NoDup_map_inj_on; [apply seq_NoDup|]. intros x y _ _ E. injection E. lia.
  - intros c c' [[a b] t] _ _ H H'. apply in_map_iff in H, H'. destruct H as (x & E & _), H' as (y & E' & _).
    apply pair_eq in E, E'. destruct E as [E _], E' as [E' _]. injection E. injection E'. lia.
Qed.
Lemma in_pairs_from i m a b : In (a, b) (pairs_from i m) <-> i <= a < b /\ b < i + m.
Proof.
  revert i. induction m as [|m IH]; intros i; simpl; [lia|]. rewrite in_app_iff, IH, in_map_iff. split.
  - intros [(j & E & H)|H]; [|lia]. injection E as <- <-. apply in_seq in H. lia.
  - intros H. destruct (Nat.eq_dec a i) as [->|]; [left|right; lia]. exists b. split; auto. apply in_seq. lia.
Qed.
Lemma NoDup_pairs_from i m : NoDup (pairs_from i m).
Proof.
  revert i. induction m as [|m IH]; intros i; simpl; [constructor|]. apply NoDup_app_intro; auto.
  - apply NoDup_map_inj_on; [apply seq_NoDup|]. congruence.
  - intros [a b] H H'. apply in_map_iff in H. destruct H as (j & E & _). injection E as <- <-. apply in_pairs_from in H'. lia.
Qed.
Lemma div_mul_add K i c : c < K -> (i * K + c) / K = i.
Proof. intros H. rewrite Nat.div_add_l by lia. rewrite Nat.div_small by auto. lia. Qed.
Lemma mod_mul_add K i c : c < K -> (i * K + c) mod K = c.
Proof. intros H. rewrite Nat.add_comm, Nat.mod_add by lia. apply Nat.mod_small; auto. Qed.
Lemma div_mod_split K a : 0 < K -> a = a / K * K + a mod K.
Proof. intros H. pose proof (Nat.div_mod a K). lia. Qed.
Lemma div_ne_lt K a b : 0 < K -> a < b -> a / K <> b / K -> a / K < b / K.
Proof. intros HK H Hn. pose proof (Nat.div_le_mono a b K). lia. Qed.
Lemma div_lt K a b : 0 < K -> a / K < b / K -> a < b.
Proof. intros HK H. destruct (Nat.lt_ge_cases a b) as [|Hg]; auto. pose proof (Nat.div_le_mono b a K). lia. Qed.

(** *** Values of the loops *)
Section Values.
Variables (pk : packing) (inter : interaction).
Hypothesis Hg : pgood pk.
Notation K := (sites_of (pk_k pk)).

Definition ovf p1 r1 c1 p2 r2 c2 bc : nat := b2n (in_overlap inter p1 r1 c1 p2 r2 c2 bc).

Lemma K_pos : 0 < K. Proof. apply sites_of_pos. Qed.
Lemma sitepos_nth i p c : nth_error (pk_parts pk) i = Some p -> c < K ->
  nth c (sitepos (pk_k pk) p) vzero = spos pk (i * K + c) /\ srot pk (i * K + c) = pt_rot p /\ i * K + c < sites_total pk.
Proof.
  intros Hi Hc.
  assert (Ha : i * K + c < sites_total pk).
  { apply div_lt_total. rewrite div_mul_add by auto. apply nth_error_Some. congruence. }
  destruct (spos_nth pk _ Hg Ha) as (p' & E1 & E2 & E3). rewrite div_mul_add in E1 by auto. rewrite mod_mul_add in E2 by auto.
  rewrite Hi in E1. injection E1 as <-. split; [|auto]. apply nth_error_nth; auto.
Qed.
Lemma sitepos_length i p : nth_error (pk_parts pk) i = Some p -> length (sitepos (pk_k pk) p) = K.
Proof. intros H. destruct Hg as (_ & Hf & _). rewrite Forall_forall in Hf. apply Hf. eapply nth_error_In; eauto. Qed.

Lemma pair_overlaps_value ee i j p q : i <> j -> nth_error (pk_parts pk) i = Some p -> nth_error (pk_parts pk) j = Some q ->
  pk_ng pk = None -> pair_overlaps pk inter ee p q = Some (esum ee (tv 0 ovf pk) (expand K i j)).
Proof.
  intros Hn Hi Hj Hng. unfold pair_overlaps, expand. rewrite !particle_sites_enum.
  rewrite (enumerate_seq (sitepos (pk_k pk) p) vzero), (enumerate_seq (sitepos (pk_k pk) q) vzero).
  rewrite (sitepos_length i p Hi), (sitepos_length j q Hj). rewrite <- esum_flat.
  rewrite (sum_exit_total ee _ (fun s1 => esum ee (fun s2 => ovf (snd s1) (pt_rot p) (fst s1) (snd s2) (pt_rot q) (fst s2) (periodic (pk_box pk)))
             (map (fun c => (c, nth c (sitepos (pk_k pk) q) vzero)) (seq 0 K)))).
  - rewrite esum_map. f_equal. apply esum_ext. intros c1 H1. rewrite !esum_map. apply esum_ext. intros c2 H2.
    apply in_seq in H1, H2. cbn [fst snd]. unfold tv, rawv. rewrite !div_mul_add, !mod_mul_add by lia.
    destruct (Nat.eqb_spec i j); [contradiction|].
    destruct (sitepos_nth i p c1 Hi) as (-> & -> & _); [lia|]. destruct (sitepos_nth j q c2 Hj) as (-> & -> & _); [lia|].
    unfold bc_of. rewrite Hng. reflexivity.
  - intros s1 _. apply sum_exit_total. reflexivity.
Qed.
Lemma pair_energy_value i j p q : i <> j -> nth_error (pk_parts pk) i = Some p -> nth_error (pk_parts pk) j = Some q ->
  pk_ng pk = None -> pair_energy pk inter p q = Some (Rsum (tv 0%R (in_energy inter) pk) (expand K i j)).
Proof.
  intros Hn Hi Hj Hng. unfold pair_energy, expand. rewrite !particle_sites_enum.
  rewrite (enumerate_seq (sitepos (pk_k pk) p) vzero), (enumerate_seq (sitepos (pk_k pk) q) vzero).
  rewrite (sitepos_length i p Hi), (sitepos_length j q Hj). rewrite Rsum_flat.
  rewrite (sum_energy_total _ (fun s1 => Rsum (fun s2 => in_energy inter (snd s1) (pt_rot p) (fst s1) (snd s2) (pt_rot q) (fst s2) (periodic (pk_box pk)))
             (map (fun c => (c, nth c (sitepos (pk_k pk) q) vzero)) (seq 0 K)))).
  - rewrite Rsum_map. f_equal. apply Rsum_ext. intros c1 H1. rewrite !Rsum_map. apply Rsum_ext. intros c2 H2.
    apply in_seq in H1, H2. cbn [fst snd]. unfold tv, rawv. rewrite !div_mul_add, !mod_mul_add by lia.
    destruct (Nat.eqb_spec i j); [contradiction|].
    destruct (sitepos_nth i p c1 Hi) as (-> & -> & _); [lia|]. destruct (sitepos_nth j q c2 Hj) as (-> & -> & _); [lia|].
    unfold bc_of. rewrite Hng. reflexivity.
  - intros s1 _. apply sum_energy_total. reflexivity.
Qed.

Lemma enum_suffix (l : list particle) i : (forall j, nth_error l j = nth_error (pk_parts pk) (i + j)) ->
  forall {T} (h : particle -> T) (h' : nat -> T), (forall j p, nth_error (pk_parts pk) j = Some p -> i <= j -> h p = h' j) ->
  map h l = map h' (seq i (length l)).
Proof.
  revert i. induction l as [|p l IH]; intros i H T h h' Hh; simpl; auto. f_equal.
  - apply Hh; auto. rewrite <- (Nat.add_0_r i), <- H. reflexivity.
  - apply IH; [|intros; apply Hh; auto; lia]. intros j. specialize (H (S j)). simpl in H. rewrite H. f_equal. lia.
Qed.
Lemma sum_exit_map {A B} ee (f : B -> option nat) (h : A -> B) l : sum_exit ee (fun x => f (h x)) l = sum_exit ee f (map h l).
Proof. induction l as [|x l IH]; simpl; auto. rewrite IH. reflexivity. Qed.
Lemma sum_energy_map {A B} (f : B -> option R) (h : A -> B) l : sum_energy (fun x => f (h x)) l = sum_energy f (map h l).
Proof. induction l as [|x l IH]; simpl; auto. rewrite IH. reflexivity. Qed.

Lemma all_pairs_value ee l i : pk_ng pk = None -> (forall j, nth_error l j = nth_error (pk_parts pk) (i + j)) ->
  all_pairs_overlaps pk inter ee l =
  Some (esum ee (tv 0 ovf pk) (flat_map (fun ij => expand K (fst ij) (snd ij)) (pairs_from i (length l)))).
Proof.
  intros Hng. revert i. induction l as [|p l IH]; intros i H; [reflexivity|].
  cbn [all_pairs_overlaps length pairs_from]. rewrite flat_map_app, esum_app.
  assert (Hl : forall j, nth_error l j = nth_error (pk_parts pk) (S i + j)).
  { intros j. specialize (H (S j)). simpl in H. rewrite H. f_equal. lia. }
  rewrite (IH (S i) Hl). pose proof (H 0) as Hp. rewrite Nat.add_0_r in Hp. simpl in Hp.
  assert (E : sum_exit ee (pair_overlaps pk inter ee p) l =
    Some (esum ee (tv 0 ovf pk) (flat_map (fun ij => expand K (fst ij) (snd ij)) (map (fun j => (i, j)) (seq (S i) (length l)))))).
  { rewrite (sum_exit_map ee (fun o => o) (pair_overlaps pk inter ee p)).
    rewrite (enum_suffix l (S i) Hl _ (fun j => Some (esum ee (tv 0 ovf pk) (expand K i j)))).
    - rewrite <- sum_exit_map. rewrite (sum_exit_total ee _ (fun j => esum ee (tv 0 ovf pk) (expand K i j))) by auto.
      rewrite <- esum_flat, esum_map. reflexivity.
    - intros j q Hj Hij. apply pair_overlaps_value; auto. lia. }
  rewrite E. apply then_exit_total.
Qed.
Lemma all_pairs_energy_value l i : pk_ng pk = None -> (forall j, nth_error l j = nth_error (pk_parts pk) (i + j)) ->
  all_pairs_energy pk inter l =
  Some (Rsum (tv 0%R (in_energy inter) pk) (flat_map (fun ij => expand K (fst ij) (snd ij)) (pairs_from i (length l)))).
Proof.
  intros Hng. revert i. induction l as [|p l IH]; intros i H; [reflexivity|].
  cbn [all_pairs_energy length pairs_from]. rewrite flat_map_app, Rsum_app.
  assert (Hl : forall j, nth_error l j = nth_error (pk_parts pk) (S i + j)).
  { intros j. specialize (H (S j)). simpl in H. rewrite H. f_equal. lia. }
  rewrite (IH (S i) Hl). pose proof (H 0) as Hp. rewrite Nat.add_0_r in Hp. simpl in Hp.
  assert (E : sum_energy (pair_energy pk inter p) l =
    Some (Rsum (tv 0%R (in_energy inter) pk) (flat_map (fun ij => expand K (fst ij) (snd ij)) (map (fun j => (i, j)) (seq (S i) (length l)))))).
  { rewrite (sum_energy_map (fun o => o) (pair_energy pk inter p)).
    rewrite (enum_suffix l (S i) Hl _ (fun j => Some (Rsum (tv 0%R (in_energy inter) pk) (expand K i j)))).
    - rewrite <- sum_energy_map. rewrite (sum_energy_total _ (fun j => Rsum (tv 0%R (in_energy inter) pk) (expand K i j))) by auto.
      rewrite Rsum_flat, Rsum_map. reflexivity.
    - intros j q Hj Hij. apply pair_energy_value; auto. lia. }
  rewrite E. reflexivity.
Qed.

(** With the grid. *)
Definition cellv (f : vec -> mat -> nat -> vec -> mat -> nat -> bcond -> nat) (x : nat * nat * vec) : nat :=
  let '(a, b, t) := x in if negb (pk_k pk =? 0) && (a / K =? b / K) then 0 else
    f (spos pk a) (srot pk a) (a mod K) (spos pk b) (srot pk b) (b mod K) (hardcoded t).
Definition cellr (f : vec -> mat -> nat -> vec -> mat -> nat -> bcond -> R) (x : nat * nat * vec) : R :=
  let '(a, b, t) := x in if negb (pk_k pk =? 0) && (a / K =? b / K) then 0%R else
    f (spos pk a) (srot pk a) (a mod K) (spos pk b) (srot pk b) (b mod K) (hardcoded t).
Lemma esum_views ee (v : nat * vec -> nat) views :
  esum ee (fun cell : list nat * vec => esum ee (fun id => v (id, snd cell)) (fst cell)) views = esum ee v (view_pairs views).
Proof. unfold view_pairs. rewrite <- esum_flat. apply esum_ext. intros x _. rewrite esum_map. reflexivity. Qed.
Lemma Rsum_views (v : nat * vec -> R) views :
  Rsum (fun cell : list nat * vec => Rsum (fun id => v (id, snd cell)) (fst cell)) views = Rsum v (view_pairs views).
Proof. unfold view_pairs. rewrite Rsum_flat. apply Rsum_ext. intros x _. rewrite Rsum_map. reflexivity. Qed.

Lemma cell_list_value ee views ids : (forall a, In a ids -> a < sites_total pk) ->
  (forall b t, In (b, t) (view_pairs views) -> b < sites_total pk) ->
  cell_list_overlaps pk inter ee (Some views) ids = Some (esum ee (cellv ovf) (cell_terms (view_pairs views) ids)).
Proof.
  intros H1 H2. induction ids as [|a ids IH]; [reflexivity|]. cbn [cell_list_overlaps cell_terms].
  rewrite site_eq by (auto; apply H1; left; auto). cbn [obind].
  rewrite (sum_exit_total ee _ (fun b => cellv ovf (a, b, vzero))).
  2: { intros b Hb. rewrite site_eq by (auto; apply H1; right; auto). reflexivity. }
  rewrite (sum_exit_total ee _ (fun cell => esum ee (fun id => cellv ovf (a, id, snd cell)) (fst cell))).
  2: { intros cell Hc. apply sum_exit_total. intros b Hb.
       rewrite site_eq; [reflexivity|auto|]. apply (H2 b (snd cell)). apply in_view_pairs. exists (fst cell).
       split; auto. destruct cell; auto. }
  rewrite then_exit_total. rewrite IH by (intros; apply H1; right; auto). rewrite then_exit_total.
  f_equal. rewrite app_assoc, esum_app, esum_app, !esum_map.
  pose proof (esum_views ee (fun bt => cellv ovf (a, fst bt, snd bt)) views) as E. cbn [fst snd] in E. rewrite E. reflexivity.
Qed.
Lemma cell_list_energy_value views ids : (forall a, In a ids -> a < sites_total pk) ->
  (forall b t, In (b, t) (view_pairs views) -> b < sites_total pk) ->
  cell_list_energy pk inter (Some views) ids = Some (Rsum (cellr (in_energy inter)) (cell_terms (view_pairs views) ids)).
Proof.
  intros H1 H2. induction ids as [|a ids IH]; [reflexivity|]. cbn [cell_list_energy cell_terms].
  rewrite site_eq by (auto; apply H1; left; auto). cbn [obind].
  rewrite (sum_energy_total _ (fun b => cellr (in_energy inter) (a, b, vzero))).
  2: { intros b Hb. rewrite site_eq by (auto; apply H1; right; auto). reflexivity. }
  cbn [obind].
  rewrite (sum_energy_total _ (fun cell => Rsum (fun id => cellr (in_energy inter) (a, id, snd cell)) (fst cell))).
  2: { intros cell Hc. apply sum_energy_total. intros b Hb.
       rewrite site_eq; [reflexivity|auto|]. apply (H2 b (snd cell)). apply in_view_pairs. exists (fst cell).
       split; auto. destruct cell; auto. }
  cbn [obind]. rewrite IH by (intros; apply H1; right; auto). cbn [obind].
  f_equal. rewrite app_assoc, Rsum_app, Rsum_app, !Rsum_map.
  pose proof (Rsum_views (fun bt => cellr (in_energy inter) (a, fst bt, snd bt)) views) as E. cbn [fst snd] in E. rewrite E. reflexivity.
Qed.

Lemma grid_terms g : pk_ng pk = Some g -> exists s, st_box s = pk_box pk /\ (pk_range pk <= st_cellSize s)%R /\
  (forall a, st_cellSize s < box_height (pk_box pk) a)%R /\ ginv (sites_total pk) s g /\
  (forall a, a < sites_total pk -> in_box (st_box s) (spos pk a)) /\
  (forall a c, In a (st_contents s c) <-> a < sites_total pk /\ c = real_cell_no (st_n s) (cell_of s (spos pk a))).
Proof.
  intros E. pose proof Hg as (_ & _ & Hin & Hn). rewrite E in Hn. destruct Hn as (s & E1 & E2 & E3 & G & H).
  rewrite pgood_length in G by auto. exists s. split; auto. split; auto. split; auto. split; auto. split.
  - intros a Ha. rewrite E1. apply spos_in_box; auto.
  - intros a c. rewrite (H a c). split.
    + intros (p & Ep & Ec). assert (Ha : a < sites_total pk) by (rewrite <- pgood_length by auto; apply nth_error_Some; congruence).
      split; auto. unfold spos. rewrite (nth_error_nth _ _ vzero Ep). auto.
    + intros [Ha ->]. exists (spos pk a). split; auto. apply nth_error_nth'. rewrite pgood_length; auto.
Qed.

Lemma cell_overlaps_value ee g c : pk_ng pk = Some g -> In c (all_cells (getCellDivisions g)) ->
  exists l, cell_overlaps pk g inter ee c = Some (esum ee (cellv ovf) l) /\ l = cell_terms (view_pairs (views_at g c true)) (ids_at g c).
Proof.
  intros E Hcr. destruct (grid_terms g E) as (s & E1 & E2 & E3 & G & Hin & Hc). eexists. split; [|reflexivity].
  apply (cells_range _ s g G) in Hcr. unfold cell_overlaps.
  pose proof (ginv_cell_at _ s g c G Hcr) as Ec. destruct (ginv_views _ s g c true G Hcr) as (views & Ev & _ & _).
  rewrite Ec, Ev. cbn [obind].
  pose proof (fun a => in_ids_at _ s g _ _ G Hin Hc c a Hcr) as Hi. pose proof (fun b t => in_views_at _ s g _ _ G Hin Hc c true b t Hcr) as Hv.
  unfold ids_at, views_at in *. rewrite Ec in *. rewrite Ev in *. apply cell_list_value.
  - intros a Ha. apply Hi in Ha. tauto.
  - intros b t Hb. apply Hv in Hb. tauto.
Qed.
Lemma grid_overlaps_value ee g : pk_ng pk = Some g ->
  sum_exit ee (cell_overlaps pk g inter ee) (all_cells (getCellDivisions g)) = Some (esum ee (cellv ovf) (all_terms g)).
Proof.
  intros E. unfold all_terms. rewrite <- esum_flat.
  apply sum_exit_total. intros c Hcr. destruct (cell_overlaps_value ee g c E Hcr) as (l & -> & ->). reflexivity.
Qed.
Lemma grid_energy_value g : pk_ng pk = Some g ->
  sum_energy (cell_energy pk g inter) (all_cells (getCellDivisions g)) = Some (Rsum (cellr (in_energy inter)) (all_terms g)).
Proof.
  intros E. destruct (grid_terms g E) as (s & E1 & E2 & E3 & G & Hin & Hc). unfold all_terms. rewrite Rsum_flat.
  apply sum_energy_total. intros c Hcr. apply (cells_range _ s g G) in Hcr. unfold cell_energy.
  pose proof (ginv_cell_at _ s g c G Hcr) as Ec. destruct (ginv_views _ s g c true G Hcr) as (views & Ev & _ & _).
  rewrite Ec, Ev. cbn [obind].
  pose proof (fun a => in_ids_at _ s g _ _ G Hin Hc c a Hcr) as Hi. pose proof (fun b t => in_views_at _ s g _ _ G Hin Hc c true b t Hcr) as Hv.
  unfold ids_at, views_at in *. rewrite Ec in *. rewrite Ev in *. apply cell_list_energy_value.
  - intros a Ha. apply Hi in Ha. tauto.
  - intros b t Hb. apply Hv in Hb. tauto.
Qed.

(** One particle. *)
Lemma site_overlaps_value ee g i p c : pk_ng pk = Some g -> in_box (pk_box pk) (nth c (sitepos (pk_k pk) p) vzero) ->
  site_overlaps_ng pk g inter ee i (nth c (sitepos (pk_k pk) p) vzero) (pt_rot p) c =
  Some (esum ee (pv 0 ovf pk i p) (map (fun bt => (c, fst bt, snd bt)) (view_pairs (views_near g (nth c (sitepos (pk_k pk) p) vzero))))).
Proof.
  intros E Hp. destruct (grid_terms g E) as (s & E1 & E2 & E3 & G & Hin & Hc). rewrite <- E1 in Hp.
  unfold site_overlaps_ng. destruct (ginv_views_pos _ s g _ false G Hp) as (views & Ev & _ & _).
  pose proof (near_sound _ s g _ (spos pk) G Hc (nth c (sitepos (pk_k pk) p) vzero)) as Hs.
  unfold views_near in *. rewrite Ev in *. cbn [obind]. rewrite esum_map.
  pose proof (esum_views ee (fun bt => pv 0 ovf pk i p (c, fst bt, snd bt)) views) as X. cbn [fst snd] in X. rewrite <- X.
  apply sum_exit_total. intros cell Hcell. apply sum_exit_total. intros b Hb.
  rewrite site_eq; auto.
  - cbn [obind]. unfold pv, bc_of. rewrite E. destruct (b / K =? i); reflexivity.
  - apply (Hs b (snd cell) Hp). apply in_view_pairs. exists (fst cell). split; auto. destruct cell; auto.
Qed.
Lemma site_energy_value g i p c : pk_ng pk = Some g -> in_box (pk_box pk) (nth c (sitepos (pk_k pk) p) vzero) ->
  site_energy_ng pk g inter i (nth c (sitepos (pk_k pk) p) vzero) (pt_rot p) c =
  Some (Rsum (pv 0%R (in_energy inter) pk i p) (map (fun bt => (c, fst bt, snd bt)) (view_pairs (views_near g (nth c (sitepos (pk_k pk) p) vzero))))).
Proof.
  intros E Hp. destruct (grid_terms g E) as (s & E1 & E2 & E3 & G & Hin & Hc). rewrite <- E1 in Hp.
  unfold site_energy_ng. destruct (ginv_views_pos _ s g _ false G Hp) as (views & Ev & _ & _).
  pose proof (near_sound _ s g _ (spos pk) G Hc (nth c (sitepos (pk_k pk) p) vzero)) as Hs.
  unfold views_near in *. rewrite Ev in *. cbn [obind]. rewrite Rsum_map.
  pose proof (Rsum_views (fun bt => pv 0%R (in_energy inter) pk i p (c, fst bt, snd bt)) views) as X. cbn [fst snd] in X. rewrite <- X.
  apply sum_energy_total. intros cell Hcell. apply sum_energy_total. intros b Hb.
  rewrite site_eq; auto.
  - cbn [obind]. unfold pv, bc_of. rewrite E. destruct (b / K =? i); reflexivity.
  - apply (Hs b (snd cell) Hp). apply in_view_pairs. exists (fst cell). split; auto. destruct cell; auto.
Qed.

Lemma pair_overlaps_part ee i j p q : i <> j -> nth_error (pk_parts pk) j = Some q -> length (sitepos (pk_k pk) p) = K ->
  pk_ng pk = None -> pair_overlaps pk inter ee p q = Some (esum ee (pv 0 ovf pk i p) (expand K 0 j)).
Proof.
  intros Hn Hj Hl Hng. unfold pair_overlaps, expand. rewrite !particle_sites_enum.
  rewrite (enumerate_seq (sitepos (pk_k pk) p) vzero), (enumerate_seq (sitepos (pk_k pk) q) vzero).
  rewrite Hl, (sitepos_length j q Hj). rewrite <- esum_flat.
  rewrite (sum_exit_total ee _ (fun s1 => esum ee (fun s2 => ovf (snd s1) (pt_rot p) (fst s1) (snd s2) (pt_rot q) (fst s2) (periodic (pk_box pk)))
             (map (fun c => (c, nth c (sitepos (pk_k pk) q) vzero)) (seq 0 K)))).
  - rewrite esum_map. f_equal. apply esum_ext. intros c1 H1. rewrite !esum_map. apply esum_ext. intros c2 H2.
    apply in_seq in H1, H2. cbn [fst snd]. unfold pv. rewrite !div_mul_add, !mod_mul_add by lia.
    destruct (Nat.eqb_spec j i); [congruence|]. cbn [Nat.mul Nat.add].
    destruct (sitepos_nth j q c2 Hj) as (-> & -> & _); [lia|].
    unfold bc_of. rewrite Hng. reflexivity.
  - intros s1 _. apply sum_exit_total. reflexivity.
Qed.
Lemma pair_energy_part i j p q : i <> j -> nth_error (pk_parts pk) j = Some q -> length (sitepos (pk_k pk) p) = K ->
  pk_ng pk = None -> pair_energy pk inter p q = Some (Rsum (pv 0%R (in_energy inter) pk i p) (expand K 0 j)).
Proof.
  intros Hn Hj Hl Hng. unfold pair_energy, expand. rewrite !particle_sites_enum.
  rewrite (enumerate_seq (sitepos (pk_k pk) p) vzero), (enumerate_seq (sitepos (pk_k pk) q) vzero).
  rewrite Hl, (sitepos_length j q Hj). rewrite Rsum_flat.
  rewrite (sum_energy_total _ (fun s1 => Rsum (fun s2 => in_energy inter (snd s1) (pt_rot p) (fst s1) (snd s2) (pt_rot q) (fst s2) (periodic (pk_box pk)))
             (map (fun c => (c, nth c (sitepos (pk_k pk) q) vzero)) (seq 0 K)))).
  - rewrite Rsum_map. f_equal. apply Rsum_ext. intros c1 H1. rewrite !Rsum_map. apply Rsum_ext. intros c2 H2.
    apply in_seq in H1, H2. cbn [fst snd]. unfold pv. rewrite !div_mul_add, !mod_mul_add by lia.
    destruct (Nat.eqb_spec j i); [congruence|]. cbn [Nat.mul Nat.add].
    destruct (sitepos_nth j q c2 Hj) as (-> & -> & _); [lia|].
    unfold bc_of. rewrite Hng. reflexivity.
  - intros s1 _. apply sum_energy_total. reflexivity.
Qed.
Lemma nth_default_in (l : list vec) c d : c < length l -> In (nth c l d) l.
Proof. apply nth_In. Qed.

Definition part_good (p : particle) : Prop :=
  length (sitepos (pk_k pk) p) = K /\ (forall q, In q (sitepos (pk_k pk) p) -> in_box (pk_box pk) q).
Lemma expand_excluded i ee p : esum ee (pv 0 ovf pk i p) (expand K 0 i) = 0.
Proof.
  apply esum_zero. intros [[a b] t] H. apply in_expand in H. destruct H as (c1 & c2 & H1 & H2 & -> & -> & ->).
  unfold pv. rewrite div_mul_add by auto. rewrite Nat.eqb_refl. reflexivity.
Qed.
Lemma expand_excluded_r i p : Rsum (pv 0%R (in_energy inter) pk i p) (expand K 0 i) = 0%R.
Proof.
  apply Rsum_zero. intros [[a b] t] H. apply in_expand in H. destruct H as (c1 & c2 & H1 & H2 & -> & -> & ->).
  unfold pv. rewrite div_mul_add by auto. rewrite Nat.eqb_refl. reflexivity.
Qed.

Lemma part_overlaps_value ee i p : part_good p ->
  match pk_ng pk with
  | Some g => sum_exit ee (fun s : nat * vec => site_overlaps_ng pk g inter ee i (snd s) (pt_rot p) (fst s)) (particle_sites (pk_k pk) p)
  | None => sum_exit ee (fun jq : nat * particle => if Nat.eqb i (fst jq) then Some 0 else pair_overlaps pk inter ee p (snd jq)) (enumerate (pk_parts pk))
  end = Some (esum ee (pv 0 ovf pk i p) (part_list pk p)).
Proof.
  intros [Hl Hp]. unfold part_list. destruct (pk_ng pk) as [g|] eqn:E.
  - rewrite particle_sites_enum, (enumerate_seq _ vzero), Hl, <- esum_flat.
    rewrite <- (sum_exit_map ee (fun s : nat * vec => site_overlaps_ng pk g inter ee i (snd s) (pt_rot p) (fst s))).
    apply sum_exit_total. intros c Hc. apply in_seq in Hc. cbn [fst snd]. apply site_overlaps_value; auto.
    apply Hp, nth_In. lia.
  - rewrite <- esum_flat.
    assert (Q : forall jq, In jq (enumerate (pk_parts pk)) ->
      (if i =? fst jq then Some 0 else pair_overlaps pk inter ee p (snd jq)) = Some (esum ee (pv 0 ovf pk i p) (expand K 0 (fst jq)))).
    { intros [j q] H. apply in_enumerate in H. cbn [fst snd]. destruct (Nat.eqb_spec i j) as [<-|Hn].
      - rewrite expand_excluded; auto.
      - eapply pair_overlaps_part; eauto. }
    rewrite (sum_exit_total ee _ _ _ Q).
    rewrite <- (esum_map ee fst (fun j => esum ee (pv 0 ovf pk i p) (expand K 0 j))), map_fst_enumerate. reflexivity.
Qed.
Lemma part_energy_value i p : part_good p ->
  match pk_ng pk with
  | Some g => sum_energy (fun s : nat * vec => site_energy_ng pk g inter i (snd s) (pt_rot p) (fst s)) (particle_sites (pk_k pk) p)
  | None => sum_energy (fun jq : nat * particle => if Nat.eqb i (fst jq) then Some 0%R else pair_energy pk inter p (snd jq)) (enumerate (pk_parts pk))
  end = Some (Rsum (pv 0%R (in_energy inter) pk i p) (part_list pk p)).
Proof.
  intros [Hl Hp]. unfold part_list. destruct (pk_ng pk) as [g|] eqn:E.
  - rewrite particle_sites_enum, (enumerate_seq _ vzero), Hl, Rsum_flat.
    rewrite <- (sum_energy_map (fun s : nat * vec => site_energy_ng pk g inter i (snd s) (pt_rot p) (fst s))).
    apply sum_energy_total. intros c Hc. apply in_seq in Hc. cbn [fst snd]. apply site_energy_value; auto.
    apply Hp, nth_In. lia.
  - rewrite Rsum_flat.
    assert (Q : forall jq, In jq (enumerate (pk_parts pk)) ->
      (if i =? fst jq then Some 0%R else pair_energy pk inter p (snd jq)) = Some (Rsum (pv 0%R (in_energy inter) pk i p) (expand K 0 (fst jq)))).
    { intros [j q] H. apply in_enumerate in H. cbn [fst snd]. destruct (Nat.eqb_spec i j) as [<-|Hn].
      - rewrite expand_excluded_r; auto.
      - eapply pair_energy_part; eauto. }
    rewrite (sum_energy_total _ _ _ Q).
    rewrite <- (Rsum_map fst (fun j => Rsum (pv 0%R (in_energy inter) pk i p) (expand K 0 j))), map_fst_enumerate. reflexivity.
Qed.
End Values.
