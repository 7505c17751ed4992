(** Pairs enumerated through the neighbour grid: each close pair of images exactly once. *)
From Coq Require Import Reals ZArith List Bool Lia Lra Permutation.
From Verif Require Import GeomModel BoxModel BoxSpec PbcSpec NGModel NGSpec GeomProofs BoxProofs PbcProofs NGListProofs NGGeomProofs NGProofs.
From Verif Require Import PackModel PackSpec PackSumProofs.
Import ListNotations.
Open Scope Z_scope.

Lemma ginv_divisions np s g : ginv np s g -> getCellDivisions g = C3 (st_n s AX) (st_n s AY) (st_n s AZ).
Proof. intros (_ & _ & H3 & _). unfold getCellDivisions. rewrite H3. unfold div_of. apply cvec_ext; cbn [cx cy cz]; ring. Qed.
Lemma ginv_cell_at np s g c : ginv np s g -> in_range (st_n s) c ->
  getCellAt g c = Some (st_contents s (real_cell_no (st_n s) c)).
Proof.
  intros Hg Hc. pose proof Hg as (_ & _ & H3 & _). unfold getCellAt. rewrite (proj2 (coord_ok_range np s g c Hg)) by auto.
  rewrite H3, realCoordinates_no. apply (ginv_list np); auto. apply real_cell_no_range; auto.
Qed.
Lemma ginv_views np s g c op : ginv np s g -> in_range (st_n s) c ->
  exists views, getNeighbouringCellsAt g c op = Some views /\
    Permutation views (map (fun d => image_view (st_box s) (st_n s) (st_contents s) (cadd c d)) (dirs op)) /\
    NoDup (view_pairs views).
Proof.
  intros Hg Hc. pose proof Hg as (_ & _ & H3 & _).
  unfold getNeighbouringCellsAt. rewrite (proj2 (coord_ok_range np s g c Hg)) by auto.
  rewrite H3, realCoordinates_no. destruct (neighbours_cell np s g c op Hg Hc) as (views & -> & P).
  exists views. split; auto. split; auto.
  eapply Permutation_NoDup; [apply Permutation_sym, view_pairs_perm, P|]. apply (views_NoDup np s g); auto.
  destruct op; [apply NoDup_half_dirs|apply NoDup_full_dirs].
Qed.
Lemma ginv_views_pos np s g p op : ginv np s g -> in_box (st_box s) p ->
  exists views, getNeighbouringCells g p op = Some views /\
    Permutation views (map (fun d => image_view (st_box s) (st_n s) (st_contents s) (cadd (cell_of s p) d)) (dirs op)) /\
    NoDup (view_pairs views).
Proof.
  intros Hg Hp. destruct (position_no _ np s g p Hg eq_refl Hp) as [Ep Hr]. unfold getNeighbouringCells. rewrite Ep.
  pose proof Hg as (_ & _ & H3 & _).
  destruct (ginv_views np s g (cell_of s p) op Hg Hr) as (views & Ev & P & N). exists views. split; auto.
  unfold getNeighbouringCellsAt in Ev. rewrite (proj2 (coord_ok_range np s g _ Hg)) in Ev by auto.
  rewrite H3, realCoordinates_no in Ev. exact Ev.
Qed.

Definition views_at (g : grid) (c : cvec) (op : bool) : list (list nat * vec) :=
  match getNeighbouringCellsAt g c op with Some v => v | None => [] end.
Definition views_near (g : grid) (p : vec) : list (list nat * vec) :=
  match getNeighbouringCells g p false with Some v => v | None => [] end.
Definition ids_at (g : grid) (c : cvec) : list nat := match getCellAt g c with Some l => l | None => [] end.

Fixpoint cell_terms (vp : list (nat * vec)) (ids : list nat) : list (nat * nat * vec) :=
  match ids with
  | [] => []
  | a :: rest => map (fun b => (a, b, vzero)) rest ++ map (fun bt => (a, fst bt, snd bt)) vp ++ cell_terms vp rest
  end.
Definition all_terms (g : grid) : list (nat * nat * vec) :=
  flat_map (fun c => cell_terms (view_pairs (views_at g c true)) (ids_at g c)) (all_cells (getCellDivisions g)).

Lemma in_all_cells d c : In c (all_cells d) <-> 0 <= cx c < cx d /\ 0 <= cy c < cy d /\ 0 <= cz c < cz d.
Proof.
  unfold all_cells. rewrite in_flat_map.
  assert (R : forall n x, In x (map Z.of_nat (seq 0 (Z.to_nat n))) <-> 0 <= x < n).
  { intros n x. rewrite in_map_iff. split.
    - intros (y & <- & Hy). apply in_seq in Hy. lia.
    - intros H. exists (Z.to_nat x). split; [lia|]. apply in_seq. lia. }
  split.
  - intros (i & Hi & H). apply in_flat_map in H. destruct H as (j & Hj & H). apply in_map_iff in H.
    destruct H as (k & <- & Hk). apply R in Hi, Hj, Hk. simpl. lia.
  - intros (Hi & Hj & Hk). exists (cx c). split; [apply R; auto|]. apply in_flat_map. exists (cy c). split; [apply R; auto|].
    apply in_map_iff. exists (cz c). split; [destruct c; auto|apply R; auto].
Qed.
Lemma NoDup_flat_map {A B} (f : A -> list B) l : NoDup l -> (forall x, In x l -> NoDup (f x)) ->
  (forall x y z, In x l -> In y l -> In z (f x) -> In z (f y) -> x = y) -> NoDup (flat_map f l).
Proof.
  induction l as [|x l IH]; simpl; intros N H D; [constructor|]. inversion N; subst. apply NoDup_app_intro; auto.
  - apply IH; auto. intros; eapply D; eauto.
  - intros z Hz Hz'. apply in_flat_map in Hz'. destruct Hz' as (y & Hy & Hz').
    assert (x = y) by (apply (D x y z); auto). subst y. contradiction.
Qed.
Lemma NoDup_all_cells d : NoDup (all_cells d).
Proof.
  unfold all_cells.
  assert (R : forall n, NoDup (map Z.of_nat (seq 0 (Z.to_nat n)))).
  { intros n. apply NoDup_map_inj_on; [apply seq_NoDup|]. intros; lia. }
  apply NoDup_flat_map; auto.
  - intros i _. apply NoDup_flat_map; auto.
    + intros j _. apply NoDup_map_inj_on; auto. intros x y _ _ E. congruence.
    + intros j j' z _ _ H H'. apply in_map_iff in H, H'. destruct H as (k & <- & _), H' as (k' & E & _). congruence.
  - intros i i' z _ _ H H'. apply in_flat_map in H, H'. destruct H as (j & _ & H), H' as (j' & _ & H').
    apply in_map_iff in H, H'. destruct H as (k & <- & _), H' as (k' & E & _). congruence.
Qed.

Lemma in_cell_terms vp ids a b t : In (a, b, t) (cell_terms vp ids) <->
  (In a ids /\ In (b, t) vp) \/ (t = vzero /\ exists l1 l2, ids = l1 ++ a :: l2 /\ In b l2).
Proof.
  induction ids as [|x ids IH]; simpl.
  - split; [tauto|]. intros [[[] _]|(_ & l1 & l2 & E & _)]. destruct l1; discriminate.
  - rewrite !in_app_iff, IH, !in_map_iff. split.
    + intros [(y & E & Hy)|[([y u] & E & Hy)|[[H1 H2]|(-> & l1 & l2 & -> & Hb)]]].
      * injection E as -> -> <-. right. split; auto. exists [], ids. auto.
      * simpl in E. injection E as -> -> ->. left. auto.
      * left. auto.
      * right. split; auto. exists (x :: l1), l2. auto.
    + intros [[[->|H1] H2]|(-> & l1 & l2 & E & Hb)].
      * right. left. exists (b, t). auto.
      * right. right. left. auto.
      * destruct l1 as [|y l1]; injection E as -> ->.
        -- left. exists b. auto.
        -- right. right. right. split; auto. exists l1, l2. auto.
Qed.
Lemma NoDup_cell_terms vp ids : NoDup ids -> NoDup vp -> (forall b, In b ids -> ~ In (b, vzero) vp) -> NoDup (cell_terms vp ids).
Proof.
  induction ids as [|x ids IH]; simpl; intros N V D; [constructor|]. inversion N; subst.
  apply NoDup_app_intro; [|apply NoDup_app_intro|].
  - apply NoDup_map_inj_on; auto. intros; congruence.
  - apply NoDup_map_inj_on; auto. intros [] [] _ _ E. simpl in E. congruence.
  - apply IH; auto.
  - intros [[a b] t] H H'. apply in_map_iff in H. destruct H as ([] & E & _). injection E as -> -> ->.
    apply in_cell_terms in H'. destruct H' as [[H' _]|(_ & l1 & l2 & -> & _)]; auto.
    apply H1, in_app_iff; simpl; auto.
  - intros [[a b] t] H H'. apply in_map_iff in H. destruct H as (y & E & Hy). injection E as -> -> <-.
    apply in_app_iff in H'. destruct H' as [H'|H'].
    + apply in_map_iff in H'. destruct H' as ([b' t'] & E & Hb). simpl in E. injection E as -> ->. apply (D b); auto.
    + apply in_cell_terms in H'. destruct H' as [[H' _]|(_ & l1 & l2 & -> & _)]; auto.
      apply H1, in_app_iff; simpl; auto.
Qed.
Lemma before_or_after (ids : list nat) a b : In a ids -> In b ids -> a <> b ->
  (exists l1 l2, ids = l1 ++ a :: l2 /\ In b l2) \/ (exists l1 l2, ids = l1 ++ b :: l2 /\ In a l2).
Proof.
  induction ids as [|x ids IH]; simpl; [tauto|]. intros [->|Ha] [->|Hb] Hn.
  - congruence.
  - left. exists [], ids. auto.
  - right. exists [], ids. auto.
  - destruct IH as [(l1 & l2 & -> & H)|(l1 & l2 & -> & H)]; auto; [left|right]; exists (x :: l1), l2; auto.
Qed.
Lemma not_before_and_after (ids : list nat) a b l1 l2 m1 m2 : NoDup ids -> ids = l1 ++ a :: l2 -> In b l2 ->
  ids = m1 ++ b :: m2 -> In a m2 -> False.
Proof.
  revert l1 m1. induction ids as [|x ids IH]; intros l1 m1 N E1 H1 E2 H2; [destruct l1; discriminate|].
  inversion N; subst. destruct l1 as [|y l1], m1 as [|z m1]; simpl in E1, E2.
  - injection E1 as -> ->. injection E2 as <- <-. contradiction.
  - injection E1 as -> ->. injection E2 as <- ->. apply H3, in_app_iff. simpl. auto.
  - injection E1 as -> ->. injection E2 as <- <-. apply H3, in_app_iff. simpl. auto.
  - injection E1 as _ E1. injection E2 as _ E2. eapply IH; eauto.
Qed.
Lemma vneg_lattice b L : vneg (lattice b L) = lattice b (copp L).
Proof.
  unfold lattice, lattice_vector, copp; cbn [cx cy cz]. rewrite !opp_IZR. apply vec_ext; simpl; ring.
Qed.
Lemma lattice_of b t : is_lattice_vector b t <-> exists L, t = lattice b L.
Proof.
  split.
  - intros (i & j & k & ->). exists (C3 i j k). reflexivity.
  - intros ([i j k] & ->). exists i, j, k. reflexivity.
Qed.
Lemma lattice_zero b : lattice b (C3 0 0 0) = vzero.
Proof. unfold lattice, lattice_vector; cbn [cx cy cz]. apply vec_ext; simpl; ring. Qed.
Lemma lattice_zero_inv b L : valid_box b -> lattice b L = vzero -> L = C3 0 0 0.
Proof. intros Hv E. rewrite <- (lattice_zero b) in E. apply lattice_inj in E; auto. Qed.

Section Terms.
Variables (np : nat) (s : ng_state) (g : grid) (n : nat) (pos : nat -> vec).
Hypothesis Hg : ginv np s g.
Hypothesis Hin : forall a, (a < n)%nat -> in_box (st_box s) (pos a).
Hypothesis Hc : forall a c, In a (st_contents s c) <-> (a < n)%nat /\ c = real_cell_no (st_n s) (cell_of s (pos a)).

Lemma cell_of_range a : (a < n)%nat -> in_range (st_n s) (cell_of s (pos a)).
Proof. intros Ha. destruct (position_no _ np s g (pos a) Hg eq_refl (Hin a Ha)) as [_ H]. exact H. Qed.
Lemma tm_valid : valid_box (st_box s).
Proof. apply constructed_valid. destruct Hg as ((Hb & _) & _). auto. Qed.
Lemma in_ids_at c a : in_range (st_n s) c -> (In a (ids_at g c) <-> (a < n)%nat /\ cell_of s (pos a) = c).
Proof.
  intros Hr. unfold ids_at. rewrite (ginv_cell_at np s g c Hg Hr), Hc. split; intros [H1 H2]; split; auto.
  - symmetry. apply (real_cell_no_inj (st_n s)); auto. apply cell_of_range; auto.
  - subst; auto.
Qed.
Definition shift_dir (c1 c2 L : cvec) : cvec :=
  cadd c2 (cadd (C3 (st_n s AX * cx L) (st_n s AY * cy L) (st_n s AZ * cz L)) (copp c1)).
Lemma in_views_at c op b t : in_range (st_n s) c ->
  (In (b, t) (view_pairs (views_at g c op)) <->
   (b < n)%nat /\ exists L, t = lattice (st_box s) L /\ In (shift_dir c (cell_of s (pos b)) L) (dirs op)).
Proof.
  intros Hr. unfold views_at. destruct (ginv_views np s g c op Hg Hr) as (views & -> & P & N).
  assert (Hb : In (b, t) (view_pairs views) -> (b < n)%nat /\ exists L, t = lattice (st_box s) L).
  { intros H. apply in_view_pairs in H. destruct H as (ids & H & Hb).
    apply (Permutation_in _ P) in H. apply in_map_iff in H. destruct H as (d & E & Hd). unfold image_view in E.
    apply pair_eq in E. destruct E as [<- <-]. apply Hc in Hb. destruct Hb. split; eauto. }
  assert (E : forall L, (b < n)%nat -> (In (b, lattice (st_box s) L) (view_pairs views) <->
    In (shift_dir c (cell_of s (pos b)) L) (dirs op))).
  { intros L Hbn. etransitivity; [|exact (in_views_iff np s g c (dirs op) b (cell_of s (pos b)) L Hg (cell_of_range b Hbn)
      (proj2 (Hc b _) (conj Hbn eq_refl)))].
    split; apply Permutation_in; [|apply Permutation_sym]; apply view_pairs_perm, P. }
  split.
  - intros H. destruct (Hb H) as (Hbn & L & ->). split; auto. exists L. split; auto. apply E; auto.
  - intros (Hbn & L & -> & Hd). apply E; auto.
Qed.
Lemma shift_dir_zero c1 c2 L : in_range (st_n s) c1 -> in_range (st_n s) c2 ->
  shift_dir c1 c2 L = C3 0 0 0 <-> c1 = c2 /\ L = C3 0 0 0.
Proof.
  intros H1 H2. pose proof (ginv_npos _ _ _ Hg) as Hp. pose proof (Hp AX). pose proof (Hp AY). pose proof (Hp AZ).
  unfold shift_dir. split; intros Eq.
  - apply (f_equal cx) in Eq as Q1. apply (f_equal cy) in Eq as Q2. apply (f_equal cz) in Eq as Q3.
    simpl in Q1, Q2, Q3. destruct H1 as (R1 & R2 & R3), H2 as (S1 & S2 & S3).
    assert (cx L = 0) by nia. assert (cy L = 0) by nia. assert (cz L = 0) by nia.
    split; [apply cvec_ext; nia|apply cvec_ext; simpl; lia].
  - destruct Eq as [-> ->]. apply cvec_ext; simpl; ring.
Qed.
Lemma shift_dir_opp c1 c2 L : copp (shift_dir c1 c2 L) = shift_dir c2 c1 (copp L).
Proof. unfold shift_dir. apply cvec_ext; simpl; ring. Qed.
Lemma cells_range c : In c (all_cells (getCellDivisions g)) <-> in_range (st_n s) c.
Proof. rewrite in_all_cells, (ginv_divisions np s g Hg). unfold in_range. cbn [cx cy cz]. tauto. Qed.

(** Membership. *)
Lemma in_all_terms a b t : In (a, b, t) (all_terms g) <->
  (a < n)%nat /\ (b < n)%nat /\ exists L, t = lattice (st_box s) L /\
    (In (shift_dir (cell_of s (pos a)) (cell_of s (pos b)) L) half_dirs \/
     (L = C3 0 0 0 /\ cell_of s (pos a) = cell_of s (pos b) /\
      exists l1 l2, ids_at g (cell_of s (pos a)) = l1 ++ a :: l2 /\ In b l2)).
Proof.
  unfold all_terms. rewrite in_flat_map. split.
  - intros (c & Hcr & H). apply cells_range in Hcr. apply in_cell_terms in H. destruct H as [[Ha Hb]|(-> & l1 & l2 & E & Hb)].
    + apply in_ids_at in Ha; auto. destruct Ha as [Ha <-]. apply in_views_at in Hb; auto. destruct Hb as (Hb & L & -> & Hd).
      repeat split; auto. exists L. auto.
    + assert (Ha : In a (ids_at g c)) by (rewrite E; apply in_app_iff; simpl; auto).
      assert (Hb' : In b (ids_at g c)) by (rewrite E; apply in_app_iff; simpl; auto).
      apply in_ids_at in Ha, Hb'; auto. destruct Ha as [Ha Ea], Hb' as [Hb' Eb].
      repeat split; auto. exists (C3 0 0 0). split; [symmetry; apply lattice_zero|]. right. split; auto. split; [congruence|].
      rewrite Ea. eauto.
  - intros (Ha & Hb & L & -> & H). exists (cell_of s (pos a)). split; [apply cells_range, cell_of_range; auto|].
    apply in_cell_terms. destruct H as [H|(-> & E & H)].
    + left. split; [apply in_ids_at; auto using cell_of_range|]. apply in_views_at; auto using cell_of_range. split; auto.
      exists L. auto.
    + right. split; [apply lattice_zero|auto].
Qed.
Lemma half_dirs_zero : ~ In (C3 0 0 0) half_dirs.
Proof. apply half_dirs_half. Qed.
Lemma ids_NoDup c : in_range (st_n s) c -> NoDup (ids_at g c).
Proof. intros Hr. unfold ids_at. rewrite (ginv_cell_at np s g c Hg Hr). apply (contents_disjoint np s g Hg). Qed.

Lemma NoDup_all_terms : NoDup (all_terms g).
Proof.
  unfold all_terms. apply NoDup_flat_map; [apply NoDup_all_cells| |].
  - intros c Hcr. apply cells_range in Hcr. apply NoDup_cell_terms.
    + apply ids_NoDup; auto.
    + unfold views_at. destruct (ginv_views np s g c true Hg Hcr) as (v & -> & _ & N). auto.
    + intros b Hb H. apply in_ids_at in Hb; auto. destruct Hb as [Hb Eb]. apply in_views_at in H; auto.
      destruct H as (_ & L & E & Hd). symmetry in E. apply lattice_zero_inv in E; [|apply tm_valid]. subst L.
      rewrite Eb, (proj2 (shift_dir_zero c c (C3 0 0 0) Hcr Hcr)) in Hd by auto. exact (half_dirs_zero Hd).
  - intros c c' [[a b] t] H1 H2 I1 I2. apply cells_range in H1, H2.
    assert (X : forall c0, in_range (st_n s) c0 -> In (a, b, t) (cell_terms (view_pairs (views_at g c0 true)) (ids_at g c0)) ->
                cell_of s (pos a) = c0).
    { intros c0 Hr I. apply in_cell_terms in I. destruct I as [[I _]|(_ & l1 & l2 & E & _)].
      - apply in_ids_at in I; tauto.
      - assert (I : In a (ids_at g c0)) by (rewrite E; apply in_app_iff; simpl; auto). apply in_ids_at in I; tauto. }
    rewrite <- (X c), <- (X c'); auto.
Qed.

(** A pair of different identifiers is never listed both ways. *)
Lemma all_terms_one_way a b t : a <> b -> In (a, b, t) (all_terms g) -> In (b, a, vneg t) (all_terms g) -> False.
Proof.
  intros Hab H1 H2. apply in_all_terms in H1, H2.
  destruct H1 as (Ha & Hb & L & -> & H1), H2 as (_ & _ & L' & E & H2).
  rewrite vneg_lattice in E. apply lattice_inj in E; [|apply tm_valid]. subst L'.
  destruct half_dirs_half as (_ & Hcube & H0 & Hx).
  set (d := shift_dir (cell_of s (pos a)) (cell_of s (pos b)) L) in *.
  assert (Ed : shift_dir (cell_of s (pos b)) (cell_of s (pos a)) (copp L) = copp d).
  { unfold d. symmetry. apply shift_dir_opp. }
  rewrite Ed in H2.
  destruct H1 as [H1|(-> & E1 & l1 & l2 & I1 & B1)], H2 as [H2|(EL & E2 & m1 & m2 & I2 & B2)].
  - assert (Hd0 : d <> C3 0 0 0) by (intros E; rewrite E in H1; contradiction).
    apply (proj1 (Hx d (Hcube d H1) Hd0)) in H1. contradiction.
  - assert (d = C3 0 0 0).
    { unfold d. apply shift_dir_zero; auto using cell_of_range. split; auto.
      destruct L as [x y z]. unfold copp in EL. cbn [cx cy cz] in EL. injection EL as X Y Z. apply cvec_ext; simpl; lia. }
    rewrite H in H1. contradiction.
  - assert (d = C3 0 0 0) by (unfold d; apply shift_dir_zero; auto using cell_of_range).
    rewrite H in H2. contradiction.
  - rewrite E2 in I2. eapply (not_before_and_after (ids_at g (cell_of s (pos a))) a b); eauto.
    apply ids_NoDup, cell_of_range; auto.
Qed.
Lemma all_terms_self a t : In (a, a, t) (all_terms g) -> t <> vzero.
Proof.
  intros H Et. apply in_all_terms in H. destruct H as (Ha & _ & L & E & H). rewrite Et in E. symmetry in E.
  apply lattice_zero_inv in E; [|apply tm_valid]. subst L. destruct H as [H|(_ & _ & l1 & l2 & E & H)].
  - rewrite (proj2 (shift_dir_zero _ _ _ (cell_of_range a Ha) (cell_of_range a Ha))) in H by auto. exact (half_dirs_zero H).
  - pose proof (ids_NoDup _ (cell_of_range a Ha)) as N. rewrite E in N. apply NoDup_remove_2 in N. apply N, in_app_iff. auto.
Qed.
Lemma all_terms_lattice a b t : In (a, b, t) (all_terms g) -> (a < n)%nat /\ (b < n)%nat /\ is_lattice_vector (st_box s) t.
Proof. intros H. apply in_all_terms in H. destruct H as (Ha & Hb & L & -> & _). repeat split; auto. apply lattice_of. eauto. Qed.
(** Close pairs are listed one way or the other. *)
Lemma all_terms_complete a b t : (a < n)%nat -> (b < n)%nat -> a <> b -> is_lattice_vector (st_box s) t ->
  (vnorm (vsub (vadd (pos b) t) (pos a)) <= st_cellSize s)%R ->
  In (a, b, t) (all_terms g) \/ In (b, a, vneg t) (all_terms g).
Proof.
  intros Ha Hb Hab Ht Hd. apply lattice_of in Ht. destruct Ht as (L & ->). rewrite vneg_lattice.
  set (d := shift_dir (cell_of s (pos a)) (cell_of s (pos b)) L).
  assert (Hcube : in_cube d).
  { pose proof Hg as (Hv' & _). pose proof (close_cells _ _ (pos a) (pos b) L Hv' Hd) as Hcl. cbv zeta in Hcl.
    pose proof (Hcl AX). pose proof (Hcl AY). pose proof (Hcl AZ). clear Hcl.
    unfold d, shift_dir, in_cube, cell_of, slices, cadd, copp. cbn [cx cy cz cget vget] in *. fold (st_n s) in *. lia. }
  destruct half_dirs_half as (_ & _ & H0 & Hx).
  assert (Dec : d = C3 0 0 0 \/ d <> C3 0 0 0).
  { destruct (cvec_eqb d (C3 0 0 0)) eqn:E; [left; apply cvec_eqb_eq; auto|right; intros E'; apply cvec_eqb_eq in E'; congruence]. }
  destruct Dec as [Dz|Dn].
  - apply shift_dir_zero in Dz; auto using cell_of_range. destruct Dz as [Ec ->].
    assert (I1 : In a (ids_at g (cell_of s (pos a)))) by (apply in_ids_at; auto using cell_of_range).
    assert (I2 : In b (ids_at g (cell_of s (pos a)))) by (apply in_ids_at; auto using cell_of_range).
    destruct (before_or_after _ a b I1 I2 Hab) as [H|H]; [left|right]; apply in_all_terms; repeat split; auto.
    + exists (C3 0 0 0). auto.
    + exists (C3 0 0 0). split; auto. right. rewrite Ec in H. auto.
  - destruct (in_dec (fun x y : cvec => ltac:(decide equality; apply Z.eq_dec) : {x = y} + {x <> y}) d half_dirs) as [I|I].
    + left. apply in_all_terms. repeat split; auto. exists L. auto.
    + right. apply in_all_terms. repeat split; auto. exists (copp L). split; auto. left. rewrite <- shift_dir_opp. fold d.
      destruct (in_dec (fun x y : cvec => ltac:(decide equality; apply Z.eq_dec) : {x = y} + {x <> y}) (copp d) half_dirs) as [J|J]; auto.
      exfalso. apply I. apply Hx; auto.
Qed.

(** Everything near a point. *)
Lemma near_NoDup p : in_box (st_box s) p -> NoDup (view_pairs (views_near g p)).
Proof. intros Hp. unfold views_near. destruct (ginv_views_pos np s g p false Hg Hp) as (v & -> & _ & N). auto. Qed.
Lemma near_sound p b t : in_box (st_box s) p -> In (b, t) (view_pairs (views_near g p)) ->
  (b < n)%nat /\ is_lattice_vector (st_box s) t.
Proof.
  intros Hp H. unfold views_near in H. destruct (ginv_views_pos np s g p false Hg Hp) as (v & E & P & _). rewrite E in H.
  apply in_view_pairs in H. destruct H as (ids & H & Hb).
  apply (Permutation_in _ P) in H. apply in_map_iff in H. destruct H as (d & E' & Hd). unfold image_view in E'.
  apply pair_eq in E'. destruct E' as [<- <-]. apply Hc in Hb. destruct Hb. split; auto. apply lattice_of. eauto.
Qed.
Lemma near_complete p b t : in_box (st_box s) p -> (b < n)%nat -> is_lattice_vector (st_box s) t ->
  (vnorm (vsub (vadd (pos b) t) p) <= st_cellSize s)%R -> In (b, t) (view_pairs (views_near g p)).
Proof.
  intros Hp Hb Ht Hd. apply lattice_of in Ht. destruct Ht as (L & ->).
  unfold views_near. destruct (ginv_views_pos np s g p false Hg Hp) as (v & E & P & _). rewrite E.
  eapply Permutation_in; [apply Permutation_sym, view_pairs_perm, P|].
  apply (in_views_iff np s g _ _ b (cell_of s (pos b)) L Hg (cell_of_range b Hb) (proj2 (Hc b _) (conj Hb eq_refl))).
  simpl. apply in_full_dirs.
  pose proof Hg as (Hv' & _). pose proof (close_cells _ _ p (pos b) L Hv' Hd) as Hcl. cbv zeta in Hcl.
  pose proof (Hcl AX). pose proof (Hcl AY). pose proof (Hcl AZ). clear Hcl.
  unfold in_cube, cell_of, slices, cadd, copp. cbn [cx cy cz cget vget] in *. fold (st_n s) in *. lia.
Qed.

(** The sum over all listed terms is the sum over all pairs and all images. *)
Definition id_pair (x : nat * nat * vec) : Prop :=
  let '(a, b, t) := x in (a < b < n)%nat /\ is_lattice_vector (st_box s) t.
Definition canon (x : nat * nat * vec) : nat * nat * vec :=
  let '(a, b, t) := x in if Nat.ltb a b then (a, b, t) else (b, a, vneg t).
Lemma vneg_invol v : vneg (vneg v) = v.
Proof. apply vec_ext; simpl; ring. Qed.
Lemma vneg_is_lattice b t : is_lattice_vector b t -> is_lattice_vector b (vneg t).
Proof. intros H. apply lattice_of in H. destruct H as (L & ->). rewrite vneg_lattice. apply lattice_of. eauto. Qed.
Lemma all_terms_sum (w : nat * nat * vec -> R) :
  (forall a b t, (a < n)%nat -> (b < n)%nat -> w (a, b, t) = w (b, a, vneg t)) ->
  (forall a b t, (a < n)%nat -> (b < n)%nat -> a <> b -> is_lattice_vector (st_box s) t -> w (a, b, t) <> 0%R ->
     (vnorm (vsub (vadd (pos b) t) (pos a)) <= st_cellSize s)%R) ->
  (forall a t, (a < n)%nat -> is_lattice_vector (st_box s) t -> t <> vzero -> w (a, a, t) = 0%R) ->
  sums_to id_pair w (Rsum w (all_terms g)).
Proof.
  intros Hsym Hcl Hself.
  set (p := fun x : nat * nat * vec => let '(a, b, _) := x in negb (Nat.eqb a b)).
  assert (E : Rsum w (all_terms g) = Rsum w (map canon (filter p (all_terms g)))).
  { rewrite Rsum_map. rewrite <- (Rsum_filter w p).
    - apply Rsum_ext. intros [[a b] t] H. apply filter_In in H. destruct H as [H _]. unfold canon.
      destruct (Nat.ltb a b); auto. apply all_terms_lattice in H. apply Hsym; tauto.
    - intros [[a b] t] H Ep. unfold p in Ep. destruct (Nat.eqb_spec a b) as [<-|]; [|discriminate].
      pose proof (all_terms_lattice _ _ _ H). apply Hself; try tauto. eapply all_terms_self; eauto. }
  rewrite E. apply sums_to_list.
  - apply NoDup_map_inj_on; [apply NoDup_filter, NoDup_all_terms|].
    intros [[a b] t] [[a' b'] t'] H H' Ec. apply filter_In in H, H'. destruct H as [H Hp], H' as [H' Hp'].
    unfold p in Hp, Hp'. destruct (Nat.eqb_spec a b) as [|Hn]; [discriminate|]. destruct (Nat.eqb_spec a' b') as [|Hn']; [discriminate|].
    unfold canon in Ec. destruct (Nat.ltb_spec a b), (Nat.ltb_spec a' b').
    + auto.
    + apply pair_eq in Ec. destruct Ec as [Ec ->]. injection Ec as -> ->. exfalso.
      apply (all_terms_one_way a' b' t' Hn' H' H).
    + apply pair_eq in Ec. destruct Ec as [Ec <-]. injection Ec as <- <-. exfalso.
      apply (all_terms_one_way a b t Hn H H').
    + apply pair_eq in Ec. destruct Ec as [Ec Et]. injection Ec as -> ->. f_equal.
      rewrite <- (vneg_invol t), Et. apply vneg_invol.
  - intros [[a b] t] H. apply in_map_iff in H. destruct H as ([[a' b'] t'] & Ec & H). apply filter_In in H.
    destruct H as [H Hp]. unfold p in Hp. destruct (Nat.eqb_spec a' b') as [|Hn]; [discriminate|].
    apply all_terms_lattice in H. destruct H as (Ha & Hb & Ht). unfold canon in Ec. simpl.
    destruct (Nat.ltb_spec a' b'); apply pair_eq in Ec; destruct Ec as [Ec <-]; injection Ec as <- <-.
    + auto.
    + split; [lia|]. apply vneg_is_lattice; auto.
  - intros [[a b] t] (Hab & Ht) Hw. assert (Hn : a <> b) by lia.
    destruct (all_terms_complete a b t) as [H|H]; auto; try lia.
    + apply Hcl; auto; lia.
    + apply in_map_iff. exists (a, b, t). split; [unfold canon; destruct (Nat.ltb_spec a b); auto; lia|].
      apply filter_In. split; auto. unfold p. destruct (Nat.eqb_spec a b); auto.
    + apply in_map_iff. exists (b, a, vneg t). split.
      * unfold canon. destruct (Nat.ltb_spec b a); [lia|]. rewrite vneg_invol; auto.
      * apply filter_In. split; auto. unfold p. destruct (Nat.eqb_spec b a); auto.
Qed.
Lemma near_sum p (w : nat * vec -> R) : in_box (st_box s) p ->
  (forall b t, (b < n)%nat -> is_lattice_vector (st_box s) t -> w (b, t) <> 0%R ->
     (vnorm (vsub (vadd (pos b) t) p) <= st_cellSize s)%R) ->
  sums_to (fun x => (fst x < n)%nat /\ is_lattice_vector (st_box s) (snd x)) w (Rsum w (view_pairs (views_near g p))).
Proof.
  intros Hp Hcl. apply sums_to_list.
  - apply near_NoDup; auto.
  - intros [b t] H. apply near_sound in H; auto.
  - intros [b t] [Hb Ht] Hw. simpl in *. apply near_complete; auto.
Qed.
End Terms.
