(** Neighbour grid: invariant over whole histories, queries, completeness. *)
From Coq Require Import Reals ZArith List Bool Lia Lra Permutation ZifyBool ZifyNat.
From Verif Require Import GeomModel GeomProofs BoxModel BoxSpec BoxProofs RFloorModel RFloorProofs PbcModel PbcSpec
  PbcProofs NGModel NGSpec NGListProofs NGGeomProofs.
Import ListNotations.
Open Scope Z_scope.

(** ** Set-up *)
Lemma cell_divisions_of b cs : cell_divisions b cs = div_of (cells_per_axis b cs).
Proof. reflexivity. Qed.

Lemma valid_setup_npos b cs : valid_setup b cs -> npos (cells_per_axis b cs).
Proof.
  intros (Hb & Hc & Hh & _) a. unfold cells_per_axis. apply Rfl_le.
  apply (Rmult_le_reg_r cs); auto. unfold Rdiv. rewrite Rmult_assoc, Rinv_l by lra. specialize (Hh a). lra.
Qed.
Lemma npos_setup b cs a : (0 < cs)%R -> 1 <= cells_per_axis b cs a -> (cs <= box_height b a)%R.
Proof.
  intros Hc H. unfold cells_per_axis in H. apply Rfl_le in H.
  apply (Rmult_le_compat_r cs) in H; [|lra]. unfold Rdiv in H. rewrite Rmult_assoc, Rinv_l in H by lra. lra.
Qed.

Lemma setupSizes_valid b cs : valid_setup b cs ->
  setupSizes b cs = Some (div_of (cells_per_axis b cs), total_cells (cells_per_axis b cs)).
Proof.
  intros Hv. pose proof (valid_setup_npos _ _ Hv) as Hn. destruct Hv as (Hb & Hc & Hh & Ht).
  unfold setupSizes. apply constructed_valid in Hb.
  assert (E1 : Rltb 0 (box_volume b) = true) by (apply Rltb_true, volume_pos; auto).
  assert (E2 : Rltb 0 cs = true) by (apply Rltb_true; auto).
  rewrite E1, E2. cbn [negb]. rewrite cell_divisions_of.
  pose proof (Hn AX). pose proof (Hn AY). pose proof (Hn AZ).
  unfold div_of; cbn [cx cy cz].
  match goal with |- (if ?t then _ else _) = _ => destruct t eqn:E end; [reflexivity|lia].
Qed.

(** ** Invariant *)
Definition ginv (np : nat) (s : ng_state) (g : grid) : Prop :=
  let n := st_n s in
  valid_setup (st_box s) (st_cellSize s) /\
  g_box g = st_box s /\ g_div g = div_of n /\ g_numCells g = total_cells n /\
  repr g (total_cells n) np (st_contents s) /\
  g_translations g = calculateTranslations (st_box s) /\
  fillNeighbouringCellsOffsets (div_of n) = Some (g_offsets g, g_posOffsets g) /\
  (forall i, 0 <= i < total_cells n -> zget (g_transIdx g) i = Some (snd (getReflectedCellData (div_of n) i))) /\
  (forall i, 0 <= i < total_cells n -> zget (g_reflected g) i = Some (fst (getReflectedCellData (div_of n) i))) /\
  total_cells n <= Z.of_nat (length (g_transIdx g)) /\ total_cells n <= Z.of_nat (length (g_reflected g)).

Lemma zget_cell_numbers nc i : 0 <= i < nc -> zget (cell_numbers nc) i = Some i.
Proof.
  intros H. unfold cell_numbers. rewrite zget_map. unfold zget. destruct (0 <=? i) eqn:E; [|lia].
  rewrite (nth_error_nth' _ 0%nat) by (rewrite seq_length; lia). rewrite seq_nth by lia. simpl. f_equal. lia.
Qed.
Lemma length_cell_numbers nc : length (cell_numbers nc) = Z.to_nat nc.
Proof. unfold cell_numbers. rewrite map_length, seq_length. reflexivity. Qed.

Lemma total_cells_pos n : npos n -> 27 <= total_cells n.
Proof.
  intros H. pose proof (H AX). pose proof (H AY). pose proof (H AZ). unfold total_cells. nia.
Qed.

Lemma grid_new_ginv b cs np : valid_setup b cs ->
  exists g, grid_new b cs np = Some g /\ ginv np (NgState b cs empty_contents) g.
Proof.
  intros Hv. pose proof (valid_setup_npos _ _ Hv) as Hn. pose proof Hv as (Hb & Hc & Hh & Ht).
  set (n := cells_per_axis b cs) in *. pose proof (total_cells_pos n Hn) as Hp.
  destruct (offsets_spec n Hn Ht) as (offs & pos & Eo & _).
  assert (E : exists g, grid_new b cs np = Some g).
  { unfold grid_new. rewrite (setupSizes_valid _ _ Hv). fold n. rewrite Eo. eauto. }
  destruct E as [g E]. exists g. split; auto.
  pose proof (grid_new_repr _ _ _ _ E) as Hr.
  apply grid_new_fields in E. rewrite (setupSizes_valid _ _ Hv) in E. fold n in E.
  destruct E as (div & nc & Es & E1 & E2 & E3 & E4 & E5 & E6 & E7 & E8 & E9). injection Es as <- <-.
  unfold ginv, st_n. cbn [st_box st_cellSize st_contents]. fold n.
  rewrite E3 in Hr. rewrite E7, E8, !map_length, length_cell_numbers.
  do 7 (split; [solve [auto]|]).
  split; [|split].
  - intros i Hi. rewrite !zget_map, zget_cell_numbers by auto. reflexivity.
  - intros i Hi. rewrite !zget_map, zget_cell_numbers by auto. reflexivity.
  - lia.
Qed.

Lemma grid_call_ginv np s g o : ginv np s g -> legal_call np s (Call o) ->
  exists g', grid_op o g = Some g' /\ ginv np (spec_call (Call o) s) g'.
Proof.
  intros (H1 & H2 & H3 & H4 & H5 & H6 & H7 & H8 & H9 & H10) Hl. simpl in Hl.
  destruct (grid_op_repr g _ np _ o H5 Hl) as (g' & E & Hr & (G1 & G2 & G3 & G4 & G5 & G6 & G7 & G8)).
  exists g'. split; auto. unfold ginv. cbn [spec_call st_box st_contents st_cellSize]. unfold st_n in *.
  cbn [st_box st_cellSize]. rewrite G1, G2, G3, G4, G5, G6, G7, G8. do 9 (split; [solve [auto]|]). auto.
Qed.

Lemma zget_firstn {A} (l : list A) k i : 0 <= i < Z.of_nat k -> zget (firstn k l) i = zget l i.
Proof.
  intros H. unfold zget. destruct (0 <=? i); auto.
  revert l i H. induction k as [|k IH]; intros l i H; [lia|].
  destruct l; auto. simpl. destruct (Z.to_nat i) eqn:E; auto. simpl.
  replace n with (Z.to_nat (i - 1)) by lia. apply IH. lia.
Qed.
Lemma zget_app1 {A} (l l' : list A) i : i < Z.of_nat (length l) -> zget (l ++ l') i = zget l i.
Proof. intros H. unfold zget. destruct (0 <=? i) eqn:E; auto. apply nth_error_app1. lia. Qed.
Lemma vresize_length {A} k (d : A) l : length (vresize k d l) = k.
Proof. unfold vresize. rewrite app_length, firstn_length, repeat_length. lia. Qed.
Lemma overwrite_length {A} (f o : list A) : (length f <= length (overwrite f o))%nat.
Proof. unfold overwrite. rewrite app_length. lia. Qed.

Lemma cleared_repr g nc np : length (g_succ g) = np -> nc <= Z.of_nat (length (g_heads g)) ->
  repr (grid_clear g) nc np empty_contents.
Proof.
  intros Hl Hh. apply empty_repr; unfold grid_clear; cbn [g_succ g_heads with_lists]; rewrite ?map_length; auto.
  intros c Hc. rewrite zget_map. destruct (zget_Some (g_heads g) c ltac:(lia)) as [x ->]. reflexivity.
Qed.

Lemma cvec_eqb_eq a b : cvec_eqb a b = true <-> a = b.
Proof.
  unfold cvec_eqb. split.
  - intros H. apply cvec_ext; lia.
  - intros ->. lia.
Qed.

Lemma div_of_inj n n' : div_of n = div_of n' <-> forall a, n a = n' a.
Proof.
  split.
  - intros H. assert (H1 := f_equal cx H). assert (H2 := f_equal cy H). assert (H3 := f_equal cz H).
    simpl in *. intros []; lia.
  - intros H. unfold div_of. rewrite !H. reflexivity.
Qed.
Lemma total_cells_div n n' : div_of n = div_of n' -> total_cells n = total_cells n'.
Proof. intros H. rewrite div_of_inj in H. unfold total_cells. rewrite !H. reflexivity. Qed.

Lemma resize_ginv np s g b cs : ginv np s g -> valid_setup b cs ->
  exists g' changed, grid_resize b cs g = Some (g', changed) /\ ginv np (NgState b cs empty_contents) g' /\
    (changed = false <-> forall a, cells_per_axis b cs a = st_n s a).
Proof.
  intros (H1 & H2 & H3 & H4 & H5 & H6 & H7 & H8 & H9 & H10 & H11) Hv.
  pose proof (valid_setup_npos _ _ Hv) as Hn. pose proof Hv as (Hb & Hc & Hh & Ht).
  unfold grid_resize. rewrite (setupSizes_valid _ _ Hv). set (n := cells_per_axis b cs) in *.
  destruct H5 as (Hl & Hhd & _).
  destruct (cvec_eqb (div_of n) (g_div g)) eqn:Ed.
  - apply cvec_eqb_eq in Ed. rewrite H3 in Ed. pose proof (total_cells_div _ _ Ed) as Et.
    eexists _, _. split; [reflexivity|]. split.
    + unfold ginv, st_n. cbn [st_box st_cellSize st_contents]. fold n.
      split; auto. cbn [grid_clear with_lists g_box g_div g_numCells g_translations g_transIdx g_reflected g_offsets g_posOffsets].
      split; auto. split; auto. split; auto.
      split. { apply cleared_repr; cbn [g_succ g_heads]; auto. rewrite Et; auto. }
      split; auto. rewrite Ed, Et. auto.
    + split; auto. intros _. apply div_of_inj; auto.
  - set (k := Z.to_nat (total_cells n)).
    pose proof (total_cells_pos n Hn) as Hp.
    pose proof (total_cells_pos (st_n s)) as Hps.
    assert (Hk : total_cells n = Z.of_nat k) by (unfold k; lia).
    set (grow := g_numCells g <? total_cells n).
    assert (Hlen : forall {A} (d : A) l, total_cells (st_n s) <= Z.of_nat (length l) ->
        (k <= length (if grow then vresize k d l else l))%nat).
    { intros A d l Hl'. unfold grow. destruct (g_numCells g <? total_cells n) eqn:Eg; [rewrite vresize_length; lia|].
      rewrite H4 in Eg. unfold k. lia. }
    pose proof (Hlen _ 0 (g_transIdx g) H10) as L1. pose proof (Hlen _ 0 (g_reflected g) H11) as L2.
    pose proof (Hlen _ (Some 0%nat) (g_heads g) Hhd) as L3.
    cbv zeta. rewrite (proj2 (Nat.leb_le _ _) L1), (proj2 (Nat.leb_le _ _) L2). cbn [andb].
    destruct (offsets_spec n Hn Ht) as (offs & pos & Eo & _). rewrite Eo.
    eexists _, _. split; [reflexivity|]. split.
    + unfold ginv, st_n. cbn [st_box st_cellSize st_contents]. fold n.
      split; auto. cbn [grid_clear with_lists g_box g_div g_numCells g_translations g_transIdx g_reflected g_offsets g_posOffsets].
      split; auto. split; auto. split; auto.
      split. { apply cleared_repr; cbn [g_succ g_heads]; auto. rewrite Hk at 1. lia. }
      split; auto. split; auto. split; [|split].
      * intros i Hi. unfold overwrite. rewrite zget_app1 by (rewrite !map_length, length_cell_numbers; lia).
        rewrite !zget_map, zget_cell_numbers by auto. reflexivity.
      * intros i Hi. unfold overwrite. rewrite zget_app1 by (rewrite !map_length, length_cell_numbers; lia).
        rewrite !zget_map, zget_cell_numbers by auto. reflexivity.
      * unfold overwrite. rewrite !app_length, !map_length, length_cell_numbers. lia.
    + split; [discriminate|]. intros E. apply div_of_inj in E. rewrite H3 in Ed.
      apply cvec_eqb_eq in E. congruence.
Qed.

Lemma calls_ginv np ks : forall s g, ginv np s g -> legal_calls np s ks ->
  exists g', grid_calls ks g = Some g' /\ ginv np (spec_calls ks s) g'.
Proof.
  induction ks as [|k ks IH]; intros s g Hg Hl; simpl in *.
  - eauto.
  - destruct Hl as [Hk Hl]. destruct k as [o|b cs].
    + destruct (grid_call_ginv np s g o Hg Hk) as (g' & E & Hg'). simpl. rewrite E. apply IH; auto.
    + destruct (resize_ginv np s g b cs Hg Hk) as (g' & ch & E & Hg' & _). simpl. rewrite E. simpl. apply IH; auto.
Qed.

Lemma history_ginv b cs np ks : valid_setup b cs -> legal_calls np (NgState b cs empty_contents) ks ->
  exists g, grid_after b cs np ks = Some g /\ ginv np (state_after b cs ks) g.
Proof.
  intros Hv Hl. destruct (grid_new_ginv b cs np Hv) as (g & E & Hg). unfold grid_after. rewrite E. apply calls_ginv; auto.
Qed.

(** ** Queries *)
Lemma ginv_list np s g c : ginv np s g -> 0 <= c < total_cells (st_n s) -> list_cell g c = Some (st_contents s c).
Proof. intros (_ & _ & _ & _ & Hr & _) Hc. eapply repr_list_cell; eauto. Qed.

Lemma ginv_npos np s g : ginv np s g -> npos (st_n s).
Proof. intros (Hv & _). exact (valid_setup_npos (st_box s) (st_cellSize s) Hv). Qed.

Lemma coord_ok_range np s g c : ginv np s g -> coord_ok g c = true <-> in_range (st_n s) c.
Proof.
  intros (_ & _ & H3 & _). unfold coord_ok, in_range. rewrite H3. unfold div_of; cbn [cx cy cz]. lia.
Qed.

Lemma image_bounds n c d : npos n -> in_range n c -> in_cube d ->
  let i := image_no n (cadd c d) in -1 <= cx i <= 1 /\ -1 <= cy i <= 1 /\ -1 <= cz i <= 1.
Proof.
  intros Hn (Hx & Hy & Hz) (Dx & Dy & Dz). pose proof (Hn AX). pose proof (Hn AY). pose proof (Hn AZ).
  assert (B : forall m e, 1 <= m -> -1 <= e <= m -> -1 <= e / m <= 1).
  { intros m e Hm He. pose proof (Z.div_mod e m). pose proof (Z.mod_pos_bound e m). split; nia. }
  unfold image_no, cadd; cbn [cx cy cz]. repeat split; apply B; lia.
Qed.

Lemma deref_spec np s g c d : ginv np s g -> in_range (st_n s) c -> in_cube d ->
  deref_offset g (real_cell_no (st_n s) c) (wrap64 (offset (div_of (st_n s)) d)) =
  Some (image_view (st_box s) (st_n s) (st_contents s) (cadd c d)).
Proof.
  intros Hg Hc Hd. pose proof (ginv_npos _ _ _ Hg) as Hn. pose proof Hg as (Hv & H2 & H3 & H4 & H5 & H6 & H7 & H8 & H9 & _).
  set (n := st_n s) in *.
  unfold deref_offset.
  assert (E : wrap64 (real_cell_no n c + wrap64 (offset (div_of n) d)) = coordinatesToCellNo (div_of n) (up1 (cadd c d))).
  { rewrite cellNo_offset. unfold wrap64. rewrite Z.add_mod_idemp_r by lia. apply Z.mod_small.
    rewrite <- cellNo_offset. pose proof (cellNo_range _ _ (in_range_cube_div n c d Hc Hd)).
    destruct Hv as (_ & _ & _ & Ht). unfold n, st_n, total_cells, div_of in *. simpl in *. lia. }
  rewrite E. pose proof (cellNo_range _ _ (in_range_cube_div n c d Hc Hd)) as Hr.
  assert (Hr' : 0 <= coordinatesToCellNo (div_of n) (up1 (cadd c d)) < total_cells n) by (unfold total_cells; simpl in *; lia).
  rewrite H8, H9 by auto. rewrite reflected_data by (auto using in_range_cube_div). cbn [fst snd].
  rewrite (ginv_list np s g) by (auto; apply real_cell_no_range, wrap_in_range; auto).
  rewrite H6. destruct (image_bounds n c d Hn Hc Hd) as (B1 & B2 & B3).
  rewrite translations_get by auto. reflexivity.
Qed.

Lemma map_opt_all {A B} (f : A -> option B) (h : A -> B) l : (forall x, In x l -> f x = Some (h x)) ->
  map_opt f l = Some (map h l).
Proof.
  induction l as [|x l IH]; intros H; simpl; auto. rewrite H by (simpl; auto). rewrite IH; auto. intros; apply H; simpl; auto.
Qed.
Lemma map_opt_perm {A B} (f : A -> option B) l l' r : Permutation l l' -> map_opt f l = Some r ->
  exists r', map_opt f l' = Some r' /\ Permutation r r'.
Proof.
  intros P. revert r. induction P; intros r H; simpl in *.
  - eauto.
  - destruct (f x); [|discriminate]. destruct (map_opt f l); [|discriminate]. injection H as <-.
    destruct (IHP _ eq_refl) as (r' & -> & Pr). eauto.
  - destruct (f x), (f y); try discriminate; destruct (map_opt f l); try discriminate.
    injection H as <-. eexists; split; [reflexivity|]. apply perm_swap.
  - destruct (IHP1 _ H) as (r1 & E1 & P1'). destruct (IHP2 _ E1) as (r2 & E2 & P2'). exists r2. split; auto.
    eapply perm_trans; eauto.
Qed.

Definition dirs (onlyPositive : bool) : list cvec := if onlyPositive then half_dirs else full_dirs.

Lemma dirs_cube op d : In d (dirs op) -> in_cube d.
Proof. destruct op; simpl; [apply half_dirs_half|apply in_full_dirs]. Qed.

Lemma neighbours_cell np s g c op : ginv np s g -> in_range (st_n s) c ->
  exists views, neighbours_of_cell g (real_cell_no (st_n s) c) op = Some views /\
    Permutation views (map (fun d => image_view (st_box s) (st_n s) (st_contents s) (cadd c d)) (dirs op)).
Proof.
  intros Hg Hc. pose proof (ginv_npos _ _ _ Hg) as Hn. pose proof Hg as (Hv & _ & _ & _ & _ & _ & H7 & _).
  destruct Hv as (_ & _ & _ & Ht).
  destruct (offsets_spec (st_n s) Hn Ht) as (offs & pos & Eo & P1 & P2). rewrite H7 in Eo. injection Eo as E1 E2.
  unfold neighbours_of_cell.
  assert (P : Permutation (map (fun d => wrap64 (offset (div_of (st_n s)) d)) (dirs op)) (if op then g_posOffsets g else g_offsets g)).
  { destruct op; simpl; [rewrite E2|rewrite E1]; apply Permutation_sym; auto. }
  assert (M : map_opt (deref_offset g (real_cell_no (st_n s) c)) (map (fun d => wrap64 (offset (div_of (st_n s)) d)) (dirs op)) =
              Some (map (fun d => image_view (st_box s) (st_n s) (st_contents s) (cadd c d)) (dirs op))).
  { assert (Hd : forall d, In d (dirs op) -> in_cube d) by apply dirs_cube.
    clear P. induction (dirs op) as [|d l IH]; simpl; auto.
    rewrite (deref_spec np) by (auto; apply Hd; simpl; auto). rewrite IH; auto. intros; apply Hd; simpl; auto. }
  destruct (map_opt_perm _ _ _ _ P M) as (r & E & Pr). exists r. split; auto. apply Permutation_sym; auto.
Qed.

(** Positions. *)
Lemma position_coord_in n r : 1 <= n -> (0 <= r < 1)%R -> position_coord (n + 2) r = Some (slice n r + 1).
Proof.
  intros Hn Hr. unfold position_coord, slice.
  assert (E1 : Rltb r 0 = false) by (apply Rltb_false; lra).
  assert (E2 : Rleb 1 r = false) by (apply Rleb_false; lra).
  rewrite E1, E2. do 2 f_equal. f_equal. replace (n + 2 - 2) with n by ring.
  assert (IZR n <> 0)%R by (apply IZR_neq; lia). field. auto.
Qed.
Lemma slice_range n r : 1 <= n -> (0 <= r < 1)%R -> 0 <= slice n r < n.
Proof.
  intros Hn Hr. unfold slice. assert (0 < IZR n)%R by (apply IZR_lt; lia). split.
  - apply Rfl_le. simpl. nra.
  - apply Rfl_lt. nra.
Qed.

Lemma position_no n np s g p : ginv np s g -> n = st_n s -> in_box (st_box s) p ->
  positionToCellNo g p = Some (real_cell_no n (slices n (absoluteToRelative (st_box s) p))) /\
  in_range n (slices n (absoluteToRelative (st_box s) p)).
Proof.
  intros Hg -> Hp. pose proof (ginv_npos _ _ _ Hg) as Hn. pose proof Hg as (_ & H2 & H3 & _).
  pose proof (Hn AX). pose proof (Hn AY). pose proof (Hn AZ).
  pose proof (Hp AX) as Hx. pose proof (Hp AY) as Hy. pose proof (Hp AZ) as Hz. simpl in Hx, Hy, Hz.
  unfold positionToCellNo. rewrite H2, H3. unfold div_of; cbn [cx cy cz].
  rewrite !position_coord_in by auto. split.
  - f_equal. unfold real_cell_no, slices; cbn [cx cy cz]. ring.
  - unfold in_range, slices; cbn [cx cy cz]. auto using slice_range.
Qed.

Lemma position_coord_clamped n r : 1 <= n -> (IZR n * EPSILON <= 1)%R -> (- EPSILON < r < 1 + EPSILON)%R ->
  position_coord (n + 2) r = Some (Z.max 0 (Z.min (n - 1) (slice n r)) + 1).
Proof.
  intros Hn He Hr.
  assert (Heps : (0 < EPSILON)%R) by (unfold EPSILON; lra).
  assert (Hnr : (1 <= IZR n)%R) by (apply IZR_le; lia).
  assert (Eq : forall x, (x / (1 / IZR (n + 2 - 2)) = IZR n * x)%R).
  { intros x. replace (n + 2 - 2) with n by ring. field. lra. }
  destruct (Rlt_dec r 0) as [H0|H0]; [|destruct (Rle_dec 1 r) as [H1|H1]].
  - unfold position_coord. rewrite (proj2 (Rltb_true r 0)), (proj2 (Rltb_true (- EPSILON) r)) by lra.
    rewrite Eq, Rmult_0_r, Rfl_IZR. f_equal. f_equal.
    assert (slice n r < 0); [|lia]. unfold slice. apply Rfl_lt. nra.
  - unfold position_coord. rewrite (proj2 (Rltb_false r 0)), (proj2 (Rleb_true 1 r)), (proj2 (Rltb_true r (1 + EPSILON))) by lra.
    rewrite Eq. f_equal. f_equal.
    assert (n <= slice n r) by (unfold slice; apply Rfl_le; nra).
    rewrite (Rfl_unique _ (n - 1)); [lia|]. rewrite minus_IZR. nra.
  - rewrite position_coord_in by lra || auto. f_equal. f_equal.
    pose proof (slice_range n r Hn ltac:(lra)). lia.
Qed.
Lemma position_clamped np s g p : ginv np s g ->
  (forall a, IZR (st_n s a) * EPSILON <= 1)%R ->
  (forall a, - EPSILON < vget (absoluteToRelative (st_box s) p) a < 1 + EPSILON)%R ->
  positionToCellNo g p = Some (real_cell_no (st_n s) (nearest_cell (st_n s) (cell_of s p))).
Proof.
  intros Hg He Hr. pose proof (ginv_npos _ _ _ Hg) as Hn. pose proof Hg as (_ & H2 & H3 & _).
  unfold positionToCellNo. rewrite H2, H3. unfold div_of; cbn [cx cy cz].
  pose proof (position_coord_clamped _ _ (Hn AZ) (He AZ) (Hr AZ)) as Ez. pose proof (position_coord_clamped _ _ (Hn AY) (He AY) (Hr AY)) as Ey.
  pose proof (position_coord_clamped _ _ (Hn AX) (He AX) (Hr AX)) as Ex. cbn [vget] in Ex, Ey, Ez. rewrite Ex, Ey, Ez.
  f_equal. unfold real_cell_no, nearest_cell, cell_of, slices; cbn [cx cy cz]. ring.
Qed.

(** A position is refused exactly when it is outside the box by at least the tolerance. *)
Lemma position_refused np s g p : ginv np s g ->
  (positionToCellNo g p = None <->
   exists a, vget (absoluteToRelative (st_box s) p) a <= - EPSILON \/ 1 + EPSILON <= vget (absoluteToRelative (st_box s) p) a)%R.
Proof.
  intros (_ & H2 & H3 & _). unfold positionToCellNo. rewrite H2, H3.
  set (r := absoluteToRelative (st_box s) p).
  assert (Heps : (0 < EPSILON)%R) by (unfold EPSILON; lra).
  assert (A : forall d x, position_coord d x = None <-> (x <= - EPSILON \/ 1 + EPSILON <= x)%R).
  { intros d x. unfold position_coord, Rltb, Rleb.
    destruct (Rlt_dec x 0).
    - destruct (Rlt_dec (- EPSILON) x); split; intros H; try discriminate; auto; try lra.
    - destruct (Rle_dec 1 x).
      + destruct (Rlt_dec x (1 + EPSILON)); split; intros H; try discriminate; auto; try lra.
      + split; intros H; try discriminate; lra. }
  destruct (position_coord (cz (div_of (st_n s))) (vz r)) eqn:Ez.
  2: { split; auto. intros _. exists AZ. apply A in Ez. exact Ez. }
  destruct (position_coord (cy (div_of (st_n s))) (vy r)) eqn:Ey.
  2: { split; auto. intros _. exists AY. apply A in Ey. exact Ey. }
  destruct (position_coord (cx (div_of (st_n s))) (vx r)) eqn:Ex.
  2: { split; auto. intros _. exists AX. apply A in Ex. exact Ex. }
  split; [discriminate|]. intros ([| |] & H); cbn [vget] in H.
  - apply (A (cx (div_of (st_n s)))) in H. congruence.
  - apply (A (cy (div_of (st_n s)))) in H. congruence.
  - apply (A (cz (div_of (st_n s)))) in H. congruence.
Qed.

(** ** Exactly once *)
Lemma pair_eq {A B} (a a' : A) (b b' : B) : (a, b) = (a', b') -> a = a' /\ b = b'.
Proof. intros H; inversion H; auto. Qed.

Lemma lattice_inj b c c' : valid_box b -> lattice b c = lattice b c' -> c = c'.
Proof.
  intros Hv E. unfold lattice in E. apply (f_equal (absoluteToRelative b)) in E. rewrite !a2r_lattice in E by auto.
  injection E as E1 E2 E3. apply eq_IZR in E1, E2, E3. apply cvec_ext; auto.
Qed.

Lemma view_pairs_perm v v' : Permutation v v' -> Permutation (view_pairs v) (view_pairs v').
Proof. intros P. unfold view_pairs. apply Permutation_flat_map, P. Qed.

Lemma in_view_pairs i t views : In (i, t) (view_pairs views) <-> exists ids, In (ids, t) views /\ In i ids.
Proof.
  unfold view_pairs. rewrite in_flat_map. split.
  - intros ([ids t'] & Hv & H). simpl in H. apply in_map_iff in H. destruct H as (j & E & Hj). injection E as -> ->. eauto.
  - intros (ids & Hv & Hi). exists (ids, t). split; auto. simpl. apply in_map_iff. eauto.
Qed.

Lemma NoDup_app_intro {A} (l l' : list A) : NoDup l -> NoDup l' -> (forall x, In x l -> In x l' -> False) -> NoDup (l ++ l').
Proof.
  induction l as [|x l IH]; simpl; auto. intros Hn Hn' Hd. inversion Hn; subst. constructor.
  - rewrite in_app_iff. intros [H|H]; eauto.
  - apply IH; auto. intros y Hy Hy'. eapply Hd; eauto.
Qed.

Lemma contents_disjoint np s g : ginv np s g ->
  (forall c, NoDup (st_contents s c)) /\ (forall c c' x, In x (st_contents s c) -> In x (st_contents s c') -> c = c').
Proof. intros (_ & _ & _ & _ & (_ & _ & _ & Hnd & Hd & _) & _). auto. Qed.

Lemma views_NoDup np s g c D : ginv np s g -> NoDup D ->
  NoDup (view_pairs (map (fun d => image_view (st_box s) (st_n s) (st_contents s) (cadd c d)) D)).
Proof.
  intros Hg Hn. pose proof (ginv_npos _ _ _ Hg) as Hp. destruct (contents_disjoint _ _ _ Hg) as [Hnd Hdj].
  pose proof Hg as ((Hb & _) & _). apply constructed_valid in Hb.
  induction D as [|d D IH]; simpl; [constructor|]. inversion Hn; subst. apply NoDup_app_intro; auto.
  - apply NoDup_map_inj_on; auto. intros x y _ _ E. congruence.
  - intros [i t] H Hin. apply in_map_iff in H. destruct H as (j & E & Hj). apply pair_eq in E. destruct E as [<- <-].
    apply in_view_pairs in Hin. destruct Hin as (ids & Hids & Hi). apply in_map_iff in Hids.
    destruct Hids as (d' & E & Hd'). unfold image_view in E. apply pair_eq in E. destruct E as [E1 E2].
    rewrite <- E1 in Hi. simpl in Hj.
    pose proof (Hdj _ _ _ Hj Hi) as Ec. apply real_cell_no_inj in Ec; auto using wrap_in_range.
    apply lattice_inj in E2; auto. pose proof (wrap_image_inj _ _ _ Hp Ec (eq_sym E2)) as E.
    assert (d = d').
    { apply (f_equal cx) in E as E3. apply (f_equal cy) in E as E4. apply (f_equal cz) in E as E5. simpl in *. apply cvec_ext; lia. }
    subst. contradiction.
Qed.

(** Which pairs are enumerated. *)
Lemma in_views_iff np s g c D i e L : ginv np s g -> in_range (st_n s) e -> In i (st_contents s (real_cell_no (st_n s) e)) ->
  (In (i, lattice (st_box s) L) (view_pairs (map (fun d => image_view (st_box s) (st_n s) (st_contents s) (cadd c d)) D)) <->
   In (cadd e (cadd (C3 (st_n s AX * cx L) (st_n s AY * cy L) (st_n s AZ * cz L)) (copp c))) D).
Proof.
  intros Hg He Hi. pose proof (ginv_npos _ _ _ Hg) as Hp. destruct (contents_disjoint _ _ _ Hg) as [Hnd Hdj].
  pose proof Hg as ((Hb & _) & _). apply constructed_valid in Hb.
  pose proof (Hp AX). pose proof (Hp AY). pose proof (Hp AZ).
  rewrite in_view_pairs. split.
  - intros (ids & Hids & Hin). apply in_map_iff in Hids. destruct Hids as (d & E & Hd). unfold image_view in E. apply pair_eq in E. destruct E as [E1 E2]. rewrite <- E1 in Hin. pose proof (Hdj _ _ _ Hi Hin) as Ec.
    apply real_cell_no_inj in Ec; auto using wrap_in_range. apply lattice_inj in E2; auto.
    pose proof (wrap_image (st_n s) (cadd c d) Hp) as Ew. rewrite <- Ec, E2 in Ew.
    assert (Ed : d = cadd e (cadd (C3 (st_n s AX * cx L) (st_n s AY * cy L) (st_n s AZ * cz L)) (copp c))).
    { apply (f_equal cx) in Ew as E3. apply (f_equal cy) in Ew as E4. apply (f_equal cz) in Ew as E5.
      simpl in *. apply cvec_ext; simpl; lia. }
    rewrite <- Ed. auto.
  - intros Hd. set (d := cadd e _) in Hd.
    exists (st_contents s (real_cell_no (st_n s) e)). split; auto. apply in_map_iff. exists d. split; auto.
    unfold image_view.
    assert (Ecd : cadd c d = C3 (cx e + st_n s AX * cx L) (cy e + st_n s AY * cy L) (cz e + st_n s AZ * cz L)).
    { unfold d. apply cvec_ext; simpl; ring. }
    destruct He as (Hx & Hy & Hz).
    assert (Ew : wrap_coord (st_n s) (cadd c d) = e).
    { rewrite Ecd. apply cvec_ext; simpl; symmetry.
      - apply Z.mod_unique_pos with (cx L); lia.
      - apply Z.mod_unique_pos with (cy L); lia.
      - apply Z.mod_unique_pos with (cz L); lia. }
    assert (Ei : image_no (st_n s) (cadd c d) = L).
    { rewrite Ecd. apply cvec_ext; simpl; symmetry.
      - apply Z.div_unique_pos with (cx e); lia.
      - apply Z.div_unique_pos with (cy e); lia.
      - apply Z.div_unique_pos with (cz e); lia. }
    rewrite Ew, Ei. reflexivity.
Qed.

(** ** Completeness *)
Lemma floor_close x y : (Rabs (x - y) <= 1)%R -> -1 <= Rfl x - Rfl y <= 1.
Proof.
  intros H. pose proof (Rfl_spec x). pose proof (Rfl_spec y).
  assert (H' : (-1 <= x - y <= 1)%R) by (unfold Rabs in H; destruct Rcase_abs; lra).
  assert (A : (IZR (Rfl x - Rfl y) < 2)%R) by (rewrite minus_IZR; lra).
  assert (B : (-2 < IZR (Rfl x - Rfl y))%R) by (rewrite minus_IZR; lra).
  apply lt_IZR in A, B. lia.
Qed.

Lemma close_cells b cs p q L : valid_setup b cs -> (vnorm (vsub (vadd q (lattice b L)) p) <= cs)%R ->
  forall a, let n := cells_per_axis b cs a in
    -1 <= slice n (vget (absoluteToRelative b q) a) + n * cget L a - slice n (vget (absoluteToRelative b p) a) <= 1.
Proof.
  intros Hv Hd a. pose proof (valid_setup_npos _ _ Hv a) as Hn. destruct Hv as (Hb & Hc & Hh & _).
  apply constructed_valid in Hb. cbv zeta. set (n := cells_per_axis b cs a) in *.
  assert (Hn' : (0 < IZR n)%R) by (apply IZR_lt; lia).
  pose proof (height_bound b a (vsub (vadd q (lattice b L)) p) Hb) as HB.
  pose proof (height_pos b a Hb) as Hpos.
  rewrite a2r_sub, a2r_add in HB. unfold lattice in HB, Hd. rewrite a2r_lattice in HB by auto.
  set (rq := vget (absoluteToRelative b q) a) in *. set (rp := vget (absoluteToRelative b p) a) in *.
  assert (Er : (vget (vsub (vadd (absoluteToRelative b q) (V3 (IZR (cx L)) (IZR (cy L)) (IZR (cz L)))) (absoluteToRelative b p)) a
               = rq + IZR (cget L a) - rp)%R) by (unfold rq, rp; destruct a; simpl; ring).
  rewrite Er in HB.
  (* n * cs <= height *)
  assert (Hnh : (IZR n * cs <= box_height b a)%R).
  { pose proof (Rfl_spec (box_height b a / cs)) as [F _]. fold (cells_per_axis b cs a) in F. fold n in F.
    apply (Rmult_le_compat_r cs) in F; [|lra]. unfold Rdiv in F. rewrite Rmult_assoc, Rinv_l in F by lra. lra. }
  assert (Hle : (Rabs (rq + IZR (cget L a) - rp) * IZR n <= 1)%R).
  { set (t := Rabs (rq + IZR (cget L a) - rp)) in *. assert (0 <= t)%R by apply Rabs_pos.
    assert (t * box_height b a <= cs)%R by lra.
    assert (t * (IZR n * cs) <= cs)%R by (apply Rle_trans with (t * box_height b a)%R; [apply Rmult_le_compat_l|]; lra).
    apply (Rmult_le_reg_r cs); auto. replace (t * IZR n * cs)%R with (t * (IZR n * cs))%R by ring. lra. }
  unfold slice.
  replace (Rfl (IZR n * rq) + n * cget L a)%Z with (Rfl (IZR n * rq + IZR (n * cget L a))) by apply Rfl_add_Z.
  apply floor_close. rewrite mult_IZR.
  replace (IZR n * rq + IZR n * IZR (cget L a) - IZR n * rp)%R with ((rq + IZR (cget L a) - rp) * IZR n)%R by ring.
  rewrite Rabs_mult, (Rabs_right (IZR n)) by lra. exact Hle.
Qed.

(** ** Properties *)

Lemma ng_contents b cs np ks : valid_setup b cs -> legal_calls np (NgState b cs empty_contents) ks ->
  exists g, grid_after b cs np ks = Some g /\
    let s := state_after b cs ks in
    (forall a, cget (getCellDivisions g) a = st_n s a) /\
    (forall c, in_range (st_n s) c -> getCellAt g c = Some (st_contents s (real_cell_no (st_n s) c))) /\
    (forall c, ~ in_range (st_n s) c -> getCellAt g c = None) /\
    (forall p, in_box (st_box s) p ->
       getCell g p = Some (st_contents s (real_cell_no (st_n s) (cell_of s p)))).
Proof.
  intros Hv Hl. destruct (history_ginv b cs np ks Hv Hl) as (g & E & Hg). exists g. split; auto. cbv zeta.
  set (s := state_after b cs ks) in *. pose proof Hg as (_ & _ & H3 & _).
  split; [|split; [|split]].
  - intros a. unfold getCellDivisions. rewrite H3. unfold div_of. destruct a; cbn [cx cy cz cget]; ring.
  - intros c Hc. unfold getCellAt. rewrite (proj2 (coord_ok_range np s g c Hg)) by auto.
    rewrite H3, realCoordinates_no. apply (ginv_list np); auto. apply real_cell_no_range; auto.
  - intros c Hc. unfold getCellAt. destruct (coord_ok g c) eqn:Ec; auto.
    apply (coord_ok_range np s g c Hg) in Ec. contradiction.
  - intros p Hp. unfold getCell. destruct (position_no _ np s g p Hg eq_refl Hp) as [-> Hr].
    apply (ginv_list np); auto. apply real_cell_no_range; auto.
Qed.

Lemma ng_positions b cs np ks : valid_setup b cs -> legal_calls np (NgState b cs empty_contents) ks ->
  exists g, grid_after b cs np ks = Some g /\
    let s := state_after b cs ks in
    (forall idx p, in_box (st_box s) p ->
       grid_add idx p g = grid_op (OpAdd idx (real_cell_no (st_n s) (cell_of s p))) g /\
       grid_remove idx p g = grid_op (OpRemove idx (real_cell_no (st_n s) (cell_of s p))) g) /\
    (forall idx p, (forall a, IZR (st_n s a) * EPSILON <= 1)%R ->
       (forall a, - EPSILON < vget (absoluteToRelative (st_box s) p) a < 1 + EPSILON)%R ->
       let c := real_cell_no (st_n s) (nearest_cell (st_n s) (cell_of s p)) in
       grid_add idx p g = grid_op (OpAdd idx c) g /\ grid_remove idx p g = grid_op (OpRemove idx c) g) /\
    (forall idx p, (exists a, vget (absoluteToRelative (st_box s) p) a <= - EPSILON \/
                              1 + EPSILON <= vget (absoluteToRelative (st_box s) p) a)%R ->
       grid_add idx p g = None /\ grid_remove idx p g = None /\ getCell g p = None /\
       getNeighbouringCells g p true = None /\ getNeighbouringCells g p false = None).
Proof.
  intros Hv Hl. destruct (history_ginv b cs np ks Hv Hl) as (g & E & Hg). exists g. split; auto. cbv zeta.
  set (s := state_after b cs ks) in *. split; [|split].
  - intros idx p Hp. unfold grid_add, grid_remove. destruct (position_no _ np s g p Hg eq_refl Hp) as [-> Hr]. split; reflexivity.
  - intros idx p He Hp. unfold grid_add, grid_remove. rewrite (position_clamped np s g p Hg He Hp). split; reflexivity.
  - intros idx p Hp. apply (position_refused np s g p Hg) in Hp. unfold grid_add, grid_remove, getCell, getNeighbouringCells.
    rewrite Hp. auto.
Qed.

Lemma ng_neighbours b cs np ks : valid_setup b cs -> legal_calls np (NgState b cs empty_contents) ks ->
  exists g, grid_after b cs np ks = Some g /\
    let s := state_after b cs ks in
    (forall c op, in_range (st_n s) c -> exists views, getNeighbouringCellsAt g c op = Some views /\
       Permutation views (map (fun d => image_view (st_box s) (st_n s) (st_contents s) (cadd c d)) (dirs op)) /\
       NoDup (view_pairs views)) /\
    (forall p op, in_box (st_box s) p -> exists views, getNeighbouringCells g p op = Some views /\
       getNeighbouringCellsAt g (cell_of s p) op = Some views) /\
    (forall p, in_box (st_box s) p -> exists views ids, getNeighbouringCells g p false = Some views /\
       getNeighbours g p = Some ids /\ ids = map fst (view_pairs views)).
Proof.
  intros Hv Hl. destruct (history_ginv b cs np ks Hv Hl) as (g & E & Hg). exists g. split; auto. cbv zeta.
  set (s := state_after b cs ks) in *. pose proof Hg as (_ & _ & H3 & _).
  assert (A : forall c op, in_range (st_n s) c -> exists views, getNeighbouringCellsAt g c op = Some views /\
       Permutation views (map (fun d => image_view (st_box s) (st_n s) (st_contents s) (cadd c d)) (dirs op)) /\
       NoDup (view_pairs views)).
  { intros c op Hc. unfold getNeighbouringCellsAt. rewrite (proj2 (coord_ok_range np s g c Hg)) by auto.
    rewrite H3, realCoordinates_no. destruct (neighbours_cell np s g c op Hg Hc) as (views & -> & P).
    exists views. split; auto. split; auto.
    eapply Permutation_NoDup; [apply Permutation_sym, view_pairs_perm, P|]. apply (views_NoDup np s g); auto.
    destruct op; [apply NoDup_half_dirs|apply NoDup_full_dirs]. }
  assert (B : forall p op, in_box (st_box s) p -> exists views, getNeighbouringCells g p op = Some views /\
       getNeighbouringCellsAt g (cell_of s p) op = Some views).
  { intros p op Hp. destruct (position_no _ np s g p Hg eq_refl Hp) as [Ep Hr]. unfold getNeighbouringCells. rewrite Ep.
    destruct (A (cell_of s p) op Hr) as (views & Ev & _). exists views. rewrite Ev. split; auto.
    unfold getNeighbouringCellsAt in Ev. rewrite (proj2 (coord_ok_range np s g _ Hg)) in Ev by auto.
    rewrite H3, realCoordinates_no in Ev. exact Ev. }
  split; [|split]; auto.
  intros p Hp. destruct (B p false Hp) as (views & Ev & _). exists views. unfold getNeighbours. rewrite Ev.
  eexists. split; auto. split; auto. unfold view_pairs. rewrite flat_map_concat_map, concat_map, !map_map. f_equal.
  apply map_ext. intros [ids t]. simpl. rewrite map_map. simpl. symmetry. apply map_id.
Qed.

Lemma ng_complete b cs np ks p q i L : valid_setup b cs -> legal_calls np (NgState b cs empty_contents) ks ->
  let s := state_after b cs ks in
  in_box (st_box s) p -> in_box (st_box s) q ->
  In i (st_contents s (real_cell_no (st_n s) (cell_of s q))) ->
  is_lattice_vector (st_box s) L -> (vnorm (vsub (vadd q L) p) <= st_cellSize s)%R ->
  exists g views, grid_after b cs np ks = Some g /\ getNeighbouringCells g p false = Some views /\
    In (i, L) (view_pairs views) /\ NoDup (view_pairs views).
Proof.
  intros Hv Hl s Hp Hq Hi (x & y & z & ->) Hd.
  destruct (history_ginv b cs np ks Hv Hl) as (g0 & E0 & Hg).
  destruct (ng_neighbours b cs np ks Hv Hl) as (g & E & A & B & _). fold s in A, B, Hg.
  rewrite E in E0. injection E0 as <-.
  destruct (B p false Hp) as (views & Ev & Ev'). exists g, views. split; auto. split; auto.
  destruct (position_no _ np s g p Hg eq_refl Hp) as [_ Hrp]. destruct (position_no _ np s g q Hg eq_refl Hq) as [_ Hrq].
  destruct (A (cell_of s p) false Hrp) as (views' & Ev2 & P & Hnd). rewrite Ev2 in Ev'. injection Ev' as ->.
  split; auto. eapply Permutation_in; [apply Permutation_sym, view_pairs_perm, P|].
  change (lattice_vector (st_box s) x y z) with (lattice (st_box s) (C3 x y z)).
  apply (in_views_iff np s g _ _ i (cell_of s q) (C3 x y z) Hg Hrq Hi). simpl. apply in_full_dirs.
  pose proof Hg as (Hv' & _).
  pose proof (close_cells _ _ p q (C3 x y z) Hv' Hd) as Hcl. cbv zeta in Hcl.
  pose proof (Hcl AX). pose proof (Hcl AY). pose proof (Hcl AZ). clear Hcl.
  unfold in_cube, cell_of, slices, cadd, copp. cbn [cx cy cz cget vget] in *. fold (st_n s) in *. lia.
Qed.

Lemma ng_half b cs np ks : valid_setup b cs -> legal_calls np (NgState b cs empty_contents) ks ->
  exists g, grid_after b cs np ks = Some g /\
    let s := state_after b cs ks in
    forall c1 c2 i j L, in_range (st_n s) c1 -> in_range (st_n s) c2 ->
      In i (st_contents s (real_cell_no (st_n s) c1)) -> In j (st_contents s (real_cell_no (st_n s) c2)) ->
      exists v1 v2 w1 w2,
        getNeighbouringCellsAt g c1 true = Some v1 /\ getNeighbouringCellsAt g c2 true = Some v2 /\
        getNeighbouringCellsAt g c1 false = Some w1 /\ getNeighbouringCellsAt g c2 false = Some w2 /\
        (* symmetry of the full enumeration *)
        (In (j, lattice (st_box s) L) (view_pairs w1) <-> In (i, lattice (st_box s) (copp L)) (view_pairs w2)) /\
        (* the half enumeration reports a pair of distinct neighbouring cells from exactly one side *)
        ((c1, C3 0 0 0) <> (c2, L) -> In (j, lattice (st_box s) L) (view_pairs w1) ->
           (In (j, lattice (st_box s) L) (view_pairs v1) <-> ~ In (i, lattice (st_box s) (copp L)) (view_pairs v2))) /\
        (* and nothing else, in particular not the cell itself *)
        (In (j, lattice (st_box s) L) (view_pairs v1) ->
           In (j, lattice (st_box s) L) (view_pairs w1) /\ (c1, C3 0 0 0) <> (c2, L)).
Proof.
  intros Hv Hl. destruct (history_ginv b cs np ks Hv Hl) as (g0 & E0 & Hg).
  destruct (ng_neighbours b cs np ks Hv Hl) as (g & E & A & _). rewrite E in E0. injection E0 as <-.
  exists g. split; auto. cbv zeta. set (s := state_after b cs ks) in *.
  intros c1 c2 i j L H1 H2 Hi Hj.
  destruct (A c1 true H1) as (v1 & E1 & P1 & _). destruct (A c2 true H2) as (v2 & E2 & P2 & _).
  destruct (A c1 false H1) as (w1 & E3 & P3 & _). destruct (A c2 false H2) as (w2 & E4 & P4 & _).
  exists v1, v2, w1, w2. do 4 (split; auto).
  set (n := st_n s) in *.
  set (d := cadd c2 (cadd (C3 (n AX * cx L) (n AY * cy L) (n AZ * cz L)) (copp c1))).
  assert (Hw1 : In (j, lattice (st_box s) L) (view_pairs w1) <-> In d full_dirs).
  { etransitivity; [|exact (in_views_iff np s g c1 full_dirs j c2 L Hg H2 Hj)].
    split; apply Permutation_in; [|apply Permutation_sym]; apply view_pairs_perm, P3. }
  assert (Hv1 : In (j, lattice (st_box s) L) (view_pairs v1) <-> In d half_dirs).
  { etransitivity; [|exact (in_views_iff np s g c1 half_dirs j c2 L Hg H2 Hj)].
    split; apply Permutation_in; [|apply Permutation_sym]; apply view_pairs_perm, P1. }
  assert (Ed : copp d = cadd c1 (cadd (C3 (n AX * cx (copp L)) (n AY * cy (copp L)) (n AZ * cz (copp L))) (copp c2))).
  { unfold d. apply cvec_ext; simpl; ring. }
  assert (Hw2 : In (i, lattice (st_box s) (copp L)) (view_pairs w2) <-> In (copp d) full_dirs).
  { rewrite Ed. etransitivity; [|exact (in_views_iff np s g c2 full_dirs i c1 (copp L) Hg H1 Hi)].
    split; apply Permutation_in; [|apply Permutation_sym]; apply view_pairs_perm, P4. }
  assert (Hv2 : In (i, lattice (st_box s) (copp L)) (view_pairs v2) <-> In (copp d) half_dirs).
  { rewrite Ed. etransitivity; [|exact (in_views_iff np s g c2 half_dirs i c1 (copp L) Hg H1 Hi)].
    split; apply Permutation_in; [|apply Permutation_sym]; apply view_pairs_perm, P2. }
  assert (Hd0 : d = C3 0 0 0 <-> (c1, C3 0 0 0) = (c2, L)).
  { pose proof (ginv_npos _ _ _ Hg) as Hp. pose proof (Hp AX). pose proof (Hp AY). pose proof (Hp AZ).
    split; intros Eq.
    - apply (f_equal cx) in Eq as Q1. apply (f_equal cy) in Eq as Q2. apply (f_equal cz) in Eq as Q3.
      unfold d in Q1, Q2, Q3; simpl in Q1, Q2, Q3. destruct H1 as (R1 & R2 & R3), H2 as (S1 & S2 & S3).
      fold n in R1, R2, R3, S1, S2, S3, H, H0, H3.
      assert (cx L = 0) by nia. assert (cy L = 0) by nia. assert (cz L = 0) by nia.
      assert (c1 = c2) by (apply cvec_ext; nia). subst c2.
      f_equal. apply cvec_ext; simpl; lia.
    - inversion Eq; subst. unfold d. apply cvec_ext; simpl; ring. }
  rewrite Hw1, Hv1, Hw2, Hv2, <- Hd0, !in_full_dirs. destruct half_dirs_half as (_ & Hin & H0 & Hx).
  split; [|split].
  - unfold in_cube, copp; cbn [cx cy cz]. lia.
  - intros Hne Hc. apply Hx; auto.
  - intros Hh. split; auto. intros Ez. rewrite Ez in Hh. contradiction.
Qed.

Lemma ginv_queries np s g g' : ginv np s g -> ginv np s g' ->
  (forall c, getCellAt g c = getCellAt g' c) /\ (forall p, in_box (st_box s) p -> getCell g p = getCell g' p) /\
  (forall c op, getNeighbouringCellsAt g c op = getNeighbouringCellsAt g' c op) /\
  (forall p op, in_box (st_box s) p -> getNeighbouringCells g p op = getNeighbouringCells g' p op) /\
  (forall p, in_box (st_box s) p -> getNeighbours g p = getNeighbours g' p) /\
  (forall p, positionToCellNo g p = positionToCellNo g' p) /\
  getCellDivisions g = getCellDivisions g'.
Proof.
  intros Hg Hg'. pose proof Hg as (_ & A2 & A3 & A4 & A5 & A6 & A7 & _). pose proof Hg' as (_ & B2 & B3 & B4 & B5 & B6 & B7 & _).
  rewrite A7 in B7. injection B7 as Eo Ep.
  pose proof (ginv_npos _ _ _ Hg) as Hn. pose proof Hg as ((_ & _ & _ & Ht) & _).
  destruct (offsets_spec (st_n s) Hn Ht) as (offs & pos & Eoff & P1 & P2). rewrite A7 in Eoff. injection Eoff as F1 F2.
  assert (Nb : forall c op, in_range (st_n s) c -> neighbours_of_cell g (real_cell_no (st_n s) c) op =
                             neighbours_of_cell g' (real_cell_no (st_n s) c) op).
  { intros c op Hc. unfold neighbours_of_cell. rewrite <- Eo, <- Ep.
    assert (Hall : forall o, In o (if op then g_posOffsets g else g_offsets g) ->
      deref_offset g (real_cell_no (st_n s) c) o = deref_offset g' (real_cell_no (st_n s) c) o).
    { intros o Ho. assert (Hex : exists d, in_cube d /\ o = wrap64 (offset (div_of (st_n s)) d)).
      { destruct op.
        - rewrite F2 in Ho. eapply Permutation_in in Ho; [|exact P2]. apply in_map_iff in Ho.
          destruct Ho as (d & <- & Hd). exists d. split; auto. apply half_dirs_half; auto.
        - rewrite F1 in Ho. eapply Permutation_in in Ho; [|exact P1]. apply in_map_iff in Ho.
          destruct Ho as (d & <- & Hd). exists d. split; auto. apply in_full_dirs; auto. }
      destruct Hex as (d & Hd & ->). rewrite (deref_spec np s g), (deref_spec np s g'); auto. }
    induction (if op then g_posOffsets g else g_offsets g) as [|o l IH]; simpl; auto.
    rewrite Hall by (simpl; auto). rewrite IH; auto. intros; apply Hall; simpl; auto. }
  assert (Pos : forall p, positionToCellNo g p = positionToCellNo g' p).
  { intros p. unfold positionToCellNo. rewrite A2, A3, B2, B3. reflexivity. }
  assert (Ok : forall c, coord_ok g c = coord_ok g' c) by (intros c; unfold coord_ok; rewrite A3, B3; reflexivity).
  assert (NP : forall p op, in_box (st_box s) p -> getNeighbouringCells g p op = getNeighbouringCells g' p op).
  { intros p op Hp. unfold getNeighbouringCells. rewrite <- Pos. destruct (position_no _ np s g p Hg eq_refl Hp) as [-> Hr].
    apply Nb; auto. }
  split; [|split; [|split; [|split; [|split; [|split]]]]]; auto.
  - intros c. unfold getCellAt. rewrite <- Ok. destruct (coord_ok g c) eqn:Ec; auto.
    apply (coord_ok_range np s g c Hg) in Ec. rewrite A3, B3, realCoordinates_no.
    rewrite (ginv_list np s g), (ginv_list np s g'); auto; apply real_cell_no_range; auto.
  - intros p Hp. unfold getCell. rewrite <- Pos. destruct (position_no _ np s g p Hg eq_refl Hp) as [-> Hr].
    rewrite (ginv_list np s g), (ginv_list np s g'); auto; apply real_cell_no_range; auto.
  - intros c op. unfold getNeighbouringCellsAt. rewrite <- Ok. destruct (coord_ok g c) eqn:Ec; auto.
    apply (coord_ok_range np s g c Hg) in Ec. rewrite A3, B3, realCoordinates_no. apply Nb; auto.
  - intros p Hp. unfold getNeighbours. rewrite NP; auto.
  - unfold getCellDivisions. rewrite A3, B3. reflexivity.
Qed.

Lemma spec_calls_app ks ks' s : spec_calls (ks ++ ks') s = spec_calls ks' (spec_calls ks s).
Proof. unfold spec_calls. apply fold_left_app. Qed.
Lemma legal_calls_app np ks ks' s : legal_calls np s (ks ++ ks') <-> legal_calls np s ks /\ legal_calls np (spec_calls ks s) ks'.
Proof.
  revert s. induction ks as [|k ks IH]; intros s; simpl; [tauto|]. rewrite IH. simpl. tauto.
Qed.
Lemma grid_calls_app ks ks' g : grid_calls (ks ++ ks') g = match grid_calls ks g with Some g' => grid_calls ks' g' | None => None end.
Proof. revert g. induction ks as [|k ks IH]; intros g; simpl; auto. destruct (grid_call k g); auto. Qed.

Lemma ng_resize b cs np ks b' cs' ks' : valid_setup b cs -> legal_calls np (NgState b cs empty_contents) ks ->
  valid_setup b' cs' -> legal_calls np (NgState b' cs' empty_contents) ks' ->
  exists g fresh, grid_after b cs np (ks ++ [Resize b' cs'] ++ ks') = Some g /\ grid_after b' cs' np ks' = Some fresh /\
    (forall c, getCellAt g c = getCellAt fresh c) /\ (forall p, in_box (st_box (state_after b' cs' ks')) p -> getCell g p = getCell fresh p) /\
    (forall c op, getNeighbouringCellsAt g c op = getNeighbouringCellsAt fresh c op) /\
    (forall p op, in_box (st_box (state_after b' cs' ks')) p -> getNeighbouringCells g p op = getNeighbouringCells fresh p op) /\
    (forall p, in_box (st_box (state_after b' cs' ks')) p -> getNeighbours g p = getNeighbours fresh p) /\
    (forall p, positionToCellNo g p = positionToCellNo fresh p) /\
    getCellDivisions g = getCellDivisions fresh.
Proof.
  intros Hv Hl Hv' Hl'.
  assert (L : legal_calls np (NgState b cs empty_contents) (ks ++ [Resize b' cs'] ++ ks')).
  { apply legal_calls_app. split; auto. simpl. split; auto. }
  destruct (history_ginv _ _ _ _ Hv L) as (g & E & Hg). destruct (history_ginv _ _ _ _ Hv' Hl') as (f & E' & Hf).
  exists g, f. split; auto. split; auto. apply (ginv_queries np (state_after b' cs' ks')); auto.
  unfold state_after in Hg. rewrite spec_calls_app in Hg. exact Hg.
Qed.

Lemma ng_resize_result b cs np ks b' cs' : valid_setup b cs -> legal_calls np (NgState b cs empty_contents) ks ->
  valid_setup b' cs' ->
  exists g g' changed, grid_after b cs np ks = Some g /\ grid_resize b' cs' g = Some (g', changed) /\
    (changed = false <-> getCellDivisions g' = getCellDivisions g).
Proof.
  intros Hv Hl Hv'. destruct (history_ginv _ _ _ _ Hv Hl) as (g & E & Hg).
  destruct (resize_ginv np _ g b' cs' Hg Hv') as (g' & ch & E' & Hg' & Hch).
  exists g, g', ch. split; auto. split; auto. rewrite Hch. unfold getCellDivisions.
  pose proof Hg as (_ & _ & A3 & _). pose proof Hg' as (_ & _ & B3 & _). rewrite A3, B3. unfold div_of, st_n.
  cbn [st_box st_cellSize cx cy cz]. split.
  - intros H. rewrite !H. reflexivity.
  - intros H. injection H as H1 H2 H3. unfold st_n in *. intros []; lia.
Qed.

(** ** A concrete box *)
Lemma cube_box : exists b, box_cuboid 10 10 10 = Some b /\ valid_setup b 3 /\ (forall a, cells_per_axis b 3 a = 3).
Proof.
  unfold box_cuboid.
  assert (D : mdet (M33 10 0 0 0 10 0 0 0 10) <> 0%R) by (unfold mdet, mminor; simpl; lra).
  destruct (box_of_matrix (M33 10 0 0 0 10 0 0 0 10)) as [b|] eqn:E.
  2: { unfold box_of_matrix in E. destruct (minverse _) eqn:Em; [discriminate|]. apply minverse_None in Em. contradiction. }
  exists b. split; auto. apply box_of_matrix_valid in E. destruct E as [Hb Hd].
  assert (Hh : forall a, box_height b a = 10%R).
  { intros a. unfold box_height. rewrite volume_det, Hd.
    assert (Es : forall a, box_side b a = match a with AX => V3 10 0 0 | AY => V3 0 10 0 | AZ => V3 0 0 10 end).
    { intros []; unfold box_side, relativeToAbsolute; rewrite Hd; unfold mvec; simpl; apply vec_ext; simpl; ring. }
    assert (Ev : Rabs (mdet (M33 10 0 0 0 10 0 0 0 10)) = 1000%R)
      by (unfold mdet, mminor; simpl; rewrite Rabs_right; lra).
    assert (Ef : vnorm (box_face b a) = 100%R).
    { unfold vnorm. assert (En : vnorm2 (box_face b a) = (100 * 100)%R)
        by (destruct a; unfold box_face; rewrite !Es; unfold vnorm2, vdot, vcross; simpl; ring).
      rewrite En. apply sqrt_square. lra. }
    rewrite Ev, Ef. lra. }
  assert (Hn : forall a, cells_per_axis b 3 a = 3).
  { intros a. unfold cells_per_axis. rewrite Hh. apply Rfl_unique. simpl. lra. }
  split; auto. split; [apply constructed_valid; auto|]. split; [lra|]. split.
  - intros a. rewrite Hh. lra.
  - unfold total_cells. rewrite !Hn. reflexivity.
Qed.

Lemma cube_history b : (forall a, cells_per_axis b 3 a = 3) ->
  legal_calls 5 (NgState b 3 empty_contents)
    [Call (OpAdd 4 31); Call (OpAdd 2 31); Call (OpAdd 0 93); Call (OpRemove 4 31); Call (OpAdd 4 93)].
Proof.
  intros Hn. simpl. unfold st_n, total_cells; simpl. rewrite !Hn. simpl.
  unfold empty_contents.
  repeat (split; try lia); intros; repeat match goal with |- context [Z.eqb ?a ?b] => destruct (Z.eqb_spec a b) end;
    simpl; intuition lia.
Qed.

Lemma ng_views b cs np ks : valid_setup b cs -> legal_calls np (NgState b cs empty_contents) ks ->
  exists g, grid_after b cs np ks = Some g /\
    let s := state_after b cs ks in
    (exists Full Half, full_cube Full /\ half_cube Half /\
      forall c op, in_range (st_n s) c -> exists views, getNeighbouringCellsAt g c op = Some views /\
       Permutation views (map (fun d => image_view (st_box s) (st_n s) (st_contents s) (cadd c d)) (if op : bool then Half else Full)) /\
       NoDup (view_pairs views)) /\
    (forall c op, ~ in_range (st_n s) c -> getNeighbouringCellsAt g c op = None) /\
    (forall p op, in_box (st_box s) p -> exists views, getNeighbouringCells g p op = Some views /\
       getNeighbouringCellsAt g (cell_of s p) op = Some views) /\
    (forall p, in_box (st_box s) p -> exists views, getNeighbouringCells g p false = Some views /\
       getNeighbours g p = Some (map fst (view_pairs views))).
Proof.
  intros Hv Hl. destruct (history_ginv b cs np ks Hv Hl) as (g0 & E0 & Hg).
  destruct (ng_neighbours b cs np ks Hv Hl) as (g & E & A & B & C). rewrite E in E0. injection E0 as <-.
  exists g. split; auto. cbv zeta in *. split; [|split; [|split]]; auto.
  - exists full_dirs, half_dirs. split; [apply full_dirs_full|]. split; [apply half_dirs_half|]. exact A.
  - intros c op Hc. unfold getNeighbouringCellsAt. destruct (coord_ok g c) eqn:Ec; auto.
    apply (coord_ok_range np _ g c Hg) in Ec. contradiction.
  - intros p Hp. destruct (C p Hp) as (v & ids & H1 & H2 & ->). eauto.
Qed.
