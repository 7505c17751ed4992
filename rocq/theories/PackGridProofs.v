(** Building and updating the neighbour grid of a packing. *)
From Coq Require Import Reals ZArith List Bool Lia Lra Psatz Permutation.
From Verif Require Import GeomModel BoxModel BoxSpec RFloorModel PbcModel PbcSpec NGModel NGSpec GeomProofs BoxProofs RFloorProofs PbcProofs NGListProofs NGGeomProofs NGProofs.
From Verif Require Import PackModel PackSpec PackSumProofs.
Import ListNotations.
Open Scope Z_scope.

(** *** The number of cells *)
Lemma hadamard a b c : (Rabs (vdot a (vcross b c)) <= vnorm a * (vnorm b * vnorm c))%R.
Proof.
  eapply Rle_trans; [apply cauchy_schwarz|]. apply Rmult_le_compat_l; [apply vnorm_nonneg|].
  rewrite <- (sqrt_square (vnorm b * vnorm c)) by (apply Rmult_le_pos; apply vnorm_nonneg).
  unfold vnorm at 1. apply sqrt_le_1_alt.
  replace (vnorm b * vnorm c * (vnorm b * vnorm c))%R with ((vnorm b * vnorm b) * (vnorm c * vnorm c))%R by ring.
  rewrite !vnorm_sqr. pose proof (lagrange b c). pose proof (Rle_0_sqr (vdot b c)). unfold Rsqr in *. lra.
Qed.
Lemma cross_identity a b c :
  vdot (vcross b c) (vcross (vcross c a) (vcross a b)) = (vdot a (vcross b c) * vdot a (vcross b c))%R.
Proof. unfold vdot, vcross; simpl. ring. Qed.
Lemma vnorm_vneg v : vnorm (vneg v) = vnorm v.
Proof. unfold vnorm, vnorm2, vdot, vneg; simpl. f_equal. ring. Qed.
Lemma volume_heights b : valid_box b -> (box_height b AX * box_height b AY * box_height b AZ <= box_volume b)%R.
Proof.
  intros Hv. pose proof (volume_pos b Hv) as HV.
  pose proof (height_area b AX Hv) as Ax. pose proof (height_area b AY Hv) as Ay. pose proof (height_area b AZ Hv) as Az.
  pose proof (height_pos b AX Hv) as Hx. pose proof (height_pos b AY Hv) as Hy. pose proof (height_pos b AZ Hv) as Hz.
  set (x := vnorm (box_face b AX)) in *. set (y := vnorm (box_face b AY)) in *. set (z := vnorm (box_face b AZ)) in *.
  set (V := box_volume b) in *.
  assert (Hxyz : (V * V <= x * (y * z))%R).
  { pose proof (hadamard (box_face b AX) (box_face b AY) (box_face b AZ)) as H. fold x y z in H.
    eapply Rle_trans; [|exact H]. unfold box_face.
    rewrite cross_identity. rewrite Rabs_mult. fold V.
    assert (E : Rabs (vdot (box_side b AX) (vcross (box_side b AY) (box_side b AZ))) = V).
    { unfold V, box_volume. f_equal. unfold vdot, vcross; simpl. ring. }
    rewrite E. lra. }
  assert (Px : (0 < x)%R) by (apply vnorm_pos, face_nonzero, Hv).
  assert (Py : (0 < y)%R) by (apply vnorm_pos, face_nonzero, Hv).
  assert (Pz : (0 < z)%R) by (apply vnorm_pos, face_nonzero, Hv).
  assert (E : (box_height b AX * box_height b AY * box_height b AZ * (x * (y * z)) = V * V * V)%R).
  { rewrite <- Ax at 1. rewrite <- Ay at 1. rewrite <- Az at 1. ring. }
  set (P := (box_height b AX * box_height b AY * box_height b AZ)%R) in *.
  assert (HP : (0 < P)%R) by (unfold P; apply Rmult_lt_0_compat; [apply Rmult_lt_0_compat|]; auto).
  apply Rmult_le_reg_r with (V * V)%R; [nra|]. nra.
Qed.
Lemma cbrt_cube x : (0 < x)%R -> (cbrt x * cbrt x * cbrt x = x)%R.
Proof.
  intros Hx. unfold cbrt. rewrite <- !Rpower_plus. replace (/ 3 + / 3 + / 3)%R with 1%R by field. apply Rpower_1; auto.
Qed.
Lemma cbrt_pos x : (0 < cbrt x)%R.
Proof. apply exp_pos. Qed.
Lemma grid_cell_size_bounds b range n :
  let cs := grid_cell_size b range n in (range <= cs)%R /\ (cbrt (box_volume b / INR n) / 5 <= cs)%R.
Proof. cbv zeta. unfold grid_cell_size. destruct (Rltb range _) eqn:E; [apply Rltb_true in E|apply Rltb_false in E]; lra. Qed.
Lemma min3_le f a : (min3 f <= f a)%R.
Proof.
  unfold min3. pose proof (Rmin_l (Rmin (f AX) (f AY)) (f AZ)). pose proof (Rmin_r (Rmin (f AX) (f AY)) (f AZ)).
  pose proof (Rmin_l (f AX) (f AY)). pose proof (Rmin_r (f AX) (f AY)). destruct a; lra.
Qed.
Definition few_enough (n : nat) : Prop := 3375 * Z.of_nat n < 2 ^ 64.
Lemma setup_from_rebuild b range n : valid_box b -> (0 < range)%R -> (0 < n)%nat -> few_enough n ->
  let cs := grid_cell_size b range n in
  (cs * CELL_SIZE_EPSILON <= min3 (box_height b))%R ->
  valid_setup b cs /\ (forall a, cs < box_height b a)%R.
Proof.
  intros Hv Hr Hn Hf cs Hm. destruct (grid_cell_size_bounds b range n) as [H1 H2]. fold cs in H1, H2.
  assert (Hcs : (0 < cs)%R) by lra.
  assert (Hs : forall a, (cs < box_height b a)%R).
  { intros a. pose proof (min3_le (box_height b) a). unfold CELL_SIZE_EPSILON in Hm. 
    assert (0 < 1 / 10 ^ 12)%R by (apply Rdiv_lt_0_compat; [lra|apply pow_lt; lra]). nra. }
  split; auto. split; [apply constructed_valid; auto|]. split; auto. split; [intros a; specialize (Hs a); lra|].
  set (N := cells_per_axis b cs).
  assert (HN : forall a, (1 <= IZR (N a) <= box_height b a / cs)%R).
  { intros a. unfold N, cells_per_axis. pose proof (Rfl_spec (box_height b a / cs)). split; [|lra].
    apply IZR_le. apply Rfl_le. apply Rmult_le_reg_r with cs; auto. unfold Rdiv. rewrite Rmult_assoc, Rinv_l by lra.
    specialize (Hs a). lra. }
  unfold few_enough in Hf. apply lt_IZR. apply IZR_lt in Hf.
  eapply Rle_lt_trans; [|exact Hf]. unfold total_cells. rewrite !mult_IZR, !plus_IZR, <- INR_IZR_INZ.
  pose proof (HN AX) as [X1 X2]. pose proof (HN AY) as [Y1 Y2]. pose proof (HN AZ) as [Z1 Z2].
  set (x := IZR (N AX)) in *. set (y := IZR (N AY)) in *. set (z := IZR (N AZ)) in *.
  assert (Hn' : (0 < INR n)%R) by (apply lt_0_INR; lia).
  pose proof (volume_pos b Hv) as HV. set (V := box_volume b) in *.
  assert (Hq : (0 < V / INR n)%R) by (apply Rdiv_lt_0_compat; auto).
  pose proof (cbrt_cube _ Hq) as Hc3. pose proof (cbrt_pos (V / INR n)) as Hcp. set (q := cbrt (V / INR n)) in *.
  assert (Hc5 : (V / INR n <= 125 * (cs * cs * cs))%R).
  { rewrite <- Hc3. assert (Q : (q <= 5 * cs)%R) by lra.
    assert (Q2 : (q * q <= (5 * cs) * (5 * cs))%R) by (apply Rmult_le_compat; lra).
    assert (Q3 : (q * q * q <= (5 * cs) * (5 * cs) * (5 * cs))%R) by (apply Rmult_le_compat; try lra; nra). lra. }
  assert (Hxyz : (x * y * z <= V / (cs * cs * cs))%R).
  { pose proof (volume_heights b Hv) as Hvh. fold V in Hvh.
    assert (A : (x * y * z <= (box_height b AX / cs) * (box_height b AY / cs) * (box_height b AZ / cs))%R).
    { apply Rmult_le_compat; try lra; [nra|]. apply Rmult_le_compat; lra. }
    eapply Rle_trans; [exact A|].
    replace ((box_height b AX / cs) * (box_height b AY / cs) * (box_height b AZ / cs))%R
      with ((box_height b AX * box_height b AY * box_height b AZ) * / (cs * cs * cs))%R by (field; lra).
    unfold Rdiv. apply Rmult_le_compat_r; auto. left. apply Rinv_0_lt_compat. nra. }
  assert (Hb : (V / (cs * cs * cs) <= 125 * INR n)%R).
  { apply Rmult_le_reg_r with (cs * cs * cs)%R; [nra|]. unfold Rdiv. rewrite Rmult_assoc, Rinv_l by nra.
    apply Rmult_le_compat_r with (r := INR n) in Hc5; [|lra]. unfold Rdiv in Hc5. rewrite Rmult_assoc, Rinv_l in Hc5 by lra. lra. }
  assert (A : ((x + 2) * (y + 2) * (z + 2) <= 27 * (x * y * z))%R).
  { assert (B : ((x + 2) * (y + 2) <= 9 * (x * y))%R) by nra.
    assert (Bp : (0 < x * y)%R) by nra.
    replace (27 * (x * y * z))%R with ((9 * (x * y)) * (3 * z))%R by ring.
    apply Rmult_le_compat; nra. }
  lra.
Qed.

(** *** What a grid holds: at most one position for every identifier *)
Definition held (s : ng_state) (f : nat -> option vec) : Prop :=
  forall a c, In a (st_contents s c) <-> exists p, f a = Some p /\ c = real_cell_no (st_n s) (cell_of s p).
Definition upd (f : nat -> option vec) (a : nat) (x : option vec) : nat -> option vec := fun b => if Nat.eqb b a then x else f b.
Definition same_setup (s s' : ng_state) : Prop := st_box s' = st_box s /\ st_cellSize s' = st_cellSize s.
Lemma same_setup_n s s' : same_setup s s' -> st_n s' = st_n s.
Proof. intros [E1 E2]. unfold st_n. rewrite E1, E2; auto. Qed.

Lemma grid_add_held np s g f a p : ginv np s g -> held s f -> f a = None -> (a < np)%nat -> in_box (st_box s) p ->
  exists g' s', grid_add a p g = Some g' /\ same_setup s s' /\ ginv np s' g' /\ held s' (upd f a (Some p)) /\
    grid_add_cell a (real_cell_no (st_n s) (cell_of s p)) g = Some g'.
Proof.
  intros Hg Hh Hf Ha Hp. destruct (position_no _ np s g p Hg eq_refl Hp) as [Ep Hr].
  assert (Hl : legal_call np s (Call (OpAdd a (real_cell_no (st_n s) (cell_of s p))))).
  { simpl. split; auto. split; [apply real_cell_no_range, Hr|]. intros c' Hin. apply Hh in Hin. destruct Hin as (q & E & _). congruence. }
  destruct (grid_call_ginv np s g _ Hg Hl) as (g' & E & Hg'). exists g'. eexists. split; [|split; [|split; [exact Hg'|split]]].
  - unfold grid_add. rewrite Ep. exact E.
  - split; reflexivity.
  - intros b c. cbn [spec_call st_contents]. cbn [spec_op].
    assert (En : forall q, real_cell_no (st_n (spec_call (Call (OpAdd a (real_cell_no (st_n s) (cell_of s p)))) s)) (cell_of (spec_call (Call (OpAdd a (real_cell_no (st_n s) (cell_of s p)))) s) q) = real_cell_no (st_n s) (cell_of s q)) by (intros; reflexivity).
    unfold upd. destruct (Z.eqb_spec c (real_cell_no (st_n s) (cell_of s p))) as [->|Hc].
    + split.
      * intros [->|Hin]; [rewrite Nat.eqb_refl; eexists; split; eauto|]. apply Hh in Hin.
        destruct (Nat.eqb_spec b a) as [->|]; [destruct Hin as (q & Eq & _); congruence|]. exact Hin.
      * intros (q & Eq & Ec). destruct (Nat.eqb_spec b a) as [->|]; [left; auto|right]. apply Hh. exists q; auto.
    + split.
      * intros Hin. apply Hh in Hin. destruct (Nat.eqb_spec b a) as [->|]; [destruct Hin as (q & Eq & _); congruence|]. exact Hin.
      * intros (q & Eq & Ec). destruct (Nat.eqb_spec b a) as [->|].
        -- injection Eq as <-. contradiction.
        -- apply Hh. exists q; auto.
  - exact E.
Qed.
Lemma grid_remove_held np s g f a p : ginv np s g -> held s f -> f a = Some p -> in_box (st_box s) p ->
  exists g' s', grid_remove a p g = Some g' /\ same_setup s s' /\ ginv np s' g' /\ held s' (upd f a None).
Proof.
  intros Hg Hh Hf Hp. destruct (position_no _ np s g p Hg eq_refl Hp) as [Ep Hr].
  assert (Hl : legal_call np s (Call (OpRemove a (real_cell_no (st_n s) (cell_of s p))))).
  { simpl. apply real_cell_no_range, Hr. }
  destruct (grid_call_ginv np s g _ Hg Hl) as (g' & E & Hg'). exists g'. eexists. split; [|split; [|split; [exact Hg'|]]].
  - unfold grid_remove. rewrite Ep. exact E.
  - split; reflexivity.
  - intros b c. cbn [spec_call st_contents]. cbn [spec_op]. unfold upd.
    destruct (Z.eqb_spec c (real_cell_no (st_n s) (cell_of s p))) as [->|Hc].
    + rewrite in_remove_iff, (Hh b _). destruct (Nat.eqb_spec b a) as [->|Hn].
      * split; [tauto|]. intros (q & Eq & _). discriminate.
      * split; [intros [H _]; exact H|]. intros H. split; auto.
    + rewrite (Hh b c). destruct (Nat.eqb_spec b a) as [->|Hn].
      * split; intros (q & Eq & Ec); [|discriminate]. rewrite Hf in Eq. injection Eq as <-. contradiction.
      * split; intros H; exact H.
Qed.

Fixpoint upds (f : nat -> option vec) (l : list (nat * option vec)) : nat -> option vec :=
  match l with [] => f | (a, x) :: l' => upds (upd f a x) l' end.
Lemma upds_notin f l a : ~ In a (map fst l) -> upds f l a = f a.
Proof.
  revert f. induction l as [|[b x] l IH]; simpl; intros f H; auto. rewrite IH by tauto. unfold upd.
  destruct (Nat.eqb_spec a b); auto. subst. tauto.
Qed.
Lemma upds_in f l a x : NoDup (map fst l) -> In (a, x) l -> upds f l a = x.
Proof.
  revert f. induction l as [|[b y] l IH]; simpl; intros f N H; [tauto|]. inversion N; subst. destruct H as [E|H].
  - injection E as -> ->. rewrite upds_notin by auto. unfold upd. rewrite Nat.eqb_refl. auto.
  - apply IH; auto.
Qed.
Lemma held_ext s f f' : (forall a, f a = f' a) -> held s f -> held s f'.
Proof. intros E H a c. rewrite (H a c). split; intros (p & Hp & Ec); exists p; split; auto; congruence. Qed.
Lemma same_setup_trans s1 s2 s3 : same_setup s1 s2 -> same_setup s2 s3 -> same_setup s1 s3.
Proof. intros [E1 E2] [E3 E4]. split; congruence. Qed.
Lemma same_setup_refl s : same_setup s s.
Proof. split; auto. Qed.

Lemma ng_add_held np l : forall s g f, ginv np s g -> held s f -> NoDup (map fst l) ->
  (forall a p, In (a, p) l -> f a = None /\ (a < np)%nat /\ in_box (st_box s) p) ->
  exists g' s', ng_add l g = Some g' /\ same_setup s s' /\ ginv np s' g' /\
    held s' (upds f (map (fun ap => (fst ap, Some (snd ap))) l)).
Proof.
  induction l as [|[a p] l IH]; intros s g f Hg Hh N H; simpl.
  - exists g, s. split; auto. split; [apply same_setup_refl|]. auto.
  - inversion N; subst. destruct (H a p) as (Hf & Ha & Hp); [left; auto|].
    destruct (grid_add_held np s g f a p Hg Hh Hf Ha Hp) as (g1 & s1 & E1 & S1 & G1 & H1 & _). rewrite E1. simpl.
    destruct (IH s1 g1 (upd f a (Some p)) G1 H1) as (g2 & s2 & E2 & S2 & G2 & H5); auto.
    + intros b q Hb. destruct (H b q) as (A & B & C); [right; auto|]. destruct S1 as [S1 _]. rewrite S1. split; [|split; auto].
      unfold upd. destruct (Nat.eqb_spec b a); auto. subst. exfalso. apply H2. apply in_map_iff. exists (a, q); auto.
    + exists g2, s2. split; auto. split; [eapply same_setup_trans; eauto|]. auto.
Qed.

Lemma ng_remove_held np l : forall s g f, ginv np s g -> held s f -> NoDup (map fst l) ->
  (forall a p, In (a, p) l -> f a = Some p /\ in_box (st_box s) p) ->
  exists g' s', ng_remove l g = Some g' /\ same_setup s s' /\ ginv np s' g' /\
    held s' (upds f (map (fun ap => (fst ap, None)) l)).
Proof.
  induction l as [|[a p] l IH]; intros s g f Hg Hh N H; simpl.
  - exists g, s. split; auto. split; [apply same_setup_refl|]. auto.
  - inversion N; subst. destruct (H a p) as (Hf & Hp); [left; auto|].
    destruct (grid_remove_held np s g f a p Hg Hh Hf Hp) as (g1 & s1 & E1 & S1 & G1 & H1). rewrite E1. simpl.
    destruct (IH s1 g1 (upd f a None) G1 H1) as (g2 & s2 & E2 & S2 & G2 & H5); auto.
    + intros b q Hb. destruct (H b q) as (A & C); [right; auto|]. destruct S1 as [S1 _]. rewrite S1. split; auto.
      unfold upd. destruct (Nat.eqb_spec b a); auto. subst. exfalso. apply H2. apply in_map_iff. exists (a, q); auto.
    + exists g2, s2. split; auto. split; [eapply same_setup_trans; eauto|]. auto.
Qed.

(** *** Filling an empty grid *)
Lemma nth_error_In' {A} (l : list A) n x : nth_error l n = Some x -> In x l.
Proof. apply nth_error_In. Qed.
Lemma in_enumerate {A} (l : list A) i x : In (i, x) (enumerate l) <-> nth_error l i = Some x.
Proof.
  unfold enumerate. assert (H : forall st, In (i, x) (combine (seq st (length l)) l) <-> (st <= i)%nat /\ nth_error l (i - st) = Some x).
  { induction l as [|y l IH]; intros st; simpl.
    - split; [tauto|]. intros [_ H]. destruct (i - st)%nat; discriminate.
    - rewrite IH. split.
      + intros [E|[H1 H2]].
        * injection E as -> ->. split; auto. rewrite Nat.sub_diag. auto.
        * split; [lia|]. replace (i - st)%nat with (S (i - S st)) by lia. auto.
      + intros [H1 H2]. destruct (Nat.eq_dec i st) as [->|Hn].
        * rewrite Nat.sub_diag in H2. simpl in H2. injection H2 as ->. auto.
        * right. split; [lia|]. replace (i - st)%nat with (S (i - S st)) in H2 by lia. auto. }
  rewrite H, Nat.sub_0_r. split; [tauto|]. split; [lia|auto].
Qed.
Lemma map_fst_enumerate {A} (l : list A) : map fst (enumerate l) = seq 0 (length l).
Proof.
  unfold enumerate. generalize 0%nat. induction l as [|x l IH]; intros n; simpl; auto. rewrite IH; auto.
Qed.
Lemma length_enumerate {A} (l : list A) : length (enumerate l) = length l.
Proof. rewrite <- (map_length fst), map_fst_enumerate, seq_length; auto. Qed.
Lemma enumerate_map {A B} (f : A -> B) l : enumerate (map f l) = map (fun ix => (fst ix, f (snd ix))) (enumerate l).
Proof.
  unfold enumerate. rewrite map_length. generalize 0%nat. induction l as [|x l IH]; intros n; simpl; auto. rewrite IH; auto.
Qed.

Lemma add_cells_held np l : forall s g f, ginv np s g -> held s f -> NoDup (map fst l) ->
  (forall a p, In (a, p) l -> f a = None /\ (a < np)%nat /\ in_box (st_box s) p) ->
  exists g' s', add_cells (map (fun ap => (fst ap, real_cell_no (st_n s) (cell_of s (snd ap)))) l) g = Some g' /\
    same_setup s s' /\ ginv np s' g' /\ held s' (upds f (map (fun ap => (fst ap, Some (snd ap))) l)).
Proof.
  induction l as [|[a p] l IH]; intros s g f Hg Hh N H; simpl.
  - exists g, s. split; auto. split; [apply same_setup_refl|]. auto.
  - inversion N; subst. destruct (H a p) as (Hf & Ha & Hp); [left; auto|].
    destruct (grid_add_held np s g f a p Hg Hh Hf Ha Hp) as (g1 & s1 & _ & S1 & G1 & H1 & E1). rewrite E1. simpl.
    destruct (IH s1 g1 (upd f a (Some p)) G1 H1) as (g2 & s2 & E2 & S2 & G2 & H5); auto.
    + intros b q Hb. destruct (H b q) as (A & B & C); [right; auto|]. destruct S1 as [S1 _]. rewrite S1. split; [|split; auto].
      unfold upd. destruct (Nat.eqb_spec b a); auto. subst. exfalso. apply H2. apply in_map_iff. exists (a, q); auto.
    + exists g2, s2. split; [|split; [eapply same_setup_trans; eauto|auto]].
      rewrite (same_setup_n _ _ S1) in E2. unfold cell_of in *. rewrite (same_setup_n _ _ S1) in E2.
      destruct S1 as [S1 _]. rewrite S1 in E2. exact E2.
Qed.

(** The grid holds exactly the given positions, its cells are not smaller than the range and smaller than the box. *)
Definition grid_holds (b : box) (range : R) (ps : list vec) (g : grid) : Prop :=
  exists s, st_box s = b /\ (range <= st_cellSize s)%R /\ (forall a, st_cellSize s < box_height b a)%R /\
    ginv (length ps) s g /\ held s (nth_error ps).
Definition grid_shaped (np : nat) (og : option grid) : Prop :=
  match og with None => True | Some g => exists s, ginv np s g end.
Lemma grid_holds_shaped b range ps g : grid_holds b range ps g -> grid_shaped (length ps) (Some g).
Proof. intros (s & _ & _ & _ & H & _). exists s; auto. Qed.

Lemma fill_grid b range cs ps g : ginv (length ps) (NgState b cs empty_contents) g -> (range <= cs)%R ->
  (forall a, cs < box_height b a)%R -> (forall p, In p ps -> in_box b p) ->
  exists g', obind (map_opt (positionToCellNo g) ps) (fun cellNos => add_cells (enumerate cellNos) g) = Some g' /\
    grid_holds b range ps g'.
Proof.
  intros Hg Hr Hs Hp. set (s := NgState b cs empty_contents) in *.
  assert (E : map_opt (positionToCellNo g) ps = Some (map (fun p => real_cell_no (st_n s) (cell_of s p)) ps)).
  { apply map_opt_all. intros p Hin. apply (position_no _ (length ps) s g p Hg eq_refl (Hp p Hin)). }
  rewrite E. simpl. rewrite enumerate_map.
  destruct (add_cells_held (length ps) (enumerate ps) s g (fun _ => None) Hg) as (g' & s' & E' & [S1 S2] & G' & H').
  - intros a c. simpl. split; [tauto|]. intros (p & Hx & _). discriminate.
  - rewrite map_fst_enumerate. apply seq_NoDup.
  - intros a p Hin. apply in_enumerate in Hin. split; auto. split.
    + apply nth_error_Some. congruence.
    + apply Hp. eapply nth_error_In; eauto.
  - exists g'. split; auto. exists s'. simpl in S1, S2. rewrite S1, S2. split; auto. split; auto. split; auto. split; auto.
    eapply held_ext; [|exact H']. intros a. simpl.
    destruct (nth_error ps a) as [p|] eqn:Ea.
    + apply (upds_in _ _ a (Some p)).
      * rewrite map_map. simpl. rewrite map_fst_enumerate. apply seq_NoDup.
      * apply in_map_iff. exists (a, p). split; auto. apply in_enumerate; auto.
    + rewrite upds_notin; auto. rewrite map_map. simpl. rewrite map_fst_enumerate. intros Hin. apply in_seq in Hin.
      apply nth_error_None in Ea. lia.
Qed.

(** *** Rebuilding *)
Definition sites_of (k : nat) : nat := if Nat.eqb k 0 then 1%nat else k.
Definition sitepos (k : nat) (p : particle) : list vec := if Nat.eqb k 0 then [pt_pos p] else pt_abs p.
Lemma sites_of_pos k : (0 < sites_of k)%nat.
Proof. unfold sites_of. destruct (Nat.eqb_spec k 0); lia. Qed.
Lemma site_positions_flat k parts : site_positions k parts = flat_map (sitepos k) parts.
Proof.
  unfold site_positions, sitepos. destruct (Nat.eqb k 0); [|reflexivity]. induction parts as [|p l IH]; simpl; congruence.
Qed.
Lemma length_site_positions k parts : Forall (fun p => length (sitepos k p) = sites_of k) parts ->
  length (site_positions k parts) = (sites_of k * length parts)%nat.
Proof.
  rewrite site_positions_flat. induction 1 as [|p l Hp Hl IH]; simpl; [lia|]. rewrite app_length, IH, Hp. lia.
Qed.
Lemma nth_site_positions k parts a : Forall (fun p => length (sitepos k p) = sites_of k) parts ->
  nth_error (site_positions k parts) a =
  obind (nth_error parts (a / sites_of k)) (fun p => nth_error (sitepos k p) (a mod sites_of k)).
Proof.
  rewrite site_positions_flat. pose proof (sites_of_pos k) as HK. intros H. revert a.
  induction H as [|p l Hp Hl IH]; intros a; simpl.
  - destruct (a / sites_of k)%nat; destruct a; reflexivity.
  - destruct (Nat.lt_ge_cases a (sites_of k)) as [Ha|Ha].
    + rewrite nth_error_app1 by lia. rewrite Nat.div_small, Nat.mod_small by auto. reflexivity.
    + rewrite nth_error_app2 by lia. rewrite IH, Hp.
      assert (Ed : (a / sites_of k = S ((a - sites_of k) / sites_of k))%nat).
      { replace a with ((a - sites_of k) + 1 * sites_of k)%nat at 1 by lia. rewrite Nat.div_add by lia. lia. }
      assert (Em : (a mod sites_of k = (a - sites_of k) mod sites_of k)%nat).
      { replace a with ((a - sites_of k) + 1 * sites_of k)%nat at 1 by lia. rewrite Nat.mod_add by lia. auto. }
      rewrite Ed, Em. reflexivity.
Qed.

Lemma rebuild_spec pk : valid_box (pk_box pk) -> (0 < pk_range pk)%R -> (0 < pk_size pk)%nat -> few_enough (pk_size pk) ->
  Forall (fun p => length (sitepos (pk_k pk) p) = sites_of (pk_k pk)) (pk_parts pk) ->
  (forall p, In p (site_positions (pk_k pk) (pk_parts pk)) -> in_box (pk_box pk) p) ->
  grid_shaped (sites_of (pk_k pk) * pk_size pk) (pk_ng pk) ->
  exists og, rebuildNeighbourGrid pk = Some (set_ng pk og) /\
    match og with
    | None => True
    | Some g => grid_holds (pk_box pk) (pk_range pk) (site_positions (pk_k pk) (pk_parts pk)) g
    end.
Proof.
  intros Hv Hr Hn Hf Hl Hp Hs. unfold rebuildNeighbourGrid.
  destruct (Rltb (max3 _) _); [exists None; auto|].
  destruct (Rltb (min3 _) _) eqn:E; [exists None; auto|]. apply Rltb_false in E.
  destruct (setup_from_rebuild (pk_box pk) (pk_range pk) (pk_size pk) Hv Hr Hn Hf E) as [Hset Hlt].
  destruct (grid_cell_size_bounds (pk_box pk) (pk_range pk) (pk_size pk)) as [Hrc _].
  set (cs := grid_cell_size (pk_box pk) (pk_range pk) (pk_size pk)) in *.
  pose proof (length_site_positions _ _ Hl) as Hlen. fold (pk_size pk) in Hlen.
  assert (Etot : (if Nat.eqb (pk_k pk) 0 then pk_size pk else (pk_k pk * pk_size pk)%nat) =
                 length (site_positions (pk_k pk) (pk_parts pk))).
  { rewrite Hlen. unfold sites_of. destruct (Nat.eqb_spec (pk_k pk) 0); lia. }
  rewrite Etot.
  assert (G : exists g, (match pk_ng pk with
      | None => grid_new (pk_box pk) cs (length (site_positions (pk_k pk) (pk_parts pk)))
      | Some g => option_map fst (grid_resize (pk_box pk) cs g) end) = Some g /\
      ginv (length (site_positions (pk_k pk) (pk_parts pk))) (NgState (pk_box pk) cs empty_contents) g).
  { destruct (pk_ng pk) as [g|].
    - destruct Hs as (s & Hs). rewrite <- Hlen in Hs. destruct (resize_ginv _ _ _ _ _ Hs Hset) as (g' & ch & E1 & E2 & _).
      exists g'. rewrite E1. auto.
    - apply grid_new_ginv; auto. }
  destruct G as (g & Eg & Hg). rewrite Eg. simpl.
  destruct (fill_grid (pk_box pk) (pk_range pk) cs _ g Hg Hrc Hlt Hp) as (g' & E' & H').
  unfold add_all_centres. rewrite E'. simpl. exists (Some g'). auto.
Qed.

(** *** Replacing one particle *)
Open Scope nat_scope.
Lemma particle_ids_enum k i p : particle_ids k i p =
  map (fun c => ((i * sites_of k + fst c)%nat, snd c)) (enumerate (sitepos k p)).
Proof.
  unfold particle_ids, sites_of, sitepos. destruct (Nat.eqb_spec k 0); simpl; auto. rewrite Nat.mul_1_r, Nat.add_0_r. auto.
Qed.
Lemma in_particle_ids k i p a q : length (sitepos k p) = sites_of k ->
  In (a, q) (particle_ids k i p) <-> a / sites_of k = i%nat /\ nth_error (sitepos k p) (a mod sites_of k) = Some q.
Proof.
  intros Hl. pose proof (sites_of_pos k) as HK. rewrite particle_ids_enum, in_map_iff. split.
  - intros ([c x] & E & Hin). simpl in E. apply in_enumerate in Hin.
    assert (Hc : (c < sites_of k)%nat) by (rewrite <- Hl; apply nth_error_Some; congruence).
    injection E as <- <-. split.
    + rewrite Nat.div_add_l by lia. rewrite Nat.div_small by auto. lia.
    + rewrite Nat.add_comm, Nat.mod_add by lia. rewrite Nat.mod_small by auto. auto.
  - intros [E H]. exists (a mod sites_of k, q)%nat. split; [|apply in_enumerate; auto].
    simpl. f_equal. pose proof (Nat.div_mod a (sites_of k)). nia.
Qed.
Lemma NoDup_particle_ids k i p : NoDup (map fst (particle_ids k i p)).
Proof.
  rewrite particle_ids_enum, map_map. cbn [fst].
  rewrite <- (map_map fst (fun c => (i * sites_of k + c)%nat)), map_fst_enumerate.
  apply NoDup_map_inj_on; [apply seq_NoDup|]. intros; lia.
Qed.
Lemma replace_grid b range k parts parts' i p p' g :
  Forall (fun p => length (sitepos k p) = sites_of k) parts -> length (sitepos k p') = sites_of k ->
  nth_error parts i = Some p -> set_nth parts i p' = Some parts' ->
  (forall q, In q (site_positions k parts) -> in_box b q) -> (forall q, In q (sitepos k p') -> in_box b q) ->
  grid_holds b range (site_positions k parts) g ->
  exists g1 g2, ng_remove (particle_ids k i p) g = Some g1 /\ ng_add (particle_ids k i p') g1 = Some g2 /\
    grid_holds b range (site_positions k parts') g2.
Proof.
  intros Hl Hl' Hi Hset Hin Hin' (s & E1 & E2 & E3 & Hg & Hh).
  pose proof (sites_of_pos k) as HK.
  assert (Hlp : length (sitepos k p) = sites_of k).
  { rewrite Forall_forall in Hl. apply Hl. eapply nth_error_In; eauto. }
  assert (Hl2 : Forall (fun p => length (sitepos k p) = sites_of k) parts').
  { rewrite Forall_forall in *. intros q Hq. apply In_nth_error in Hq. destruct Hq as (m & Hq).
    rewrite (set_nth_get _ _ _ _ _ Hset) in Hq. destruct (Nat.eqb m i); [injection Hq as <-; auto|].
    apply Hl. eapply nth_error_In; eauto. }
  assert (Hlen : length (site_positions k parts') = length (site_positions k parts)).
  { rewrite !length_site_positions by auto. rewrite (set_nth_length _ _ _ _ Hset); auto. }
  assert (Hold : forall a q, In (a, q) (particle_ids k i p) -> nth_error (site_positions k parts) a = Some q).
  { intros a q H. apply in_particle_ids in H; auto. destruct H as [Ea H]. rewrite nth_site_positions by auto.
    rewrite Ea, Hi. simpl. auto. }
  destruct (ng_remove_held _ (particle_ids k i p) s g _ Hg Hh (NoDup_particle_ids k i p)) as (g1 & s1 & R1 & S1 & G1 & H1).
  { intros a q H. pose proof (Hold a q H) as Hq. split; auto. rewrite E1. apply Hin. eapply nth_error_In; eauto. }
  destruct (ng_add_held _ (particle_ids k i p') s1 g1 _ G1 H1 (NoDup_particle_ids k i p')) as (g2 & s2 & R2 & S2 & G2 & H2).
  { intros a q H. apply in_particle_ids in H; auto. destruct H as [Ea H].
    assert (Hm : (a mod sites_of k < sites_of k)%nat) by (apply Nat.mod_upper_bound; lia).
    destruct (nth_error (sitepos k p) (a mod sites_of k)) as [x|] eqn:Ex;
      [|apply nth_error_None in Ex; lia].
    assert (Hx : In (a, x) (particle_ids k i p)) by (apply in_particle_ids; auto).
    split; [|split].
    - apply (upds_in _ _ a None).
      + rewrite map_map. simpl. apply NoDup_particle_ids.
      + apply in_map_iff. exists (a, x). auto.
    - apply nth_error_Some. rewrite (Hold _ _ Hx). congruence.
    - destruct S1 as [S1 _]. rewrite S1, E1. apply Hin'. eapply nth_error_In; eauto. }
  exists g1, g2. split; auto. split; auto. exists s2. destruct S1 as [A1 A2], S2 as [B1 B2]. rewrite Hlen.
  split; [congruence|]. split; [rewrite B2, A2; auto|]. split; [rewrite B2, A2; auto|]. split; auto.
  eapply held_ext; [|exact H2]. intros a. rewrite nth_site_positions by auto. rewrite (set_nth_get _ _ _ _ _ Hset).
  assert (Hm : (a mod sites_of k < sites_of k)%nat) by (apply Nat.mod_upper_bound; lia).
  destruct (Nat.eqb_spec (a / sites_of k) i) as [Ea|Ea]; simpl.
  - destruct (nth_error (sitepos k p') (a mod sites_of k)) as [x|] eqn:Ex; [|apply nth_error_None in Ex; lia].
    apply (upds_in _ _ a (Some x)).
    + rewrite map_map. simpl. apply NoDup_particle_ids.
    + apply in_map_iff. exists (a, x). split; auto. apply in_particle_ids; auto.
  - assert (Hn : forall q, length (sitepos k q) = sites_of k -> ~ In a (map fst (particle_ids k i q))).
    { intros q Hq H. apply in_map_iff in H. destruct H as ([a' x] & Ex & H). simpl in Ex. subst a'.
      apply in_particle_ids in H; auto. tauto. }
    rewrite upds_notin by (rewrite map_map; simpl; apply Hn; auto).
    rewrite upds_notin by (rewrite map_map; simpl; apply Hn; auto).
    rewrite nth_site_positions by auto. auto.
Qed.
