(** Active domains. *)
From Coq Require Import Reals ZArith List Bool Lia Lra.
From Verif Require Import GeomModel BoxModel BoxSpec RFloorModel PbcModel PbcSpec NGModel GeomProofs BoxProofs RFloorProofs PbcProofs NGListProofs.
From Verif Require Import PackModel PackSpec DomModel DomSpec.
Import ListNotations.
Open Scope R_scope.

Lemma fit_spec x : -1 <= x < 2 -> 0 <= fitPeriodically x 1 < 1 /\ exists z, fitPeriodically x 1 = x + IZR z.
Proof.
  intros H. unfold fitPeriodically. destruct (Rltb x 0) eqn:A.
  - apply Rltb_true in A. split; [lra|exists 1%Z; reflexivity].
  - apply Rltb_false in A. destruct (Rleb 1 x) eqn:B.
    + apply Rleb_true in B. split; [lra|exists (-1)%Z; lra].
    + apply Rleb_false in B. split; [lra|exists 0%Z; lra].
Qed.

Lemma IZR_gap a b : IZR a < IZR b + 1 -> (a <= b)%Z.
Proof. intros H. rewrite <- plus_IZR in H. apply lt_IZR in H. lia. Qed.

Lemma between_spec b e x B E z1 z2 : b = B + IZR z1 -> e = E + IZR z2 -> 0 <= b < 1 -> 0 <= e < 1 -> B < E < B + 1 -> 0 <= x < 1 ->
  between (Bounds b e) x = true <-> exists z : Z, B < x + IZR z < E.
Proof.
  intros Eb Ee Hb He HBE Hx. unfold between; cbn [bd_beg bd_end]. destruct (Rltb b e) eqn:C.
  - apply Rltb_true in C.
    assert (Ez : z1 = z2).
    { assert (H1 : IZR z1 < IZR z2 + 1) by lra. assert (H2 : IZR z2 < IZR z1 + 1) by lra. apply IZR_gap in H1, H2. lia. }
    subst z2. split.
    + intros H. apply negb_true_iff, orb_false_iff in H. destruct H as [H1 H2]. apply Rleb_false in H1, H2.
      exists (- z1)%Z. rewrite opp_IZR. lra.
    + intros (z & Hz). assert (Z0 : (z + z1 = 0)%Z).
      { assert (H1 : IZR (z + z1) < IZR 0 + 1) by (rewrite plus_IZR; lra). assert (H2 : IZR 0 < IZR (z + z1) + 1) by (rewrite plus_IZR; lra).
        apply IZR_gap in H1, H2. lia. }
      assert (Z0R : IZR z + IZR z1 = 0) by (rewrite <- plus_IZR, Z0; reflexivity).
      apply negb_true_iff, orb_false_iff. split; apply Rleb_false; lra.
  - apply Rltb_false in C.
    assert (Ez : (z1 = z2 + 1)%Z).
    { assert (H1 : IZR z1 < IZR (z2 + 1) + 1) by (rewrite plus_IZR; lra). assert (H2 : IZR (z2 + 1) < IZR z1 + 1) by (rewrite plus_IZR; lra).
      apply IZR_gap in H1, H2. lia. }
    assert (EzR : IZR z1 = IZR z2 + 1) by (rewrite Ez, plus_IZR; reflexivity).
    split.
    + intros H. apply negb_true_iff, andb_false_iff in H. destruct H as [H|H]; apply Rleb_false in H.
      * exists (- z1)%Z. rewrite opp_IZR. lra.
      * exists (1 - z1)%Z. rewrite minus_IZR. lra.
    + intros (z & Hz). apply negb_true_iff, andb_false_iff.
      assert (H1 : (z + z1 <= 1)%Z). { apply IZR_gap. rewrite plus_IZR. lra. }
      assert (H2 : (0 <= z + z1)%Z). { apply IZR_gap. rewrite plus_IZR. lra. }
      assert (Hc : (z + z1 = 0 \/ z + z1 = 1)%Z) by lia.
      destruct Hc as [Hc|Hc]; apply (f_equal IZR) in Hc; rewrite plus_IZR in Hc; [left|right]; apply Rleb_false; lra.
Qed.

Lemma Rabs_le_inv x y : Rabs x <= y -> - y <= x <= y.
Proof. intros H. unfold Rabs in H. destruct (Rcase_abs x); lra. Qed.
(** *** One axis *)
Section Axis.
Variables (o g : R) (n : nat) (ng : Z).
Hypothesis Ho : 0 <= o < 1.
Hypothesis Hn : (2 <= n)%nat.
Hypothesis Hng : (1 <= ng)%Z.
Hypothesis Hg1 : 1 / IZR ng <= g.
Hypothesis Hg2 : g < 1 / INR n - 1 / IZR ng.

Let w := 1 / INR n.
Let N := IZR ng.
Definition ccell (k : nat) : Z :=
  if Nat.ltb k n then Rround ((o + INR k * w) * N - 0.5) else (Rround ((o + INR 0 * w) * N - 0.5) + ng)%Z.
Local Notation mid k := (cell_middle ng (ccell k)).
Lemma N1 : 1 <= N. Proof. unfold N. apply IZR_le. lia. Qed.
Lemma n2 : 2 <= INR n. Proof. apply (le_INR 2). auto. Qed.
Lemma winv : w * INR n = 1. Proof. unfold w. pose proof n2. field. lra. Qed.
Lemma Ninv : 1 / N * N = 1. Proof. pose proof N1. field. lra. Qed.
Lemma w_half : 0 < w <= 1 / 2.
Proof. pose proof winv. pose proof n2. split; [unfold w; apply Rdiv_lt_0_compat; lra|]. assert (0 < w) by (unfold w; apply Rdiv_lt_0_compat; lra). nra. Qed.
Lemma cm_lin c c' : cell_middle ng c - cell_middle ng c' = (IZR c - IZR c') / N.
Proof. unfold cell_middle. fold N. pose proof N1. field. lra. Qed.

Lemma near k : (k < n)%nat -> Rabs (mid k - (o + INR k / INR n)) <= 1 / (2 * N).
Proof.
  intros Hk. unfold ccell. destruct (Nat.ltb_spec k n); [|lia]. pose proof (Rround_spec ((o + INR k * w) * N - 0.5)) as H0.
  pose proof N1. pose proof n2. set (r := Rround _) in *. unfold cell_middle. fold N.
  replace ((IZR r + 1 / 2) / N - (o + INR k / INR n)) with ((IZR r - ((o + INR k * w) * N - 0.5)) * / N).
  2: { unfold w. replace 0.5 with (1 / 2) by lra. field. lra. }
  rewrite Rabs_mult, (Rabs_right (/ N)).
  - replace (1 / (2 * N)) with (/ 2 * / N) by (field; lra). apply Rmult_le_compat_r; auto. left. apply Rinv_0_lt_compat. lra.
  - left. apply Rinv_0_lt_compat. lra.
Qed.
Lemma wrap_cell : ccell n = (ccell 0 + ng)%Z.
Proof. unfold ccell. destruct (Nat.ltb_spec n n); [lia|]. destruct (Nat.ltb_spec 0 n); [|lia]. reflexivity. Qed.
Lemma mid_n : mid n = mid 0%nat + 1.
Proof. rewrite wrap_cell. unfold cell_middle. rewrite plus_IZR. fold N. pose proof N1. field. lra. Qed.
Lemma near' k : (k <= n)%nat -> Rabs (mid k - (o + INR k / INR n)) <= 1 / (2 * N).
Proof.
  intros Hk. destruct (Nat.eq_dec k n) as [->|]; [|apply near; lia]. rewrite mid_n.
  pose proof (near 0 ltac:(lia)) as H. pose proof n2. replace (INR n / INR n) with 1 by (field; lra). simpl INR in H.
  replace (mid 0%nat + 1 - (o + 1)) with (mid 0%nat - (o + 0 / INR n)) by (field; lra). exact H.
Qed.
Lemma halfN : 1 / (2 * N) = 1 / N / 2. Proof. pose proof N1. field. lra. Qed.
Lemma mid_bounds k : (k <= n)%nat -> o + INR k * w - 1 / N / 2 <= mid k <= o + INR k * w + 1 / N / 2.
Proof.
  intros Hk. pose proof (near' k Hk) as H. rewrite halfN in H. apply Rabs_le_inv in H. pose proof n2.
  replace (INR k / INR n) with (INR k * w) in H by (unfold w; field; lra). lra.
Qed.
Lemma mid_step k : (k < n)%nat -> w - 1 / N <= mid (S k) - mid k <= w + 1 / N.
Proof.
  intros Hk. pose proof (mid_bounds k ltac:(lia)). pose proof (mid_bounds (S k) ltac:(lia)) as H'. rewrite S_INR in H'. lra.
Qed.
Lemma mid_gap k : (k < n)%nat -> mid k + g / 2 < mid (S k) - g / 2 < mid k + g / 2 + 1.
Proof. intros Hk. pose proof (mid_step k Hk). pose proof w_half. fold N w in Hg1, Hg2. lra. Qed.
Lemma mid_lo k : (k < n)%nat -> -1 <= mid k - g / 2 /\ mid k + g / 2 < 2.
Proof.
  intros Hk. pose proof (mid_bounds k ltac:(lia)). pose proof w_half. pose proof n2. fold N w in Hg1, Hg2.
  pose proof N1. assert (0 < 1 / N) by (apply Rdiv_lt_0_compat; lra).
  assert (0 <= INR k) by apply pos_INR. assert (INR k * w <= 1 - w).
  { assert (INR (S k) <= INR n) by (apply le_INR; lia). rewrite S_INR in *. pose proof winv. nra. }
  assert (0 <= INR k * w) by nra. lra.
Qed.
Lemma ghost_middle_mid k : (k < n)%nat -> ghost_middle o n ng k = mid k.
Proof.
  intros Hk. unfold ghost_middle, ccell. destruct (Nat.ltb_spec k n); [|lia]. fold w N. unfold cell_middle. fold N.
  replace 0.5 with (1 / 2) by lra. reflexivity.
Qed.

Let B k := fitPeriodically (mid k + g / 2) 1.
Let E k := fitPeriodically (mid k - g / 2) 1.
Definition placed (m : nat) (st : list bounds * option R) : Prop :=
  length (fst st) = n /\
  (forall k b, (k < m)%nat -> nth_error (fst st) k = Some b -> bd_beg b = B k) /\
  (forall k b, (k < n)%nat -> (Nat.modulo (S k) n < m)%nat -> nth_error (fst st) k = Some b -> bd_end b = E (Nat.modulo (S k) n)) /\
  match m with O => snd st = None | S m' => snd st = Some (mid m' + g / 2) end.

Lemma prev_idx m : (m < n)%nat -> (Nat.modulo (m + n - 1) n < n)%nat /\ Nat.modulo (S (Nat.modulo (m + n - 1) n)) n = m.
Proof.
  intros Hm. split; [apply Nat.mod_upper_bound; lia|]. destruct m.
  - replace (Nat.modulo (0 + n - 1) n) with (n - 1)%nat by (rewrite Nat.mod_small; lia).
    replace (S (n - 1)) with n by lia. apply Nat.mod_same. lia.
  - replace (S m + n - 1)%nat with (m + 1 * n)%nat by lia. rewrite Nat.mod_add by lia. rewrite (Nat.mod_small m) by lia.
    apply Nat.mod_small. lia.
Qed.
Lemma succ_inj k m : (k < n)%nat -> (m < n)%nat -> Nat.modulo (S k) n = m -> k = Nat.modulo (m + n - 1) n.
Proof.
  intros Hk Hm H. destruct (Nat.eq_dec (S k) n) as [Ek|Ek].
  - rewrite Ek, Nat.mod_same in H by lia. subst m. rewrite Nat.mod_small; lia.
  - rewrite Nat.mod_small in H by lia. subst m. replace (S k + n - 1)%nat with (k + 1 * n)%nat by lia.
    rewrite Nat.mod_add by lia. rewrite Nat.mod_small; lia.
Qed.

Lemma place_ghost_step m st : (m < n)%nat -> placed m st -> exists st', place_ghost o g n ng m st = Some st' /\ placed (S m) st'.
Proof.
  intros Hm (H1 & H2 & H3 & H4). destruct st as [bs prev]; cbn [fst snd] in *. unfold place_ghost.
  rewrite (ghost_middle_mid m Hm). destruct (prev_idx m Hm) as [P1 P2]. set (pd := Nat.modulo (m + n - 1) n) in *.
  cbv zeta.
  assert (T : match prev with None => true | Some e => Rltb e (cell_middle ng (ccell m) - g / 2) end = true).
  { destruct m; rewrite H4; auto. apply Rltb_true. apply (mid_gap m). lia. }
  rewrite T.
  destruct (nth_error bs pd) as [p|] eqn:Ep; [|apply nth_error_None in Ep; lia]. cbn [obind].
  destruct (set_nth_Some bs pd (Bounds (bd_beg p) (fitPeriodically (cell_middle ng (ccell m) - g / 2) 1)) ltac:(lia)) as (bs1 & E1).
  rewrite E1. cbn [obind]. pose proof (set_nth_length _ _ _ _ E1) as L1.
  destruct (nth_error bs1 m) as [q|] eqn:Eq; [|apply nth_error_None in Eq; lia]. cbn [obind].
  destruct (set_nth_Some bs1 m (Bounds (fitPeriodically (cell_middle ng (ccell m) + g / 2) 1) (bd_end q)) ltac:(lia)) as (bs2 & E2).
  rewrite E2. cbn [obind]. pose proof (set_nth_length _ _ _ _ E2) as L2.
  eexists. split; [reflexivity|].
  assert (G : forall k b, nth_error bs2 k = Some b ->
     bd_beg b = (if Nat.eqb k m then B m else match nth_error bs k with Some b0 => bd_beg b0 | None => 0 end) /\
     bd_end b = (if Nat.eqb k pd then E m else match nth_error bs k with Some b0 => bd_end b0 | None => 0 end)).
  { intros k b Hb. rewrite (set_nth_get _ _ _ _ k E2) in Hb. rewrite (set_nth_get _ _ _ _ m E1) in Eq.
    destruct (Nat.eqb_spec k m) as [->|Hkm].
    - injection Hb as <-. cbn [bd_beg bd_end]. split; [reflexivity|].
      destruct (Nat.eqb_spec m pd); [injection Eq as <-; reflexivity|]. rewrite Eq. reflexivity.
    - rewrite (set_nth_get _ _ _ _ k E1) in Hb. destruct (Nat.eqb_spec k pd) as [->|].
      + injection Hb as <-. cbn [bd_beg bd_end]. rewrite Ep. split; reflexivity.
      + rewrite Hb. auto. }
  unfold placed; cbn [fst snd]. split; [lia|]. split; [|split].
  - intros k b Hk Hb. destruct (G k b Hb) as [-> _]. destruct (Nat.eqb_spec k m) as [->|]; auto.
    destruct (nth_error bs k) eqn:Ek; [apply (H2 k); auto; lia|]. apply nth_error_None in Ek. lia.
  - intros k b Hk Hs Hb. destruct (G k b Hb) as [_ ->]. destruct (Nat.eqb_spec k pd) as [->|Hne]; [rewrite P2; auto|].
    destruct (nth_error bs k) eqn:Ek; [|apply nth_error_None in Ek; lia]. apply (H3 k); auto.
    assert (Nat.modulo (S k) n <> m) by (intros X; apply Hne, succ_inj; auto). lia.
  - reflexivity.
Qed.
Lemma place_ghosts_loop j : forall m st, (m + j = n)%nat -> placed m st ->
  exists bs, place_ghosts o g n ng (seq m j) st = Some bs /\ exists pr, placed n (bs, pr).
Proof.
  induction j as [|j IH]; intros m st Hj Hp.
  - simpl. exists (fst st). split; auto. exists (snd st). replace n with m by lia. destruct st; exact Hp.
  - cbn [seq place_ghosts]. destruct (place_ghost_step m st ltac:(lia) Hp) as (st' & -> & Hp'). cbn [obind]. apply IH; auto. lia.
Qed.
Lemma place_ghosts_spec : exists bs, place_ghosts o g n ng (seq 0 n) (repeat (Bounds 0 0) n, None) = Some bs /\ length bs = n /\
  forall k, (k < n)%nat -> nth_error bs k = Some (Bounds (B k) (E (Nat.modulo (S k) n))).
Proof.
  destruct (place_ghosts_loop n 0 (repeat (Bounds 0 0) n, None)) as (bs & Eb & pr & H1 & H2 & H3 & _).
  - lia.
  - split; [apply repeat_length|]. split; [intros; lia|]. split; [intros; lia|]. reflexivity.
  - exists bs. split; auto. cbn [fst] in *. split; auto. intros k Hk. destruct (nth_error bs k) as [[b e]|] eqn:Ek.
    + pose proof (H2 k _ Hk Ek) as X. pose proof (H3 k _ Hk ltac:(apply Nat.mod_upper_bound; lia) Ek) as Y. cbn [bd_beg bd_end] in X, Y. subst. reflexivity.
    + apply nth_error_None in Ek. lia.
Qed.
Lemma active_spec k x : (k < n)%nat -> 0 <= x < 1 ->
  between (Bounds (B k) (E (Nat.modulo (S k) n))) x = true <-> between_ghosts ng ccell g k x.
Proof.
  intros Hk Hx. destruct (mid_lo k Hk) as [_ L2].
  pose proof (mid_gap k Hk) as Hgap. destruct (mid_lo (Nat.modulo (S k) n) ltac:(apply Nat.mod_upper_bound; lia)) as [L3 L4].
  pose proof N1. assert (0 < 1 / N) by (apply Rdiv_lt_0_compat; lra). fold N in Hg1.
  destruct (fit_spec (mid k + g / 2)) as (F1 & z1 & F2); [pose proof (mid_lo k Hk); lra|].
  destruct (fit_spec (mid (Nat.modulo (S k) n) - g / 2)) as (F3 & z2 & F4); [lra|].
  assert (Hm : exists z, mid (Nat.modulo (S k) n) = mid (S k) + IZR z).
  { destruct (Nat.eq_dec (S k) n) as [En|En].
    - rewrite En, Nat.mod_same by lia. exists (-1)%Z. rewrite mid_n. lra.
    - rewrite Nat.mod_small by lia. exists 0%Z. lra. }
  destruct Hm as (z3 & Hm).
  apply (between_spec _ _ x (mid k + g / 2) (mid (S k) - g / 2) z1 (z2 + z3)); auto.
  - fold (E (Nat.modulo (S k) n)) in F4. cbv beta in *. rewrite F4, plus_IZR, Hm. ring.
Qed.
End Axis.

Lemma thickness_split h r tr ng : 0 < h -> (1 <= ng)%Z -> ghost_thickness h r tr ng = (tr - r) / h + 1 / IZR ng.
Proof. intros Hh Hn. unfold ghost_thickness. apply IZR_le in Hn. field. lra. Qed.
Lemma thickness_cell h r tr ng : 0 < h -> (1 <= ng)%Z -> r <= tr -> 1 / IZR ng <= ghost_thickness h r tr ng.
Proof.
  intros Hh Hn Hr. rewrite thickness_split by auto. assert (0 <= (tr - r) / h); [|lra].
  apply Rmult_le_pos; [lra|]. left. apply Rinv_0_lt_compat. auto.
Qed.

Definition axis_done (o g : R) (n : nat) (ng : Z) (bs : list bounds) (cells : nat -> Z) : Prop :=
  ghost_cells o n ng cells /\ length bs = n /\
  (forall k, (k < n)%nat -> cell_middle ng (cells k) + g / 2 < cell_middle ng (cells (S k)) - g / 2) /\
  forall k, (k < n)%nat -> exists b, nth_error bs k = Some b /\
    forall x, 0 <= x < 1 -> between b x = true <-> between_ghosts ng cells g k x.

Lemma prepare_axis_spec h r tr o n ng : 0 < h -> r <= tr -> legal_axis h r o n ng ->
  match prepare_axis h r tr o n ng with
  | AxisFailed => False
  | AxisTooNarrow => too_narrow h r tr n ng
  | AxisReady bs => ~ too_narrow h r tr n ng /\
      ((2 <= n)%nat -> exists cells, axis_done o (ghost_thickness h r tr ng) n ng bs cells)
  end.
Proof.
  intros Hh Hr (Ho & Hn & Hng & Hc). unfold prepare_axis.
  assert (A : (Rleb 0 o && Rltb o 1)%bool = true) by (apply andb_true_iff; split; [apply Rleb_true|apply Rltb_true]; lra).
  rewrite A. cbn [negb]. destruct (Nat.ltb_spec 0 n); [|lia]. cbn [negb]. destruct (Z.ltb_spec 0 ng); [|lia]. cbn [negb].
  destruct (Nat.ltb_spec n 2) as [H2|H2].
  - split; [unfold too_narrow; lia|lia].
  - assert (B : Rleb r (h / IZR ng) = true) by (apply Rleb_true; auto). rewrite B. cbn [negb]. cbv zeta.
    fold (ghost_thickness h r tr ng).
    destruct (Rleb (1 / INR n - ghost_thickness h r tr ng) (1 / IZR ng)) eqn:C.
    + apply Rleb_true in C. split; auto.
    + apply Rleb_false in C. pose proof (thickness_cell h r tr ng Hh Hng Hr) as Hg.
      set (g := ghost_thickness h r tr ng) in *.
      assert (Hg2 : g < 1 / INR n - 1 / IZR ng) by lra.
      destruct (place_ghosts_spec o g n ng H2 Hng Hg Hg2) as (bs & -> & Hl & Hb).
      split; [intros [_ X]; fold g in X; lra|]. intros _. exists (ccell o n ng). split; [|split; [|split]]; auto.
      * split; [|apply wrap_cell; auto]. intros k Hk. apply near; auto.
      * intros k Hk. apply mid_gap; auto.
      * intros k Hk. eexists. split; [apply Hb; auto|]. intros x Hx. apply active_spec; auto.
Qed.

Section Done.
Variables (o g : R) (n : nat) (ng : Z) (cells : nat -> Z).
Hypothesis Hn : (2 <= n)%nat.
Hypothesis Hng : (1 <= ng)%Z.
Hypothesis Hg : 1 / IZR ng <= g.
Hypothesis HG : ghost_cells o n ng cells.
Hypothesis Hgap : forall k, (k < n)%nat -> cell_middle ng (cells k) + g / 2 < cell_middle ng (cells (S k)) - g / 2.
Local Notation mid k := (cell_middle ng (cells k)).
Lemma d_N : 1 <= IZR ng. Proof. apply IZR_le. auto. Qed.
Lemma d_g : 0 < g. Proof. pose proof d_N. assert (0 < 1 / IZR ng) by (apply Rdiv_lt_0_compat; lra). lra. Qed.
Lemma d_mono k l : (k <= l)%nat -> (l <= n)%nat -> mid k <= mid l.
Proof.
  intros Hk. induction Hk as [|l Hk IH]; intros Hl; [lra|]. pose proof (Hgap l ltac:(lia)). pose proof d_g. specialize (IH ltac:(lia)). lra.
Qed.
Lemma d_wrap : mid n = mid 0%nat + 1.
Proof. destruct HG as [_ ->]. unfold cell_middle. rewrite plus_IZR. pose proof d_N. field. lra. Qed.
Lemma d_bounds k : (k <= n)%nat -> o + INR k / INR n - 1 / IZR ng / 2 <= mid k <= o + INR k / INR n + 1 / IZR ng / 2.
Proof.
  pose proof d_N. assert (Hh : 1 / (2 * IZR ng) = 1 / IZR ng / 2) by (field; lra).
  assert (HnR : 2 <= INR n) by (apply (le_INR 2); auto).
  intros Hk. destruct HG as [HG1 _]. destruct (Nat.eq_dec k n) as [->|].
  - pose proof (HG1 0%nat ltac:(lia)) as H0. apply Rabs_le_inv in H0. rewrite Hh in H0. rewrite d_wrap.
    replace (INR n / INR n) with 1 by (field; lra). simpl INR in H0. replace (0 / INR n) with 0 in H0 by (field; lra). lra.
  - pose proof (HG1 k ltac:(lia)) as H0. apply Rabs_le_inv in H0. lra.
Qed.
(** The active part of a domain is within the theoretical domain. *)
Lemma d_coord k x : (k < n)%nat -> 0 <= x < 1 -> between_ghosts ng cells g k x ->
  Z.to_nat ((Rfl ((x - o) * IZR (Z.of_nat n)) + Z.of_nat n) mod Z.of_nat n) = k.
Proof.
  intros Hk Hx (z & Hz1 & Hz2). pose proof (d_bounds k ltac:(lia)) as B1. pose proof (d_bounds (S k) ltac:(lia)) as B2.
  assert (HnR : 2 <= INR n) by (apply (le_INR 2); auto). rewrite S_INR in B2.
  rewrite <- INR_IZR_INZ.
  assert (Hf : Rfl ((x - o) * INR n) = (Z.of_nat k - z * Z.of_nat n)%Z).
  { apply Rfl_unique. rewrite minus_IZR, mult_IZR, <- !INR_IZR_INZ.
    assert (X1 : INR k / INR n < x + IZR z - o) by lra. assert (X2 : x + IZR z - o < (INR k + 1) / INR n) by lra.
    assert (Y1 : INR k / INR n * INR n = INR k) by (field; lra). assert (Y2 : (INR k + 1) / INR n * INR n = INR k + 1) by (field; lra).
    assert (Z1 : INR k / INR n * INR n < (x + IZR z - o) * INR n) by (apply Rmult_lt_compat_r; lra).
    assert (Z2 : (x + IZR z - o) * INR n < (INR k + 1) / INR n * INR n) by (apply Rmult_lt_compat_r; lra).
    split; lra. }
  rewrite Hf. replace (Z.of_nat k - z * Z.of_nat n + Z.of_nat n)%Z with (Z.of_nat k + (1 - z) * Z.of_nat n)%Z by ring.
  rewrite Z.mod_add by lia. rewrite Z.mod_small by lia. apply Nat2Z.id.
Qed.
Lemma d_apart_lt k l x y : (k < l)%nat -> (l < n)%nat -> between_ghosts ng cells g k x -> between_ghosts ng cells g l y ->
  forall z : Z, g < Rabs (y - x + IZR z).
Proof.
  intros Hk Hl (z1 & A1 & A2) (z2 & B1 & B2) z.
  pose proof (d_mono (S k) l ltac:(lia) ltac:(lia)). pose proof (d_mono (S l) n ltac:(lia) ltac:(lia)).
  pose proof (d_mono 0 k ltac:(lia) ltac:(lia)). pose proof d_wrap.
  pose proof d_g.
  set (d := y + IZR z2 - (x + IZR z1)). assert (D : g < d < 1 - g) by (unfold d; lra).
  set (t := (z - z2 + z1)%Z). assert (E : y - x + IZR z = d + IZR t) by (unfold d, t; rewrite plus_IZR, minus_IZR; ring).
  rewrite E. destruct (Z_le_gt_dec 0 t) as [Ht|Ht].
  - apply IZR_le in Ht. rewrite Rabs_right; lra.
  - assert (Ht' : (t <= -1)%Z) by lia. apply IZR_le in Ht'. rewrite Rabs_left; lra.
Qed.
Lemma d_apart k l x y : k <> l -> (k < n)%nat -> (l < n)%nat -> between_ghosts ng cells g k x -> between_ghosts ng cells g l y ->
  forall z : Z, g < Rabs (y - x + IZR z).
Proof.
  intros Hkl Hk Hl Hx Hy z. destruct (Nat.lt_ge_cases k l).
  - apply (d_apart_lt k l); auto.
  - pose proof (d_apart_lt l k y x ltac:(lia) Hk Hy Hx (- z)%Z) as H'. rewrite opp_IZR in H'.
    rewrite <- Rabs_Ropp. replace (- (y - x + IZR z)) with (x - y + - IZR z) by ring. auto.
Qed.
(** Cells of sites. *)
Lemma d_cell k x off : (k < n)%nat -> between_ghosts ng cells g k x -> Rabs off <= g / 2 - 1 / IZR ng / 2 ->
  exists z : Z, (cells k < Rfl (IZR ng * (x + off)) + z * ng < cells (S k))%Z.
Proof.
  intros Hk (z & A1 & A2) Hoff. apply Rabs_le_inv in Hoff. pose proof d_N. exists z.
  assert (E : (Rfl (IZR ng * (x + off)) + z * ng)%Z = Rfl (IZR ng * (x + IZR z + off))).
  { rewrite <- Rfl_add_Z. f_equal. rewrite mult_IZR. ring. }
  rewrite E. unfold cell_middle in A1, A2.
  assert (U : IZR ng * (1 / IZR ng) = 1) by (field; lra).
  assert (V1 : (IZR (cells k) + 1 / 2) / IZR ng * IZR ng = IZR (cells k) + 1 / 2) by (field; lra).
  assert (V2 : (IZR (cells (S k)) + 1 / 2) / IZR ng * IZR ng = IZR (cells (S k)) + 1 / 2) by (field; lra).
  split.
  - enough ((cells k + 1 <= Rfl (IZR ng * (x + IZR z + off)))%Z) by lia. apply Rfl_le. rewrite plus_IZR. nra.
  - apply Rfl_lt. nra.
Qed.
Lemma cells_mono k l : (k <= l)%nat -> (l <= n)%nat -> (cells k <= cells l)%Z.
Proof.
  intros Hk Hl. pose proof (d_mono k l Hk Hl) as H. unfold cell_middle in H. pose proof d_N as HN.
  apply le_IZR. apply Rmult_le_reg_r with (/ IZR ng); [apply Rinv_0_lt_compat; lra|]. unfold Rdiv in H. lra.
Qed.
Lemma d_cells_apart_lt k l x y off off' : (k < l)%nat -> (l < n)%nat -> between_ghosts ng cells g k x -> between_ghosts ng cells g l y ->
  Rabs off <= g / 2 - 1 / IZR ng / 2 -> Rabs off' <= g / 2 - 1 / IZR ng / 2 ->
  forall z : Z, (2 <= Z.abs (Rfl (IZR ng * (y + off')) - Rfl (IZR ng * (x + off)) + z * ng))%Z.
Proof.
  intros Hk Hl Hx Hy Ho Ho' z. destruct (d_cell k x off ltac:(lia) Hx Ho) as (z1 & A1 & A2).
  destruct (d_cell l y off' ltac:(lia) Hy Ho') as (z2 & B1 & B2).
  pose proof (cells_mono (S k) l ltac:(lia) ltac:(lia)). pose proof (cells_mono (S l) n ltac:(lia) ltac:(lia)).
  pose proof (cells_mono 0 k ltac:(lia) ltac:(lia)). pose proof (proj2 HG) as Hw.
  set (cx := Rfl (IZR ng * (x + off))) in *. set (cy := Rfl (IZR ng * (y + off'))) in *.
  destruct (Z_le_gt_dec 0 (z - z2 + z1)); nia.
Qed.
Lemma d_cells_apart k l x y off off' : k <> l -> (k < n)%nat -> (l < n)%nat -> between_ghosts ng cells g k x -> between_ghosts ng cells g l y ->
  Rabs off <= g / 2 - 1 / IZR ng / 2 -> Rabs off' <= g / 2 - 1 / IZR ng / 2 ->
  forall z : Z, (2 <= Z.abs (Rfl (IZR ng * (y + off')) - Rfl (IZR ng * (x + off)) + z * ng))%Z.
Proof.
  intros Hkl Hk Hl Hx Hy Ho Ho' z. destruct (Nat.lt_ge_cases k l).
  - apply (d_cells_apart_lt k l); auto.
  - pose proof (d_cells_apart_lt l k y x off' off ltac:(lia) Hk Hy Hx Ho' Ho (- z)%Z) as H'. lia.
Qed.
End Done.
