(** Outcomes of a decomposition and of the retry loop. *)
From Coq Require Import Reals ZArith List Bool Lia Lra.
From Verif Require Import GeomModel BoxModel BoxSpec RFloorModel PbcModel PbcSpec NGModel NGSpec GeomProofs BoxProofs RFloorProofs PbcProofs NGListProofs NGProofs NGPairProofs.
From Verif Require Import PackModel PackSpec PackCountProofs PackGridProofs PackInvProofs PackHistProofs PackFinalProofs DomModel DomSpec DomProofs DomDecProofs.
Import ListNotations.
Open Scope R_scope.

Definition ghosts (pk : packing) (inter : interaction) (ng : axis -> Z) (a : axis) : R :=
  ghost_thickness (box_height (pk_box pk) a) (in_rangeRadius inter) (in_totalRange inter) (ng a).

Definition earlier (a a' : axis) : Prop := match a, a' with AX, AY | AX, AZ | AY, AZ => True | _, _ => False end.

Section D.
Variables (pk : packing) (inter : interaction) (div : axis -> nat) (ng : axis -> Z) (origin : vec).
Hypothesis HP : well_placed pk.
Hypothesis Hr : in_rangeRadius inter <= in_totalRange inter.
Hypothesis HL : legal_decomposition pk inter div ng origin.
Notation b := (pk_box pk).
Notation orel := (absoluteToRelative (pk_box pk) origin).

Lemma wp_valid : valid_box b. Proof. apply constructed_valid, HP. Qed.

Lemma decomposition_spec :
  match makeDecomposition pk inter div ng origin with
  | DdFailed => False
  | DdTooNarrow a => narrow_axis pk inter div ng a /\ forall a', earlier a' a -> ~ narrow_axis pk inter div ng a'
  | DdReady d => (forall a, ~ narrow_axis pk inter div ng a) /\ dd_div d = div /\ dd_box d = b /\
     exists cells : axis -> nat -> Z,
       (forall a, (2 <= div a)%nat -> ghost_cells (vget orel a) (div a) (ng a) (cells a)) /\
       (forall a k, (2 <= div a)%nat -> (k < div a)%nat ->
          cell_middle (ng a) (cells a k) + ghosts pk inter ng a / 2 < cell_middle (ng a) (cells a (S k)) - ghosts pk inter ng a / 2) /\
       forall c, valid_coords div c -> exists ad, getActiveDomainBounds d c = Some ad /\ ad_box ad = b /\
         (forall p, in_box b p -> isInside ad p = true <->
            forall a, (2 <= div a)%nat -> between_ghosts (ng a) (cells a) (ghosts pk inter ng a) (c a) (vget (absoluteToRelative b p) a)) /\
         getParticlesInRegion d c = Some (filter (fun i => isInside ad (nth i (map pt_pos (pk_parts pk)) vzero)) (seq 0 (pk_size pk)))
  end.
Proof.
  unfold makeDecomposition. pose proof wp_valid as Hv.
  pose proof (fun a => prepare_axis_spec _ _ _ _ _ _ (height_pos b a Hv) Hr (HL a)) as HA.
  cbv zeta. pose proof (HA AX) as HX. pose proof (HA AY) as HY. pose proof (HA AZ) as HZ.
  destruct (prepare_axis _ _ _ _ (div AX) (ng AX)) as [bx| |]; [|split; [exact HX|intros [| |] []]|exact HX].
  destruct (prepare_axis _ _ _ _ (div AY) (ng AY)) as [by_| |]; [|split; [exact HY|intros [| |] H; destruct H; apply HX]|exact HY].
  destruct (prepare_axis _ _ _ _ (div AZ) (ng AZ)) as [bz| |]; [|split; [exact HZ|intros [| |] H; destruct H; [apply HX|apply HY]]|exact HZ].
  set (bs := fun a => match a with AX => bx | AY => by_ | AZ => bz end).
  assert (HD : exists cells : axis -> nat -> Z, forall a, (2 <= div a)%nat ->
            axis_done (vget orel a) (ghosts pk inter ng a) (div a) (ng a) (bs a) (cells a)).
  { assert (HE : forall a, exists cl : nat -> Z, (2 <= div a)%nat -> axis_done (vget orel a) (ghosts pk inter ng a) (div a) (ng a) (bs a) cl).
    { intros a. destruct (Nat.lt_ge_cases (div a) 2) as [H2|H2]; [exists (fun _ => 0%Z); lia|].
      destruct a; [destruct (proj2 HX H2) as (cl & H)|destruct (proj2 HY H2) as (cl & H)|destruct (proj2 HZ H2) as (cl & H)]; exists cl; auto. }
    destruct (HE AX) as (cx & X). destruct (HE AY) as (cy & Y). destruct (HE AZ) as (cz & Z).
    exists (fun a => match a with AX => cx | AY => cy | AZ => cz end). intros [| |]; auto. }
  destruct HD as (cells & HD).
  assert (Hdiv : forall a, (1 <= div a)%nat) by (intros a; apply (HL a)).
  assert (Hng : forall a, (1 <= ng a)%Z) by (intros a; apply (HL a)).
  assert (Hg : forall a, 1 / IZR (ng a) <= ghosts pk inter ng a) by (intros a; apply thickness_cell; auto; apply height_pos; auto).
  assert (Hor : forall a, 0 <= vget orel a < 1) by (intros a; apply (HL a)).
  destruct (populate_spec b div bs ng (ghosts pk inter ng) orel cells Hdiv Hng Hg Hor HD (map pt_pos (pk_parts pk))) as (r & Er & Lr & Gr).
  { intros p Hp. apply in_map_iff in Hp. destruct Hp as (q & <- & Hq). apply HP; auto. }
  fold bs. rewrite Er. split; [intros [| |]; [apply HX|apply HY|apply HZ]|]. split; [reflexivity|]. split; [reflexivity|].
  exists cells. split; [intros a H2; apply (HD a H2)|]. split; [intros a k H2 Hk; apply (HD a H2); auto|].
  intros c Hc. destruct (bounds_spec b div bs ng (ghosts pk inter ng) orel cells Hdiv Hng Hg Hor HD r c Hc) as (ad & Ea & Eb & Hin).
  exists ad. split; auto. split; auto. split.
  - intros p Hp. rewrite Hin, in_region_act. split.
    + intros H a. exact (proj1 (act_spec div bs ng (ghosts pk inter ng) orel cells Hdiv Hng Hg Hor HD a (c a) _ (Hc a) (Hp a)) (H a)).
    + intros H a. exact (proj2 (act_spec div bs ng (ghosts pk inter ng) orel cells Hdiv Hng Hg Hor HD a (c a) _ (Hc a) (Hp a)) (H a)).
  - unfold getParticlesInRegion. cbn [dd_div dd_regions]. destruct (coordToIdx_valid div c Hc) as [Ei _]. rewrite Ei. cbn [obind].
    rewrite (Gr c _ Hc Ei). rewrite map_length. f_equal. apply filter_ext. intros i. symmetry. apply Hin.
Qed.

Lemma outcome : (exists a, narrow_axis pk inter div ng a /\ makeDecomposition pk inter div ng origin = DdTooNarrow a) \/
  ((forall a, ~ narrow_axis pk inter div ng a) /\ exists d, makeDecomposition pk inter div ng origin = DdReady d).
Proof.
  pose proof decomposition_spec as H. destruct (makeDecomposition pk inter div ng origin) as [d|a|]; [right|left|contradiction].
  - split; [apply H|eauto].
  - exists a. split; auto. apply H.
Qed.

Section Ready.
Variable d : decomposition.
Hypothesis Hd : makeDecomposition pk inter div ng origin = DdReady d.
Variables (c c' : axis -> nat) (ad ad' : activeDomain) (p q : vec).
Hypothesis Hc : valid_coords div c.
Hypothesis Hc' : valid_coords div c'.
Hypothesis Had : getActiveDomainBounds d c = Some ad.
Hypothesis Had' : getActiveDomainBounds d c' = Some ad'.
Hypothesis Hp : in_box b p.
Hypothesis Hq : in_box b q.
Hypothesis Ip : isInside ad p = true.
Hypothesis Iq : isInside ad' q = true.

Lemma apart_axis a : c a <> c' a -> (2 <= div a)%nat /\
  (forall z : Z, ghosts pk inter ng a < Rabs (vget (absoluteToRelative b q) a - vget (absoluteToRelative b p) a + IZR z)) /\
  forall off off', Rabs off <= ghosts pk inter ng a / 2 - 1 / IZR (ng a) / 2 -> Rabs off' <= ghosts pk inter ng a / 2 - 1 / IZR (ng a) / 2 ->
    forall z : Z, (2 <= Z.abs (Rfl (IZR (ng a) * (vget (absoluteToRelative b q) a + off')) -
                               Rfl (IZR (ng a) * (vget (absoluteToRelative b p) a + off)) + z * ng a))%Z.
Proof.
  intros Hne. assert (H2 : (2 <= div a)%nat) by (pose proof (Hc a); pose proof (Hc' a); lia). split; auto.
  pose proof decomposition_spec as H. rewrite Hd in H. destruct H as (_ & _ & _ & cells & HG & Hgap & HA).
  destruct (HA c Hc) as (ad1 & E1 & _ & I1 & _). destruct (HA c' Hc') as (ad2 & E2 & _ & I2 & _).
  assert (ad1 = ad) by congruence. assert (ad2 = ad') by congruence. subst ad1 ad2.
  pose proof (proj1 (I1 p Hp) Ip a H2) as B1. pose proof (proj1 (I2 q Hq) Iq a H2) as B2.
  assert (Hng : (1 <= ng a)%Z) by apply (HL a).
  assert (Hg : 1 / IZR (ng a) <= ghosts pk inter ng a) by (apply thickness_cell; auto; apply height_pos, wp_valid).
  split.
  - apply (d_apart (vget orel a) (ghosts pk inter ng a) (div a) (ng a) (cells a)) with (k := c a) (l := c' a); auto.
  - intros off off' Ho Ho' z. apply (d_cells_apart (vget orel a) (ghosts pk inter ng a) (div a) (ng a) (cells a)) with (k := c a) (l := c' a); auto.
Qed.

Lemma apart_distance a t : c a <> c' a -> is_lattice_vector b t ->
  in_totalRange inter - in_rangeRadius inter + box_height b a / IZR (ng a) < vnorm (vsub (vadd q t) p).
Proof.
  intros Hne (i & j & k & ->). destruct (apart_axis a Hne) as (_ & H & _). pose proof wp_valid as Hv.
  eapply Rlt_le_trans; [|apply (height_bound b a _ Hv)].
  assert (Hz : exists z, vget (absoluteToRelative b (vsub (vadd q (lattice_vector b i j k)) p)) a =
                         vget (absoluteToRelative b q) a - vget (absoluteToRelative b p) a + IZR z).
  { rewrite a2r_sub, a2r_add, a2r_lattice by auto. rewrite vget_vsub, vget_vadd.
    exists (match a with AX => i | AY => j | AZ => k end). destruct a; simpl; ring. }
  destruct Hz as (z & ->). specialize (H z). pose proof (height_pos b a Hv) as Hh.
  apply (Rmult_lt_compat_r (box_height b a)) in H; auto. eapply Rle_lt_trans; [|exact H].
  right. unfold ghosts, ghost_thickness. assert (Hn : (1 <= ng a)%Z) by apply (HL a). apply IZR_le in Hn. field. lra.
Qed.

(** Sites: a reach of at most half of the ghost layer without the grid cell. *)
Lemma reach_rel a v : 2 * vnorm v <= in_totalRange inter - in_rangeRadius inter ->
  Rabs (vget (absoluteToRelative b v) a) <= ghosts pk inter ng a / 2 - 1 / IZR (ng a) / 2.
Proof.
  intros Hv. pose proof wp_valid as Hb. pose proof (height_pos b a Hb) as Hh. pose proof (height_bound b a v Hb) as HB.
  assert (Hn : (1 <= ng a)%Z) by apply (HL a). unfold ghosts. rewrite thickness_split by auto.
  apply Rmult_le_reg_r with (box_height b a); auto.
  replace (((in_totalRange inter - in_rangeRadius inter) / box_height b a + 1 / IZR (ng a)) / 2 - 1 / IZR (ng a) / 2)
     with ((in_totalRange inter - in_rangeRadius inter) / box_height b a / 2) by lra.
  replace ((in_totalRange inter - in_rangeRadius inter) / box_height b a / 2 * box_height b a)
     with ((in_totalRange inter - in_rangeRadius inter) / 2) by (field; lra). lra.
Qed.
Lemma sites_apart a u v t : c a <> c' a -> is_lattice_vector b t ->
  2 * vnorm u <= in_totalRange inter - in_rangeRadius inter -> 2 * vnorm v <= in_totalRange inter - in_rangeRadius inter ->
  box_height b a / IZR (ng a) < vnorm (vsub (vadd (vadd q v) t) (vadd p u)).
Proof.
  intros Hne Ht Hu Hv. pose proof (apart_distance a t Hne Ht) as H.
  assert (T : vnorm (vsub (vadd q t) p) <= vnorm (vsub (vadd (vadd q v) t) (vadd p u)) + vnorm (vsub u v)).
  { eapply Rle_trans; [|apply vnorm_triangle]. right. f_equal. apply vec_ext; simpl; ring. }
  assert (T2 : vnorm (vsub u v) <= vnorm u + vnorm v).
  { replace (vsub u v) with (vadd u (vneg v)) by (apply vec_ext; simpl; ring). eapply Rle_trans; [apply vnorm_triangle|].
    right. f_equal. unfold vnorm. f_equal. unfold vnorm2, vdot; simpl; ring. }
  lra.
Qed.
Lemma cells_apart a u v : c a <> c' a ->
  2 * vnorm u <= in_totalRange inter - in_rangeRadius inter -> 2 * vnorm v <= in_totalRange inter - in_rangeRadius inter ->
  forall z : Z, (2 <= Z.abs (slice (ng a) (vget (absoluteToRelative b (vadd q v)) a) -
                             slice (ng a) (vget (absoluteToRelative b (vadd p u)) a) + z * ng a))%Z.
Proof.
  intros Hne Hu Hv z. destruct (apart_axis a Hne) as (_ & _ & H). unfold slice.
  rewrite !a2r_add, !vget_vadd. apply H; apply reach_rel; auto.
Qed.
End Ready.
End D.

(** *** Retrying *)
Section Retry.
Variables (pk : packing) (inter : interaction) (ng : axis -> Z) (origins : nat -> vec).
Hypothesis HP : well_placed pk.
Hypothesis Hr : in_rangeRadius inter <= in_totalRange inter.
Hypothesis Ho : forall k, in_box (pk_box pk) (origins k).
Notation h := (box_height (pk_box pk)).
Notation r := (in_rangeRadius inter).
Notation tr := (in_totalRange inter).
Definition div_ok (div : axis -> nat) : Prop :=
  forall a, (1 <= div a)%nat /\ (1 <= ng a)%Z /\ ((2 <= div a)%nat -> r <= h a / IZR (ng a)).
Lemma div_ok_legal div k : div_ok div -> legal_decomposition pk inter div ng (origins k).
Proof. intros H a. destruct (H a) as (H1 & H2 & H3). split; [apply (Ho k a)|]. auto. Qed.
Lemma decrement_get div a a' : decrement div a a' = (if axis_eqb a' a then (div a' - 1)%nat else div a'). Proof. reflexivity. Qed.
Lemma axis_eqb_spec a a' : axis_eqb a a' = true <-> a = a'. Proof. destruct a, a'; simpl; split; congruence. Qed.
Definition attempt (k : nat) (div : axis -> nat) : option axis := narrow_along (makeDecomposition pk inter div ng (origins k)).
Definition total (div : axis -> nat) : nat := (div AX + div AY + div AZ)%nat.

Lemma retry_loop div0 : forall m div k, total div = m -> div_ok div ->
  (forall a, (div a <= div0 a)%nat /\ forall m', (div a < m' <= div0 a)%nat -> too_narrow (h a) r tr m' (ng a)) ->
  exists div' sq, (forall fuel, (m <= fuel)%nat -> performMoves fuel k attempt div = Some (div', sq)) /\
    (forall a, best_division (h a) r tr (ng a) (div0 a) (div' a)) /\
    (sq = true <-> forall a, div' a = 1%nat) /\
    forall origin, in_box (pk_box pk) origin -> exists d, makeDecomposition pk inter div' ng origin = DdReady d.
Proof.
  induction m as [m IH] using lt_wf_ind. intros div k Hm Hok Hinv.
  assert (Hend : forall sq, (sq = true <-> forall a, div a = 1%nat) -> (forall a, ~ too_narrow (h a) r tr (div a) (ng a)) ->
     (forall fuel, (m <= fuel)%nat -> performMoves fuel k attempt div = Some (div, sq)) ->
     exists div' sq, (forall fuel, (m <= fuel)%nat -> performMoves fuel k attempt div = Some (div', sq)) /\
    (forall a, best_division (h a) r tr (ng a) (div0 a) (div' a)) /\
    (sq = true <-> forall a, div' a = 1%nat) /\
    forall origin, in_box (pk_box pk) origin -> exists d, makeDecomposition pk inter div' ng origin = DdReady d).
  { intros sq Hsq Hn He. exists div, sq. split; auto. split.
    - intros a. destruct (Hinv a) as [Hle Hn']. split; [split; [apply Hok|auto]|]. split; auto.
    - split; auto. intros origin Hor.
      assert (HLd : legal_decomposition pk inter div ng origin) by (intros a; destruct (Hok a) as (? & ? & ?); split; [apply Hor|auto]).
      destruct (outcome pk inter div ng origin HP Hr HLd) as [(a & Ha & _)|[_ H]]; auto. exfalso. apply (Hn a Ha). }
  assert (Hpos : (1 <= m)%nat) by (destruct (Hok AX); unfold total in Hm; lia).
  destruct (Nat.eqb_spec (num_domains div) 1) as [E1|E1].
  - assert (Hone : forall a, div a = 1%nat).
    { unfold num_domains in E1. apply Nat.eq_mul_1 in E1. destruct E1 as [E1 E2]. apply Nat.eq_mul_1 in E1. destruct E1.
      intros [| |]; auto. }
    apply (Hend true); [tauto|intros a [X _]; rewrite Hone in X; lia|]. intros fuel Hf. destruct fuel; [lia|]. simpl. rewrite (proj2 (Nat.eqb_eq _ _) E1). reflexivity.
  - destruct (outcome pk inter div ng (origins k) HP Hr (div_ok_legal div k Hok)) as [(a & Ha & Ea)|[Hn (d & Ed)]].
    + destruct Ha as [H2 Ha].
      destruct (IH (m - 1)%nat ltac:(lia) (decrement div a) (S k)) as (div' & sq & HR & HB & Hsq & HF).
      * unfold total, decrement. unfold total in Hm. destruct a; cbn [axis_eqb]; lia.
      * intros a'. destruct (Hok a') as (X1 & X2 & X3). rewrite decrement_get.
        destruct (axis_eqb a' a) eqn:Ex; [apply axis_eqb_spec in Ex; subst a'|]; (split; [lia|]; split; auto; intros; apply X3; lia).
      * intros a'. destruct (Hinv a') as (X1 & X2). rewrite decrement_get.
        destruct (axis_eqb a' a) eqn:Ex; [apply axis_eqb_spec in Ex; subst a'|split; auto].
        split; [lia|]. intros m' Hm'. destruct (Nat.eq_dec m' (div a)) as [->|Hne]; [split; auto|]. apply X2. lia.
      * exists div', sq. split; auto. intros fuel Hf. destruct fuel; [lia|]. simpl. rewrite (proj2 (Nat.eqb_neq _ _) E1).
        unfold attempt at 1. rewrite Ea. simpl. apply HR. lia.
    + apply (Hend false).
      * split; [discriminate|]. intros H. exfalso. apply E1. unfold num_domains. rewrite !H. reflexivity.
      * exact Hn.
      * intros fuel Hf. destruct fuel; [lia|]. simpl. rewrite (proj2 (Nat.eqb_neq _ _) E1). unfold attempt at 1. rewrite Ed. reflexivity.
Qed.
End Retry.

(** *** Packings *)
Lemma inv_well_placed inter pk : inv inter pk -> well_placed pk.
Proof.
  intros Hi. split; [apply constructed_valid, (i_box _ _ Hi)|]. intros p Hp. pose proof (i_parts _ _ Hi) as F.
  rewrite Forall_forall in F. apply (F p Hp).
Qed.
Lemma inv_divisions inter pk g : inv inter pk -> pk_ng pk = Some g ->
  forall a, (1 <= cget (getCellDivisions g) a)%Z /\ in_rangeRadius inter <= box_height (pk_box pk) a / IZR (cget (getCellDivisions g) a).
Proof.
  intros Hi E a. pose proof (i_ng _ _ Hi) as H. rewrite E in H. destruct H as (s & E1 & H2 & H3 & G & _).
  rewrite (ginv_divisions _ _ _ G). pose proof G as ((_ & Hc & _) & _).
  assert (En : cget (C3 (st_n s AX) (st_n s AY) (st_n s AZ)) a = st_n s a) by (destruct a; reflexivity). rewrite En.
  unfold st_n, cells_per_axis. rewrite E1. set (q := box_height (pk_box pk) a / st_cellSize s).
  pose proof (H3 a) as H3a. rewrite <- (i_range _ _ Hi).
  assert (Hq : 1 < q). { unfold q. apply Rmult_lt_reg_r with (st_cellSize s); auto. unfold Rdiv. rewrite Rmult_assoc, Rinv_l by lra. lra. }
  assert (H1 : (1 <= Rfl q)%Z) by (apply Rfl_le; lra). split; auto.
  pose proof (proj1 (Rfl_spec q)) as Hf. apply IZR_le in H1.
  apply Rmult_le_reg_r with (IZR (Rfl q)); [lra|]. unfold Rdiv. rewrite Rmult_assoc, Rinv_l by lra.
  apply Rle_trans with (st_cellSize s * q); [|unfold q; right; field; lra].
  apply Rle_trans with (st_cellSize s * IZR (Rfl q)); [apply Rmult_le_compat_r; lra|apply Rmult_le_compat_l; lra].
Qed.
