(** A concrete packing divided into two domains, and packings for which the division goes wrong. *)
From Coq Require Import Reals ZArith List Bool Lia Lra.
From Verif Require Import GeomModel BoxModel BoxSpec RFloorModel PbcModel PbcSpec PbcTotalModel NGModel NGSpec GeomProofs BoxProofs RFloorProofs PbcProofs NGListProofs NGGeomProofs NGProofs NGPairProofs.
From Verif Require Import PackModel PackSpec PackGridProofs PackCountProofs PackInvProofs PackHistProofs PackFinalProofs PackExamples.
From Verif Require Import DomModel DomSpec DomFinalProofs DomRunProofs.
Import ListNotations.
Open Scope R_scope.

(** Divisions of the grid of a new packing. *)
Lemma add_cells_div l : forall g g', add_cells l g = Some g' -> g_div g' = g_div g.
Proof.
  induction l as [|[i c] l IH]; intros g g' E; simpl in E; [congruence|].
  destruct (grid_add_cell i c g) as [g1|] eqn:E1; cbn [obind] in E; [|discriminate]. rewrite (IH _ _ E).
  unfold grid_add_cell in E1. destruct (zget _ _); [|discriminate]. destruct (set_nth _ _ _); [|discriminate]. destruct (zset _ _ _); [|discriminate].
  injection E1 as <-. reflexivity.
Qed.
Lemma new_divisions D threads shapes b pk g : 0 < D -> valid_box b -> shapes <> [] -> few_enough (length shapes) ->
  pk_new threads shapes b (ball D) = Some pk -> pk_ng pk = Some g ->
  getCellDivisions g = C3 (cells_per_axis b (grid_cell_size b D (length shapes)) AX) (cells_per_axis b (grid_cell_size b D (length shapes)) AY)
                          (cells_per_axis b (grid_cell_size b D (length shapes)) AZ).
Proof.
  intros HD Hv Hne Hf. unfold pk_new, pk_reset. intros E. destruct (Reqb _ _); [discriminate|]. destruct (negb (Rltb 0 _)); [discriminate|].
  assert (Hn : (0 < length shapes)%nat) by (destruct shapes; [contradiction|simpl; lia]).
  destruct shapes as [|s l] eqn:Es; [discriminate|]. rewrite <- Es in *. destruct (negb (areShapesWithinBox _ _)); [discriminate|].
  unfold setupForInteraction in E. cbv zeta in E.
  destruct (rebuildNeighbourGrid _) as [pk2|] eqn:Er; [|discriminate]. cbn [obind] in E.
  unfold rebuildNeighbourGrid in Er. unfold pk_size, setup_parts in Er. cbn [pk_parts pk_box pk_range pk_ng pk_k in_rangeRadius ball in_centres] in Er.
  rewrite !map_length in Er. unfold pk_empty in Er. cbn [pk_ng pk_temps pk_k pk_counting] in Er.
  destruct (Rltb (max3 _) _). { injection Er as <-. cbn [pk_counting set_ng] in E. injection E as <-. discriminate. }
  destruct (Rltb (min3 _) _) eqn:E2. { injection Er as <-. cbn [pk_counting set_ng] in E. injection E as <-. discriminate. }
  apply Rltb_false in E2. destruct (setup_from_rebuild b D (length shapes) Hv HD Hn Hf E2) as [Hset _].
  cbn [length Nat.eqb] in Er. destruct (grid_new_ginv b (grid_cell_size b D (length shapes)) (length shapes) Hset) as (g1 & En & Hg).
  rewrite En in Er. cbn [obind] in Er. unfold add_all_centres in Er.
  destruct (map_opt _ _) as [ns|]; cbn [obind] in Er; [|discriminate].
  destruct (add_cells _ g1) as [g'|] eqn:Ea; cbn [obind] in Er; [|discriminate]. injection Er as <-.
  cbn [pk_counting set_ng] in E. injection E as <-. cbn [pk_ng set_ng]. intros [= <-].
  pose proof (ginv_divisions _ _ _ Hg) as Hd. unfold getCellDivisions in *. rewrite (add_cells_div _ _ _ Ea). exact Hd.
Qed.

(** *** Two balls in a box of 10 x 4 x 4 *)
Definition two_balls : list shape := [upright 2.5 2 2; upright 7.5 2 2].
Notation s0 := (V3 10 0 0). Notation s1 := (V3 0 4 0). Notation s2 := (V3 0 0 4).
Lemma two_box : exists b, box_of_sides s0 s1 s2 = Some b.
Proof. apply (proj1 (box_constructible _ _ _)). intros x y z H. unfold lincomb, vzero in H. simpl in H. injection H; intros. lra. Qed.
Definition halves (a : axis) : nat := match a with AX => 2 | _ => 1 end%nat.
Definition domain (k : nat) (a : axis) : nat := match a with AX => k | _ => 0 end%nat.
(** A worker which moves its ball once; the ball number is the domain number, as is the thread. *)
Definition mover (ad : activeDomain) (k : nat) : worker :=
  Worker k [Plan k (fun _ => DoTranslation k k (V3 0.1 0 0) (Some (isInside ad)) true) (fun e => match e with PosInf => false | _ => true end)] None [].

Section Two.
Variable b : box.
Hypothesis Hb : box_of_sides s0 s1 s2 = Some b.
Lemma two_rel x y z : absoluteToRelative b (V3 (10 * x) (4 * y) (4 * z)) = V3 x y z.
Proof.
  destruct (box_round_trip _ _ _ _ Hb) as (_ & Hr & Hl).
  replace (V3 (10 * x) (4 * y) (4 * z)) with (lincomb s0 s1 s2 x y z) by (apply vec_ext; simpl; ring). rewrite <- Hl, Hr. reflexivity.
Qed.
Lemma two_in_box x y z : 0 <= x < 1 -> 0 <= y < 1 -> 0 <= z < 1 -> in_box b (V3 (10 * x) (4 * y) (4 * z)).
Proof. intros Hx Hy Hz a. rewrite two_rel. destruct a; simpl; auto. Qed.
Lemma two_origin : in_box b vzero.
Proof. replace vzero with (V3 (10 * 0) (4 * 0) (4 * 0)) by (apply vec_ext; simpl; ring). apply two_in_box; lra. Qed.
Lemma two_valid : valid_box b. Proof. exact (sided_valid _ _ _ _ Hb). Qed.
Lemma two_start : legal_start b (ball 1) two_balls.
Proof.
  split; [do 3 eexists; exact Hb|]. split; [discriminate|]. split; [|simpl; lia].
  intros s [<-|[<-|[]]]; cbn [upright sh_pos].
  - replace (V3 2.5 2 2) with (V3 (10 * (1/4)) (4 * (1/2)) (4 * (1/2))) by (apply vec_ext; simpl; lra). apply two_in_box; lra.
  - replace (V3 7.5 2 2) with (V3 (10 * (3/4)) (4 * (1/2)) (4 * (1/2))) by (apply vec_ext; simpl; lra). apply two_in_box; lra.
Qed.
Lemma two_volume : box_volume b = 160.
Proof. rewrite (sided_volume _ _ _ _ Hb). unfold vdot; simpl. rewrite Rabs_pos_eq; lra. Qed.
Lemma two_cell : grid_cell_size b 1 2 = 1.
Proof. apply cell_size_range; [lra|apply two_valid|lia|rewrite two_volume; simpl; lra]. Qed.
Lemma two_height_x : 10 <= box_height b AX.
Proof.
  apply height_ge; [apply two_valid|lra|]. rewrite two_volume, (sided_face _ _ _ _ Hb). unfold vnorm2, vdot. simpl; lra.
Qed.
Lemma two_heights a : 4 <= box_height b a.
Proof.
  apply height_ge; [apply two_valid|lra|]. rewrite two_volume, (sided_face _ _ _ _ Hb). unfold vnorm2, vdot. destruct a; simpl; lra.
Qed.
Lemma ball_reach D : centres_reach (ball D).
Proof. intros c []. Qed.

Lemma two_example : exists pk d ad0 ad1, reachable 2 two_balls b (ball 1) [] pk /\ rotated_properly pk /\
  decompose pk (ball 1) halves vzero = DdReady d /\
  getActiveDomainBounds d (domain 0) = Some ad0 /\ getActiveDomainBounds d (domain 1) = Some ad1 /\
  Forall2 (legal_worker 2 d) [domain 0; domain 1] [mover ad0 0; mover ad1 1] /\ different_domains [domain 0; domain 1] /\
  in_box (pk_box pk) vzero.
Proof.
  assert (H01 : 0 < 1) by lra. pose proof (ball_lawful 1 H01) as HL. pose proof two_start as Hs.
  destruct (new_spec (ball 1) (ball_ov 1) (ball_en 1) HL 2 two_balls b Hs) as (pk & E & Hi & Hsh & Hbx & Hw & Hc & Ht).
  assert (Hng : pk_ng pk <> None).
  { eapply new_grid; [exact E| |]; change (length two_balls) with 2%nat; rewrite two_cell.
    - exists AX. pose proof two_height_x. lra.
    - intros a. unfold CELL_SIZE_EPSILON. pose proof (two_heights a). lra. }
  destruct (pk_ng pk) as [g|] eqn:Eg; [clear Hng|contradiction].
  assert (Hdiv : (10 <= cget (getCellDivisions g) AX)%Z).
  { rewrite (new_divisions 1 2 two_balls b pk g H01 two_valid); auto; [|discriminate|simpl; unfold few_enough; lia].
    change (length two_balls) with 2%nat. rewrite two_cell. cbn [cget cx]. unfold cells_per_axis. apply Rfl_le. pose proof two_height_x. lra. }
  assert (Hr : in_rangeRadius (ball 1) <= in_totalRange (ball 1)) by (simpl; lra).
  assert (Hdv : forall a, (1 <= halves a)%nat) by (intros []; simpl; lia).
  assert (Ho : in_box (pk_box pk) vzero) by (rewrite Hbx; apply two_origin).
  pose proof (run_legal (ball 1) pk g halves vzero Hi Eg Hdv Ho) as Hleg.
  pose proof (decomposition_spec pk (ball 1) halves (cget (getCellDivisions g)) vzero (inv_well_placed _ _ Hi) Hr Hleg) as Sp.
  set (m := cget (getCellDivisions g) AX) in *. apply IZR_le in Hdiv. pose proof (height_pos b AX two_valid) as Hh.
  assert (Hgh : ghosts pk (ball 1) (cget (getCellDivisions g)) AX = / IZR m).
  { unfold ghosts, ghost_thickness. rewrite Hbx. fold m. simpl in_rangeRadius. simpl in_totalRange. field. lra. }
  assert (Hm : / IZR m <= / 10) by (apply Rinv_le_contravar; lra). assert (Hm0 : 0 < / IZR m) by (apply Rinv_0_lt_compat; lra).
  destruct (makeDecomposition pk (ball 1) halves (cget (getCellDivisions g)) vzero) as [d|a|] eqn:Ed; [| |contradiction].
  2:{ exfalso. destruct Sp as [[H2 Hn] _]. destruct a; simpl in H2; try lia. fold (ghosts pk (ball 1) (cget (getCellDivisions g)) AX) in Hn.
      rewrite Hgh in Hn. simpl INR in Hn. fold m in Hn. lra. }
  destruct Sp as (_ & Edv & Ebx & cells & Hcells & _ & Hdom).
  assert (Hvc : forall k, (k < 2)%nat -> valid_coords halves (domain k)) by (intros k Hk [| |]; simpl; lia).
  assert (L : length (pk_parts pk) = 2%nat) by (rewrite <- (map_length pt_shape); fold (shapes_of pk); rewrite Hsh; reflexivity).
  assert (Hpos : forall k, (k < 2)%nat -> nth k (map pt_pos (pk_parts pk)) vzero = V3 (10 * (1 / 4 + INR k / 2)) (4 * (1/2)) (4 * (1/2))).
  { intros k Hk. assert (X : map pt_pos (pk_parts pk) = map sh_pos (shapes_of pk)) by (unfold shapes_of; rewrite map_map; reflexivity).
    rewrite X, Hsh. destruct k as [|[|]]; [| |lia]; simpl; apply vec_ext; simpl; lra. }
  assert (Hin : forall k, (k < 2)%nat -> exists ad l, getActiveDomainBounds d (domain k) = Some ad /\ getParticlesInRegion d (domain k) = Some l /\ In k l).
  { intros k Hk. destruct (Hdom (domain k) (Hvc k Hk)) as (ad & E1 & _ & Hins & E2). exists ad. eexists. split; [exact E1|]. split; [exact E2|].
    apply filter_In. unfold pk_size. rewrite L. split; [apply in_seq; lia|]. apply Hins.
    - rewrite Hpos, Hbx by auto. assert (0 <= INR k <= 1) by (destruct k as [|[|]]; [simpl; lra|simpl; lra|lia]). apply two_in_box; lra.
    - rewrite Hpos, Hbx, two_rel by auto. intros a Ha. destruct a; simpl in Ha; try lia. cbn [vget vx domain]. rewrite Hgh.
      destruct (Hcells AX) as [Hc1 Hc2]; [simpl; lia|]. simpl halves in Hc1, Hc2. fold m in Hc1, Hc2 |- *. rewrite Hbx in Hc1.
      assert (Z : absoluteToRelative b vzero = vzero).
      { replace vzero with (V3 (10 * 0) (4 * 0) (4 * 0)) at 1 by (apply vec_ext; simpl; ring). apply two_rel. }
      rewrite Z in Hc1. pose proof (Hc1 0%nat ltac:(lia)) as C0. pose proof (Hc1 1%nat ltac:(lia)) as C1. simpl in C0, C1.
      assert (W : 1 / (2 * IZR m) = / IZR m / 2) by (field; lra). rewrite W in C0, C1.
      assert (C2 : cell_middle m (cells AX 2%nat) = cell_middle m (cells AX 0%nat) + 1).
      { unfold cell_middle. rewrite Hc2, plus_IZR. field. lra. }
      unfold Rabs in C0, C1. exists 0%Z.
      destruct k as [|[|]]; [| |lia]; simpl INR; [|rewrite C2]; destruct (Rcase_abs _) in C0; destruct (Rcase_abs _) in C1; lra. }
  destruct (Hin 0%nat ltac:(lia)) as (ad0 & l0 & A1 & A2 & A3). destruct (Hin 1%nat ltac:(lia)) as (ad1 & l1 & B1 & B2 & B3).
  assert (HW : forall k ad l, (k < 2)%nat -> getActiveDomainBounds d (domain k) = Some ad -> getParticlesInRegion d (domain k) = Some l -> In k l ->
     legal_worker 2 d (domain k) (mover ad k)).
  { intros k ad l Hk X1 X2 X3. split; [rewrite Edv; auto|]. split; [exact Hk|]. split; [reflexivity|]. exists ad, l. split; auto. split; auto.
    intros pl [<-|[]]. split; [exact X3|]. split; [reflexivity|]. intros s. cbn. auto. }
  exists pk, d, ad0, ad1. split; [split; [exact Hs|split; [exact I|exists pk; auto]]|].
  split. { intros s Hs'. rewrite Hsh in Hs'. intros v. destruct Hs' as [<-|[<-|[]]]; unfold vnorm2, vdot; simpl; ring. }
  split; [unfold decompose; rewrite Eg; exact Ed|]. split; [exact A1|]. split; [exact B1|].
  split. { constructor; [apply (HW 0%nat ad0 l0); auto; lia|]. constructor; [apply (HW 1%nat ad1 l1); auto; lia|constructor]. }
  split; [|exact Ho].
  intros [|[|k]] [|[|l]] c c' X Y Hkl; simpl in X, Y; try (injection X as <-); try (injection Y as <-); try contradiction;
    try (exists AX; simpl; lia); try (destruct k; discriminate); try (destruct l; discriminate).
Qed.
End Two.
