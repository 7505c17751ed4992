From Coq Require Import ZArith Reals List Bool Arith Permutation Sorting.Sorted Lia Lra.
From Verif Require Import OptModel TextModel GeomModel GeomProofs BoxModel BoxSpec BoxProofs PbcModel PbcSpec PbcProofs RFloorModel RFloorProofs LatticeModel LatticeSpec LatticeProofs.
Import ListNotations.
Local Open Scope nat_scope.

Lemma valid_ext l b d k k' : valid l b d k -> (forall c, in_range c d -> k c = k' c) -> valid l b d k'.
Proof. intros V E. constructor; try apply V. intros c I. rewrite (v_cells _ _ _ _ V c I), E by exact I. reflexivity. Qed.
Definition grid (d : idx3) : list idx3 := loop3 AX AY AZ d.
Lemma grid_in d c : In c (grid d) <-> in_range c d.
Proof. apply loop3_traversal. repeat split; discriminate. Qed.
Lemma grid_nodup d : NoDup (grid d).
Proof. eapply traversal_nodup, loop3_traversal. repeat split; discriminate. Qed.
Lemma cells_surjective l b d k ms : valid l b d k -> In ms (lat_cells l) -> exists c, in_range c d /\ k c = ms.
Proof.
  intros V I. destruct (lat_regular l) eqn:R.
  - destruct (v_regular _ _ _ _ V R) as [ms' E]. rewrite E in I. destruct I as [<-|[]]. exists (I3 0 0 0).
    assert (Z : in_range (I3 0 0 0) d) by apply (v_positive _ _ _ _ V). split; [exact Z|].
    pose proof (v_cells _ _ _ _ V _ Z) as G. unfold getSpecificCell in G. rewrite R, E in G. cbn in G. congruence.
  - apply In_nth_error in I as [i I]. assert (L : i < length (lat_cells l)) by (apply nth_error_Some; congruence). rewrite (v_irregular _ _ _ _ V R) in L.
    assert (J : In i (map (index d) (grid d))).
    { eapply Permutation_in; [symmetry; apply (index_permutation AX AY AZ); apply loop3_traversal; repeat split; discriminate|]. apply in_seq. lia. }
    apply in_map_iff in J as (c&<-&J). apply grid_in in J. exists c. split; [exact J|].
    pose proof (v_cells _ _ _ _ V _ J) as G. unfold getSpecificCell in G. rewrite R in G.
    rewrite (proj2 (getCellIndex_iff l c (index d c))) in G by (rewrite (v_dims _ _ _ _ V); auto). cbn [OptModel.obind] in G. congruence.
Qed.
Lemma cells_in l b d k c : valid l b d k -> in_range c d -> In (k c) (lat_cells l).
Proof.
  intros V I. pose proof (v_cells _ _ _ _ V _ I) as G. unfold getSpecificCell in G. destruct (lat_regular l); [apply nth_error_In in G; exact G|].
  destruct (getCellIndex l c); [|discriminate]. cbn in G. apply nth_error_In in G. exact G.
Qed.
Lemma coord_normalized_iff x : coord_normalized x = true <-> (0 <= x < 1)%R.
Proof.
  unfold coord_normalized, Rltb, Rleb. destruct (Rlt_dec x 0), (Rle_dec 1 x); cbn; split; intros; try discriminate; try reflexivity; lra.
Qed.
Lemma cell_normalized_iff ms : cell_normalized ms = true <-> forall s, In s ms -> in_unit s.
Proof.
  unfold cell_normalized. rewrite forallb_forall. split.
  - intros F s I a. specialize (F s I). apply andb_true_iff in F as [F F3]. apply andb_true_iff in F as [F1 F2]. rewrite coord_normalized_iff in *. destruct a; cbn; lra.
  - intros F s I. specialize (F s I). rewrite !andb_true_iff, !coord_normalized_iff. pose proof (F AX). pose proof (F AY). pose proof (F AZ). auto.
Qed.
Lemma normalized_iff l b d k : valid l b d k -> (isNormalized l = true <-> forall c s, in_range c d -> In s (k c) -> in_unit s).
Proof.
  intros V. unfold isNormalized. rewrite forallb_forall. split.
  - intros F c s R I. apply (proj1 (cell_normalized_iff (k c))); [|exact I]. apply F. eapply cells_in; eassumption.
  - intros F ms I. apply cell_normalized_iff. intros s J. destruct (cells_surjective _ _ _ _ _ V I) as (c&R&<-). eapply F; eassumption.
Qed.

(** Single coordinate *)
Lemma coord_terminates x : terminates_with (fun fuel => normalize_coord fuel x) (x - IZR (Rfl x))%R.
Proof.
  pose proof (Rfl_spec x) as S. set (f := Rfl x) in *. clearbody f.
  assert (LT : forall a c, Rltb a c = true <-> (a < c)%R) by (intros a c; unfold Rltb; destruct (Rlt_dec a c); split; congruence).
  assert (LE : forall a c, Rleb a c = true <-> (a <= c)%R) by (intros a c; unfold Rleb; destruct (Rle_dec a c); split; congruence).
  assert (LTF : forall a c, (c <= a)%R -> Rltb a c = false) by (intros a c H; destruct (Rltb a c) eqn:E; [apply LT in E; lra|reflexivity]).
  assert (LEF : forall a c, (c < a)%R -> Rleb a c = false) by (intros a c H; destruct (Rleb a c) eqn:E; [apply LE in E; lra|reflexivity]).
  destruct (Z_lt_le_dec f 0) as [N|P].
  - refine (terminates_bind (fun fuel => while_add fuel (fun c => Rltb c 0) 1 x) (fun fuel y => while_add fuel (fun c => Rleb 1 c) (-1) y) (x - IZR f)%R _ _ _).
    + apply (while_terminates' _ _ _ _ (Z.to_nat (- f))).
      * rewrite INR_IZR_INZ, Z2Nat.id, opp_IZR by lia. ring.
      * intros j J. apply LT. assert (K : (Z.of_nat j <= - f - 1)%Z) by lia. apply IZR_le in K. rewrite minus_IZR, opp_IZR, <- INR_IZR_INZ in K. lra.
      * apply LTF. rewrite INR_IZR_INZ, Z2Nat.id, opp_IZR by lia. lra.
    + apply (while_terminates' _ _ _ _ 0); [cbn; ring|lia|]. apply LEF. cbn. lra.
  - refine (terminates_bind (fun fuel => while_add fuel (fun c => Rltb c 0) 1 x) (fun fuel y => while_add fuel (fun c => Rleb 1 c) (-1) y) x _ _ _).
    + apply (while_terminates' _ _ _ _ 0); [cbn; ring|lia|]. apply LTF. apply IZR_le in P. cbn. lra.
    + apply (while_terminates' _ _ _ _ (Z.to_nat f)).
      * rewrite INR_IZR_INZ, Z2Nat.id by lia. ring.
      * intros j J. apply LE. assert (K : (Z.of_nat j <= f - 1)%Z) by lia. apply IZR_le in K. rewrite minus_IZR, <- INR_IZR_INZ in K. lra.
      * apply LEF. rewrite INR_IZR_INZ, Z2Nat.id by lia. lra.
Qed.
Definition floors (v : vec) : vec := V3 (IZR (Rfl (vx v))) (IZR (Rfl (vy v))) (IZR (Rfl (vz v))).
Definition frac (s : shape) : shape := Shape (vsub (sh_pos s) (floors (sh_pos s))) (sh_rot s).
Lemma frac_unit s : in_unit (frac s).
Proof. intros a. pose proof (Rfl_spec (vget (sh_pos s) a)). destruct a; cbn in *; lra. Qed.
Lemma shape_terminates s : terminates_with (fun fuel => normalize_shape fuel s) (frac s).
Proof.
  refine (terminates_bind (fun fuel => for_axes (fun a => normalize_coord fuel (vget (sh_pos s) a))) (fun fuel p => Some (Shape p (sh_rot s))) (vsub (sh_pos s) (floors (sh_pos s))) _ _ _).
  - apply terminates_for. intros a. destruct a; apply coord_terminates.
  - apply terminates_ret.
Qed.
Lemma shapes_terminate ms : terminates_with (fun fuel => normalize_shapes fuel ms) (map frac ms).
Proof.
  induction ms as [|s ms IH]; [apply terminates_ret|]. cbn [normalize_shapes map].
  refine (terminates_bind (fun fuel => normalize_shape fuel s) (fun fuel s' => r <- normalize_shapes fuel ms ;; Some (s' :: r)) (frac s) _ (shape_terminates s) _).
  refine (terminates_bind (fun fuel => normalize_shapes fuel ms) (fun fuel r => Some (frac s :: r)) (map frac ms) _ IH _). apply terminates_ret.
Qed.
Lemma coord_mono fuel fuel' x r : normalize_coord fuel x = Some r -> fuel <= fuel' -> normalize_coord fuel' x = Some r.
Proof.
  unfold normalize_coord. intros H L. destruct (while_add fuel (fun c => Rltb c 0) 1%R x) as [y|] eqn:E; [|discriminate]. cbn [OptModel.obind] in H.
  rewrite (while_add_mono _ _ _ _ _ _ E L). cbn [OptModel.obind]. eapply while_add_mono; eassumption.
Qed.
Lemma shape_mono fuel fuel' s r : normalize_shape fuel s = Some r -> fuel <= fuel' -> normalize_shape fuel' s = Some r.
Proof.
  unfold normalize_shape, for_axes. intros H L. cbn [vget] in *.
  destruct (normalize_coord fuel (vx (sh_pos s))) as [x|] eqn:EX; [|discriminate H]. cbn [PbcModel.obind] in H.
  destruct (normalize_coord fuel (vy (sh_pos s))) as [y|] eqn:EY; [|discriminate H]. cbn [PbcModel.obind] in H.
  destruct (normalize_coord fuel (vz (sh_pos s))) as [z|] eqn:EZ; [|discriminate H].
  rewrite (coord_mono _ _ _ _ EX L), (coord_mono _ _ _ _ EY L), (coord_mono _ _ _ _ EZ L). exact H.
Qed.
Lemma shapes_mono fuel fuel' ms : forall r, normalize_shapes fuel ms = Some r -> fuel <= fuel' -> normalize_shapes fuel' ms = Some r.
Proof.
  induction ms as [|s ms IH]; intros r H L; [exact H|]. cbn [normalize_shapes] in *.
  destruct (normalize_shape fuel s) as [s'|] eqn:E; [|discriminate]. cbn [OptModel.obind] in H. rewrite (shape_mono _ _ _ _ E L). cbn [OptModel.obind].
  destruct (normalize_shapes fuel ms) as [r'|] eqn:F; [|discriminate]. rewrite (IH _ eq_refl L). exact H.
Qed.

(** Where molecules go *)
Definition shift1 (n : nat) (c : nat) (x : R) : nat := Z.to_nat ((Z.of_nat c + Rfl x) mod Z.of_nat n).
Definition shift (d c : idx3) (s : shape) : idx3 :=
  I3 (shift1 (ix d) (ix c) (vx (sh_pos s))) (shift1 (iy d) (iy c) (vy (sh_pos s))) (shift1 (iz d) (iz c) (vz (sh_pos s))).
Lemma shift1_bound n c x : 0 < n -> shift1 n c x < n.
Proof. intros P. unfold shift1. pose proof (Z.mod_pos_bound (Z.of_nat c + Rfl x) (Z.of_nat n)). lia. Qed.
Lemma shift_range d c s : 0 < ix d /\ 0 < iy d /\ 0 < iz d -> in_range (shift d c s) d.
Proof. intros (X&Y&Z). repeat split; cbn; apply shift1_bound; assumption. Qed.
Lemma shift1_inj n c c' x : c < n -> c' < n -> shift1 n c x = shift1 n c' x -> c = c'.
Proof.
  intros L L' E. unfold shift1 in E.
  pose proof (Z.mod_pos_bound (Z.of_nat c + Rfl x) (Z.of_nat n) ltac:(lia)) as B. pose proof (Z.mod_pos_bound (Z.of_nat c' + Rfl x) (Z.of_nat n) ltac:(lia)) as B'.
  apply Z2Nat.inj in E; [|lia|lia]. pose proof (Z.div_mod (Z.of_nat c + Rfl x) (Z.of_nat n) ltac:(lia)) as D. pose proof (Z.div_mod (Z.of_nat c' + Rfl x) (Z.of_nat n) ltac:(lia)) as D'.
  set (q := ((Z.of_nat c + Rfl x) / Z.of_nat n)%Z) in *. set (q' := ((Z.of_nat c' + Rfl x) / Z.of_nat n)%Z) in *. clearbody q q'.
  rewrite E in D. assert (q = q') by nia. subst q'. lia.
Qed.
Lemma shift_permutation d s : 0 < ix d /\ 0 < iy d /\ 0 < iz d -> Permutation (map (fun c => shift d c s) (grid d)) (grid d).
Proof.
  intros P. apply NoDup_Permutation_bis; [|rewrite map_length; lia|].
  - pose proof (grid_nodup d) as N. assert (R : forall c, In c (grid d) -> in_range c d) by (intros; apply grid_in; assumption).
    induction (grid d) as [|c cs IH]; [constructor|]. inversion N; subst. cbn. constructor; [|apply IH; [assumption|intros; apply R; right; assumption]].
    intros I. apply in_map_iff in I as (c'&E&I). assert (c = c') as <-; [|contradiction].
    destruct (R c (or_introl eq_refl)) as (X&Y&Z), (R c' (or_intror I)) as (X'&Y'&Z').
    unfold shift in E. injection E as EX EY EZ. symmetry in EX, EY, EZ. apply shift1_inj in EX, EY, EZ; try assumption. destruct c, c'; cbn in *; congruence.
  - intros c I. apply in_map_iff in I as (c'&<-&_). apply grid_in, shift_range, P.
Qed.
Lemma cell_of_mod a n : (0 < n)%Z -> cell_of a n = Z.to_nat (a mod n).
Proof.
  intros P. unfold cell_of. f_equal. pose proof (Z.rem_bound_abs a n ltac:(lia)) as B.
  rewrite Z.rem_mod_nonneg by lia. pose proof (Z.quot_rem a n ltac:(lia)) as Q.
  replace (Z.rem a n + n)%Z with (a + (1 - Z.quot a n) * n)%Z by lia. apply Z.mod_add. lia.
Qed.
Lemma renormalized_placed b d c s : constructed b -> 0 < ix d /\ 0 < iy d /\ 0 < iz d -> renormalized b d (placed b c s) = (shift d c s, frac s).
Proof.
  intros C (X&Y&Z). unfold renormalized, placed. cbn [sh_pos sh_rot]. rewrite rel_abs by (apply constructed_valid, C). cbn [vget vx vy vz iget].
  assert (F : forall n x, Rfl (INR n + x) = (Z.of_nat n + Rfl x)%Z) by (intros n x; rewrite INR_IZR_INZ, Rplus_comm, Rfl_add_Z; lia).
  rewrite !F, !cell_of_mod by lia. unfold shift, shift1, frac, floors. f_equal. unfold vsub; cbn [vx vy vz]. f_equal. rewrite !plus_IZR, <- !INR_IZR_INZ. f_equal; ring.
Qed.
Definition lattice_box_sides (b lb : box) (d : idx3) : Prop := forall a, box_side lb a = vscale (INR (iget d a)) (box_side b a).
Lemma lattice_box_valid l b d k : valid l b d k -> exists lb, getLatticeBox l = Some lb /\ constructed lb /\ lattice_box_sides b lb d.
Proof.
  intros V. unfold getLatticeBox. rewrite (v_box _ _ _ _ V), (v_dims _ _ _ _ V). destruct (v_positive _ _ _ _ V) as (X&Y&Z).
  assert (N : forall n, 0 < n -> (0 < INR n)%R) by (intros n H; apply lt_0_INR, H).
  destruct (scale_sides_props b (V3 (INR (ix d)) (INR (iy d)) (INR (iz d))) (v_constructed _ _ _ _ V) (N _ X) (N _ Y) (N _ Z)) as (lb&E&C&_&S&_).
  exists lb. split; [exact E|]. split; [exact C|]. intros a. rewrite S. destruct a; reflexivity.
Qed.
Lemma shifted_equivalent b lb d c s : lattice_box_sides b lb d -> 0 < ix d /\ 0 < iy d /\ 0 < iz d ->
  same_modulo lb (placed b c s) (placed b (shift d c s) (frac s)).
Proof.
  intros S (X&Y&Z). split; [reflexivity|].
  assert (M : forall n m x, 0 < n -> exists z, (INR (shift1 n m x) + (x - IZR (Rfl x)) = INR m + x + IZR z * INR n)%R).
  { intros n m x P. exists (- ((Z.of_nat m + Rfl x) / Z.of_nat n))%Z. unfold shift1. rewrite !INR_IZR_INZ, Z2Nat.id by (apply Z.mod_pos_bound; lia).
    rewrite Z.mod_eq, minus_IZR, mult_IZR, plus_IZR, opp_IZR by lia. ring. }
  destruct (M _ (ix c) (vx (sh_pos s)) X) as [i I]. destruct (M _ (iy c) (vy (sh_pos s)) Y) as [j J]. destruct (M _ (iz c) (vz (sh_pos s)) Z) as [k K].
  exists i, j, k. rewrite !S, !side_col. unfold placed. cbn [sh_pos frac]. unfold vsub, floors, shift. cbn [vx vy vz ix iy iz iget]. rewrite I, J, K.
  unfold relativeToAbsolute, mvec, vadd, vscale, mcol, vmake. cbn. unfold vdot, mrow, vmake; cbn. f_equal; ring.
Qed.

(** Lists of cells and molecules *)
Definition listed (k : idx3 -> list shape) (cells : list idx3) : list (idx3 * shape) := flat_map (fun c => map (pair c) (k c)) cells.
Definition placed' (b : box) (cs : idx3 * shape) : shape := placed b (fst cs) (snd cs).
Definition moved (d : idx3) (cs : idx3 * shape) : idx3 * shape := (shift d (fst cs) (snd cs), frac (snd cs)).
Lemma contents_listed b k cells : contents b k cells = map (placed' b) (listed k cells).
Proof. unfold contents, listed. induction cells as [|c cells IH]; [reflexivity|]. cbn [flat_map]. rewrite map_app, map_map, IH. reflexivity. Qed.
Lemma flat_map_cons {A B} (f : A -> B) (g : A -> list B) l : Permutation (flat_map (fun s => f s :: g s) l) (map f l ++ flat_map g l).
Proof.
  induction l as [|a l IH]; cbn; [reflexivity|]. constructor. rewrite IH. rewrite !app_assoc. apply Permutation_app_tail, Permutation_app_comm.
Qed.
Lemma flat_map_swap {A B C} (h : A -> B -> C) la lb : Permutation (flat_map (fun a => map (h a) lb) la) (flat_map (fun b => map (fun a => h a b) la) lb).
Proof.
  induction la as [|a la IH]; cbn.
  - induction lb; cbn; [constructor|assumption].
  - rewrite IH. symmetry. apply (flat_map_cons (h a) (fun b => map (fun a => h a b) la)).
Qed.
Lemma regular_permutation d ms : 0 < ix d /\ 0 < iy d /\ 0 < iz d ->
  Permutation (map (moved d) (listed (fun _ => ms) (grid d))) (listed (fun _ => map frac ms) (grid d)).
Proof.
  intros P. assert (E1 : map (moved d) (listed (fun _ => ms) (grid d)) = flat_map (fun c => map (fun s => (shift d c s, frac s)) ms) (grid d)).
  { unfold listed. induction (grid d) as [|c cs IH]; [reflexivity|]. cbn [flat_map]. rewrite map_app, map_map, IH. reflexivity. }
  assert (E2 : listed (fun _ => map frac ms) (grid d) = flat_map (fun c => map (fun s => (c, frac s)) ms) (grid d)).
  { unfold listed. apply flat_map_ext. intros c. apply map_map. }
  rewrite E1, E2. clear E1 E2. rewrite (flat_map_swap (fun c s => (shift d c s, frac s))), (flat_map_swap (fun c s => (c, frac s))).
  induction ms as [|s ms IH]; [constructor|]. cbn [flat_map]. apply Permutation_app; [|exact IH].
  rewrite <- (map_map (fun c => shift d c s) (fun c => (c, frac s))). apply Permutation_map, shift_permutation, P.
Qed.
Definition in_cell (c : idx3) (cs : idx3 * shape) : bool := if idx3_dec (fst cs) c then true else false.
Definition gathered (l : list (idx3 * shape)) (c : idx3) : list shape := map snd (filter (in_cell c) l).
Lemma gathered_permutation l cells : NoDup cells -> (forall cs, In cs l -> In (fst cs) cells) -> Permutation (listed (gathered l) cells) l.
Proof.
  intros N I. assert (E : listed (gathered l) cells = flat_map (fun c => filter (in_cell c) l) cells).
  { unfold listed, gathered. apply flat_map_ext. intros c. rewrite map_map. transitivity (map (fun cs => cs) (filter (in_cell c) l)); [|apply map_id]. apply map_ext_in.
    intros [c' s] J. apply filter_In in J as [_ J]. unfold in_cell in J. cbn in *. destruct (idx3_dec c' c) as [->|]; [reflexivity|discriminate]. }
  rewrite E. clear E. induction l as [|x l IH].
  - cbn. clear. induction cells; [constructor|assumption].
  - transitivity (x :: flat_map (fun c => filter (in_cell c) l) cells); [|constructor; apply IH; intros; apply I; right; assumption].
    assert (J : In (fst x) cells) by (apply I; left; reflexivity). clear I IH.
    cbn [filter]. induction cells as [|c cells IHc]; [contradiction|]. inversion N as [|? ? NI N']; subst. cbn [flat_map]. unfold in_cell at 1.
    destruct (idx3_dec (fst x) c) as [E|E].
    + cbn [app]. constructor. apply Permutation_app_head. subst c.
      assert (Q : flat_map (fun c => if in_cell c x then x :: filter (in_cell c) l else filter (in_cell c) l) cells = flat_map (fun c => filter (in_cell c) l) cells).
      { clear IHc J N N'. induction cells as [|c cells IHc]; [reflexivity|]. cbn [flat_map]. unfold in_cell at 1. destruct (idx3_dec (fst x) c) as [E|E].
        - exfalso. apply NI. left. congruence.
        - f_equal. apply IHc. intros H. apply NI. right; exact H. }
      rewrite Q. reflexivity.
    + destruct J as [J|J]; [congruence|]. rewrite (IHc N' J). apply Permutation_middle || (symmetry; apply Permutation_middle).
Qed.

(** The whole procedure *)
Definition renorm_step (b : box) (d : idx3) (r : option lattice) (molecule : shape) : option lattice :=
  new <- r ;; (let cs := renormalized b d molecule in modifySpecificCellMolecules new (fst cs) (fun ms => ms ++ [snd cs])).
Lemma irregular_fold b d : constructed b -> 0 < ix d /\ 0 < iy d /\ 0 < iz d -> forall todo new k0, valid new b d k0 ->
  exists new', fold_left (renorm_step b d) (map (placed' b) todo) (Some new) = Some new' /\
    valid new' b d (fun c => k0 c ++ gathered (map (moved d) todo) c) /\
    lat_regular new' = match todo with [] => lat_regular new | _ => false end.
Proof.
  intros C P. induction todo as [|[c s] todo IH]; intros new k0 V; cbn [map fold_left].
  - exists new. split; [reflexivity|]. split; [|reflexivity]. eapply valid_ext; [exact V|]. intros c _. unfold gathered. cbn. rewrite app_nil_r. reflexivity.
  -     pose proof (modify_succeeds new b d k0 (shift d c s) (fun ms => ms ++ [frac s]) V (shift_range d c s P)) as NN.
    destruct (modifySpecificCellMolecules new (shift d c s) (fun ms => ms ++ [frac s])) as [new1|] eqn:M; [|congruence].
    destruct (modify_valid _ _ _ _ _ _ _ V M) as (_&R1&V1). destruct (IH new1 _ V1) as (new'&E&V'&R'). exists new'. split; [|split].
    { replace (renorm_step b d (Some new) (placed' b (c, s))) with (Some new1); [exact E|]. unfold renorm_step. cbn [OptModel.obind]. change (placed' b (c, s)) with (placed b c s).
      rewrite (renormalized_placed b d c s C P). symmetry. exact M. }
    + eapply valid_ext; [exact V'|]. intros c' _. cbv beta. unfold gathered. cbn [filter]. unfold in_cell at 2. unfold moved at 2. cbn [fst snd].
      destruct (idx3_dec (shift d c s) c') as [<-|N].
      * destruct (idx3_dec (shift d c s) (shift d c s)); [|congruence]. rewrite <- app_assoc. reflexivity.
      * destruct (idx3_dec c' (shift d c s)); [congruence|]. reflexivity.
    + rewrite R'. destruct todo; [exact R1|reflexivity].
Qed.
(** What normalisation ends with. *)
Lemma normalize_valid l b d k : valid l b d k -> isNormalized l = false -> exists l' k' , terminates_with (fun fuel => normalize fuel l) l' /\ valid l' b d k' /\
  lat_regular l' = lat_regular l /\ (forall c s, in_range c d -> In s (k' c) -> in_unit s) /\ Permutation (map (moved d) (listed k (grid d))) (listed k' (grid d)).
Proof.
  intros V N. pose proof (v_positive _ _ _ _ V) as P. pose proof (v_constructed _ _ _ _ V) as C. destruct (lat_regular l) eqn:R.
  - destruct (v_regular _ _ _ _ V R) as [ms E].
    assert (K : forall c, in_range c d -> k c = ms).
    { intros c I. pose proof (v_cells _ _ _ _ V c I) as G. unfold getSpecificCell in G. rewrite R, E in G. cbn in G. congruence. }
    destruct (modifyUnitCellMolecules l (fun _ => map frac ms)) as [l'|] eqn:M; [|unfold modifyUnitCellMolecules in M; rewrite R in M; discriminate].
    destruct (unit_valid _ _ _ _ _ _ V M) as (_&R'&V'). exists l', (fun _ => map frac ms). split; [|split; [exact V'|split; [exact R'|split]]].
    + destruct (shapes_terminate ms) as [n T]. exists n. intros fuel L. unfold normalize. rewrite N, R. unfold normalizeRegular. rewrite E. cbn [nth_error OptModel.obind].
      rewrite (T fuel L). exact M.
    + intros c s _ I. apply in_map_iff in I as (s'&<-&_). apply frac_unit.
    + replace (listed k (grid d)) with (listed (fun _ => ms) (grid d)); [apply regular_permutation, P|].
      unfold listed. rewrite !flat_map_concat_map. f_equal. apply map_ext_in. intros c I. apply grid_in in I. rewrite (K c I). reflexivity.
  - destruct (make_lattice b [] d) as [l0|] eqn:M0; [|exfalso; assert (X : make_lattice b [] d = Some (Lattice b [[]] d true)) by (apply make_iff; split; [exact P|reflexivity]); congruence].
    pose proof (make_valid _ _ _ _ C M0) as V0.
    destruct (irregular_fold b d C P (listed k (grid d)) l0 _ V0) as (l'&E&V'&R').
    exists l', (fun c => gathered (map (moved d) (listed k (grid d))) c).
    split; [|split; [|split; [|split]]].
    + exists 0. intros fuel _. unfold normalize. rewrite N, R. unfold normalizeIrregular. rewrite (generate_valid _ _ _ _ V), contents_listed. cbn [OptModel.obind].
      rewrite (v_box _ _ _ _ V), (v_dims _ _ _ _ V), M0. exact E.
    + eapply valid_ext; [exact V'|]. reflexivity.
    + rewrite R'. destruct (listed k (grid d)) as [|x r] eqn:L; [|reflexivity]. exfalso.
      assert (X : isNormalized l = true); [|congruence]. apply (normalized_iff _ _ _ _ V). intros c s I J. exfalso.
      assert (Y : In (c, s) (listed k (grid d))) by (apply in_flat_map; exists c; split; [apply grid_in, I|apply in_map, J]). rewrite L in Y. exact Y.
    + intros c s _ I. unfold gathered in I. apply in_map_iff in I as ((c'&s')&<-&I). apply filter_In in I as [I _]. apply in_map_iff in I as (x&I&_).
      unfold moved in I. injection I as _ <-. apply frac_unit.
    + symmetry. apply gathered_permutation; [apply grid_nodup|]. intros cs I. apply in_map_iff in I as (x&<-&_). cbn [moved fst]. apply grid_in, shift_range, P.
Qed.
Lemma normalize_mono fuel fuel' l r : normalize fuel l = Some r -> fuel <= fuel' -> normalize fuel' l = Some r.
Proof.
  unfold normalize. destruct (isNormalized l); [auto|]. destruct (lat_regular l); [|auto]. unfold normalizeRegular. intros H L.
  destruct (nth_error (lat_cells l) 0) as [front|]; [|discriminate]. cbn [OptModel.obind] in *.
  destruct (normalize_shapes fuel front) as [ms|] eqn:E; [|discriminate]. rewrite (shapes_mono _ _ _ _ E L). exact H.
Qed.
Lemma built_valid l b d k : built l b d k -> valid l b d k.
Proof.
  intros B. induction B as [b ms d l C M|l b d k c f l' B V M|l b d k f l' B V M|l b d k b' B V C|l b d k fuel l' k' B V N K].
  - apply make_valid; assumption.
  - apply (modify_valid _ _ _ _ _ _ _ V M).
  - apply (unit_valid _ _ _ _ _ _ V M).
  - eapply box_valid; eassumption.
  - destruct (isNormalized l) eqn:E.
    + unfold normalize in N. rewrite E in N. injection N as <-. eapply valid_ext; [exact V|]. intros c I. pose proof (v_cells _ _ _ _ V c I). specialize (K c I). congruence.
    + destruct (normalize_valid _ _ _ _ V E) as (l1&k1&[n T]&V1&_). specialize (T (Nat.max n fuel) ltac:(lia)). apply (normalize_mono _ (Nat.max n fuel)) in N; [|lia].
      rewrite T in N. injection N as <-. eapply valid_ext; [exact V1|]. intros c I. pose proof (v_cells _ _ _ _ V1 c I). specialize (K c I). congruence.
Qed.
Lemma forall2_map {A B C} (R : B -> C -> Prop) (f : A -> B) (g : A -> C) l : (forall x, R (f x) (g x)) -> Forall2 R (map f l) (map g l).
Proof. intros H. induction l; constructor; auto. Qed.
Lemma vadd_zero v a c e : vadd v (vadd (vadd (vscale 0 a) (vscale 0 c)) (vscale 0 e)) = v.
Proof. destruct v, a, c, e. unfold vadd, vscale; cbn. f_equal; ring. Qed.
Lemma normalize_built l b d k : built l b d k -> exists lb l' k', getLatticeBox l = Some lb /\ terminates_with (fun fuel => normalize fuel l) l' /\ built l' b d k' /\
  lat_regular l' = lat_regular l /\ (forall c s, in_range c d -> In s (k' c) -> in_unit s) /\
  exists molecules molecules' images, generateMolecules l = Some molecules /\ generateMolecules l' = Some molecules' /\
    Forall2 (same_modulo lb) molecules images /\ Permutation images molecules'.
Proof.
  intros B. pose proof (built_valid _ _ _ _ B) as V. destruct (lattice_box_valid _ _ _ _ V) as (lb&LB&_&S). exists lb.
  destruct (isNormalized l) eqn:E.
  - exists l, k. split; [exact LB|]. split; [exists 0; intros; unfold normalize; rewrite E; reflexivity|]. split; [exact B|]. split; [reflexivity|].
    split; [apply (normalized_iff _ _ _ _ V), E|]. exists (contents b k (grid d)), (contents b k (grid d)), (contents b k (grid d)).
    split; [apply generate_valid, V|]. split; [apply generate_valid, V|]. split; [|reflexivity].
    induction (contents b k (grid d)) as [|s r IH]; constructor; [|exact IH]. split; [reflexivity|]. exists 0%Z, 0%Z, 0%Z. rewrite vadd_zero. reflexivity.
  - destruct (normalize_valid _ _ _ _ V E) as (l'&k'&T&V'&R&U&P). exists l', k'. split; [exact LB|]. split; [exact T|]. split.
    { destruct T as [n T]. apply (built_normalized l b d k n l' k' B (T n (le_n _))). intros c I. apply (v_cells _ _ _ _ V' c I). }
    split; [exact R|]. split; [exact U|]. exists (map (placed' b) (listed k (grid d))), (map (placed' b) (listed k' (grid d))), (map (placed' b) (map (moved d) (listed k (grid d)))).
    split; [rewrite <- contents_listed; apply generate_valid, V|]. split; [rewrite <- contents_listed; apply generate_valid, V'|]. split; [|apply Permutation_map, P].
    rewrite map_map. apply forall2_map. intros [c s]. apply shifted_equivalent; [exact S|apply V].
Qed.
