From Coq Require Import ZArith Reals List Bool Arith Permutation Sorting.Sorted Lra Lia.
From Verif Require Import TextModel GeomModel GeomProofs BoxModel BoxSpec BoxProofs PbcModel PbcSpec PbcProofs RFloorModel LatticeModel LatticeSpec LatticeProofs LatticeNormProofs PackModel RotModel RotSpec RotProofs RotFlipProofs OptModel TransModel TransSpec TransProofs TransLayerProofs TransColumnProofs.
Import ListNotations.
Local Open Scope nat_scope.

Lemma map_opt_some {A B} (f : A -> option B) (g : A -> B) l : (forall x, In x l -> f x = Some (g x)) -> map_opt f l = Some (map g l).
Proof.
  induction l as [|x l IH]; intros H; [reflexivity|]. cbn [map_opt map]. rewrite (H x (or_introl eq_refl)). cbn [obind]. rewrite IH by (intros y I; apply H; right; exact I). reflexivity.
Qed.
Definition indexed (ms : list shape) : list (nat * shape) := combine (seq 0 (length ms)) ms.
Lemma indexed_in ms n s : In (n, s) (indexed ms) <-> nth_error ms n = Some s.
Proof. unfold indexed. rewrite combine_seq_in, Nat.sub_0_r. intuition lia. Qed.
Definition each (g : idx3 -> nat -> shape -> shape) (k : idx3 -> list shape) (c : idx3) : list shape := map (fun p => g c (fst p) (snd p)) (indexed (k c)).
Lemma for_molecules_spec f g l b d k : valid l b d k -> (exists k0, built l b d k0) -> (forall c n s, in_range c d -> nth_error (k c) n = Some s -> f c n s = Some (g c n s)) ->
  exists l', for_molecules f l = Some l' /\ valid l' b d (each g k) /\ (exists k0, built l' b d k0) /\ (lat_regular l' = false).
Proof.
  intros V B H. unfold for_molecules. rewrite (v_dims _ _ _ _ V).
  assert (G : forall todo done l0, valid l0 b d (fun c => if in_dec idx3_dec c done then each g k c else k c) -> (exists k0, built l0 b d k0) -> NoDup (done ++ todo) -> (forall c, In c todo -> in_range c d) ->
    exists l', fold_left (fun r c => l' <- r ;; modify_cell l' c (fun ms => map_opt (fun p => f c (fst p) (snd p)) (combine (seq 0 (length ms)) ms))) todo (Some l0) = Some l' /\
      valid l' b d (fun c => if in_dec idx3_dec c (done ++ todo) then each g k c else k c) /\ (exists k0, built l' b d k0) /\ (todo <> [] -> lat_regular l' = false)).
  { induction todo as [|c todo IH]; intros done l0 V0 B0 D T; cbn [fold_left].
    - exists l0. rewrite app_nil_r. split; [reflexivity|]. split; [exact V0|]. split; [exact B0|]. congruence.
    - assert (NI : ~ In c done) by (intros X; apply (NoDup_remove_2 _ _ _ D), in_or_app; left; exact X). pose proof (T c (or_introl eq_refl)) as I.
      destruct (modify_cell_spec l0 b d _ c (fun ms => map_opt (fun p => f c (fst p) (snd p)) (combine (seq 0 (length ms)) ms)) (each g k c) V0 B0 I) as (l1&E1&V1&B1&R1).
      { destruct (in_dec idx3_dec c done) as [X|_]; [contradiction|]. apply map_opt_some. intros [n s] X. apply indexed_in in X. apply H; assumption. }
      cbn [obind]. rewrite E1. replace (done ++ c :: todo) with ((done ++ [c]) ++ todo) in * by (rewrite <- app_assoc; reflexivity).
      destruct (IH (done ++ [c]) l1) as (l'&E'&V'&B'&R'); [|exact B1|exact D|intros c' X; apply T; right; exact X|].
      + eapply valid_ext; [exact V1|]. intros c' _. cbv beta. destruct (idx3_dec c' c) as [->|N].
        * destruct (in_dec idx3_dec c (done ++ [c])) as [_|X]; [reflexivity|]. exfalso. apply X, in_or_app. right; left; reflexivity.
        * destruct (in_dec idx3_dec c' done) as [X|X], (in_dec idx3_dec c' (done ++ [c])) as [Y|Y]; try reflexivity; exfalso; [apply Y, in_or_app; left; exact X|apply in_app_or in Y as [Y|[Y|[]]]; congruence].
      + exists l'. split; [exact E'|]. split; [exact V'|]. split; [exact B'|]. intros _. destruct todo as [|c' todo]; [|apply R'; discriminate]. cbn in E'. injection E' as <-. exact R1. }
  destruct (G (grid d) [] l) as (l'&E&V'&B'&R').
  - eapply valid_ext; [exact V|]. reflexivity.
  - exact B.
  - apply grid_nodup.
  - intros c I. apply grid_in, I.
  - exists l'. split; [exact E|]. split; [|split; [exact B'|]].
    + eapply valid_ext; [exact V'|]. intros c I. cbn [app]. destruct (in_dec idx3_dec c (grid d)) as [_|X]; [reflexivity|]. exfalso. apply X, grid_in, I.
    + apply R'. intros X. pose proof (v_positive _ _ _ _ V) as P. assert (J : In (I3 0 0 0) (grid d)) by (apply grid_in; repeat split; apply P). rewrite X in J. destruct J.
Qed.
Lemma forall2_app {A B} (R : A -> B -> Prop) l l' m m' : Forall2 R l m -> Forall2 R l' m' -> Forall2 R (l ++ l') (m ++ m').
Proof. induction 1; cbn; [auto|]. intros. constructor; auto. Qed.
Lemma each_related (rel : idx3 * nat * shape -> shape -> Prop) b k g cells :
  (forall c n s, In c cells -> nth_error (k c) n = Some s -> rel (c, n, s) (placed b c (g c n s))) -> Forall2 rel (numbered k cells) (contents b (each g k) cells).
Proof.
  induction cells as [|c cells IH]; intros H; [constructor|]. unfold numbered, contents. cbn [flat_map]. apply forall2_app; [|apply IH; intros; apply H; [right; assumption|assumption]].
  unfold each. rewrite map_map. fold (indexed (k c)). assert (G : forall p, In p (indexed (k c)) -> rel (c, fst p, snd p) (placed b c (g c (fst p) (snd p)))).
  { intros [n s] I. apply indexed_in in I. apply H; [left; reflexivity|exact I]. }
  induction (indexed (k c)) as [|p ps IHp]; cbn [map]; constructor; [apply G; left; reflexivity|apply IHp; intros q Q; apply G; right; exact Q].
Qed.

(** *** Flips *)
Lemma norm_kept m v : rotation m -> vnorm2 (mvec m v) = vnorm2 v.
Proof. intros [H _]. pose proof (H v v) as E. destruct (mvec m v), v. unfold vnorm2, vdot in *. cbn in *. lra. Qed.
Lemma placed_translated b c s t r : constructed b -> placed b c (Shape (vadd (sh_pos s) (absoluteToRelative b t)) r) = Shape (vadd (sh_pos (placed b c s)) t) r.
Proof.
  intros C. unfold placed. cbn [sh_pos sh_rot]. f_equal. pose proof (abs_rel b t (proj1 (constructed_valid b) C)) as E.
  set (u := absoluteToRelative b t) in *. clearbody u. rewrite <- E. unfold relativeToAbsolute. destruct (dims b) as [m00 m01 m02 m10 m11 m12 m20 m21 m22], (sh_pos s) as [x y z], u as [p q w]. apply vec_ext; cbn; ring.
Qed.
Lemma flip_half_turned g axis b c s : constructed b -> rotation (sh_rot s) -> vnorm2 axis = 1%R -> half_turned g axis (placed b c s) (placed b c (flip_shape g axis b s)).
Proof.
  intros C RS N. unfold flip_shape. assert (NU : vnorm2 (mvec (sh_rot s) axis) = 1%R) by (rewrite norm_kept; assumption). rewrite (normalized_of_unit _ NU).
  set (m := mrot_axis (mvec (sh_rot s) axis) PI). rewrite placed_translated by exact C. split.
  - unfold origin_of. cbn [sh_pos sh_rot placed]. rewrite mvec_mmul. change (relativeToAbsolute b _) with (sh_pos (placed b c s)). generalize (mvec (sh_rot s) (ge_origin g)). intros o. generalize (mvec m o). intros mo. destruct (sh_pos (placed b c s)), o, mo. apply vec_ext; cbn; ring.
  - exists m. split; [apply rot_rotation; exact NU|]. split; [apply rot_about; exact NU|reflexivity].
Qed.
Lemma flips_spec l b d k g p flips : built l b d k -> proper_geometry g -> ge_primary g = Some p -> (forall c s, in_range c d -> In s (k c) -> rotation (sh_rot s)) ->
  exists axis l' k' lb cells moved images molecules', findFlipAxis g = Some axis /\ vnorm2 axis = 1%R /\ vdot axis p = 0%R /\ (forall q, ge_secondary g = Some q -> axis = q) /\
    terminates_with (fun fuel => flip_randomize fuel g flips l) l' /\ built l' b d k' /\ getLatticeBox l = Some lb /\ getLatticeBox l' = Some lb /\
    ((forall c s, in_range c d -> In s (k c) -> in_unit s) -> forall c s, in_range c d -> In s (k' c) -> in_unit s) /\ traversal AX AY AZ d cells /\
    Forall2 (fun x m => let '(c, n, s) := x in if flips c n : bool then half_turned g axis (placed b c s) m else m = placed b c s) (numbered k cells) moved /\
    Forall2 (same_modulo lb) moved images /\ generateMolecules l' = Some molecules' /\ Permutation images molecules' /\
    (~ (forall c s, in_range c d -> In s (k c) -> in_unit s) -> images = moved /\ molecules' = moved).
Proof.
  intros B G P RK. pose proof (built_valid _ _ _ _ B) as V. destruct (lattice_box_valid _ _ _ _ V) as (lb&LB&_&_). pose proof (v_constructed _ _ _ _ V) as C.
  assert (X : exists axis, findFlipAxis g = Some axis) by (unfold findFlipAxis; rewrite P; destruct (ge_secondary g); eexists; reflexivity). destruct X as [axis X].
  destruct (flip_axis_good g p axis G P X) as [A1 A2].
  set (gg := fun c n s => if flips c n : bool then flip_shape g axis b s else s).
  destruct (for_molecules_spec (fun c n s => Some (if flips c n : bool then flip_shape g axis (lat_box l) s else s)) gg l b d k V (ex_intro _ k B)) as (l1&E1&V1&[k0 B1]&_).
  { intros c n s _ _. unfold gg. rewrite (v_box _ _ _ _ V). reflexivity. }
  assert (REL : Forall2 (fun x m => let '(c, n, s) := x in if flips c n : bool then half_turned g axis (placed b c s) m else m = placed b c s) (numbered k (grid d)) (contents b (each gg k) (grid d))).
  { apply each_related. intros c n s I J. apply grid_in in I. unfold gg. destruct (flips c n); [|reflexivity]. apply flip_half_turned; [exact C|apply (RK c s I); eapply nth_error_In, J|exact A1]. }
  assert (SEC : forall q, ge_secondary g = Some q -> axis = q) by (intros q Q; unfold findFlipAxis in X; rewrite P, Q in X; congruence).
  assert (LBS : forall l' k', valid l' b d k' -> getLatticeBox l' = Some lb).
  { intros l' k' V'. unfold getLatticeBox in *. rewrite (v_box _ _ _ _ V'), (v_dims _ _ _ _ V'). rewrite (v_box _ _ _ _ V), (v_dims _ _ _ _ V) in LB. exact LB. }
  assert (SAMES : forall ms, Forall2 (same_modulo lb) ms ms).
  { induction ms as [|s r IH]; constructor; [|exact IH]. split; [reflexivity|]. exists 0%Z, 0%Z, 0%Z. rewrite vadd_zero. reflexivity. }
  destruct (isNormalized l) eqn:N.
  - destruct (normalize_built l1 b d k0 B1) as (lb'&l'&k'&LB'&[n T]&B'&_&U'&ms&ms'&im&GM&GM'&F2&PM).
    assert (lb' = lb) as -> by (rewrite (LBS l1 _ V1) in LB'; congruence).
    assert (ms = contents b (each gg k) (grid d)) as -> by (pose proof (generate_valid _ _ _ _ V1) as Y; rewrite GM in Y; injection Y as ->; reflexivity).
    exists axis, l', k', lb, (grid d), (contents b (each gg k) (grid d)), im, ms'. repeat (split; [assumption|]). split.
    { exists n. intros fuel F. unfold flip_randomize. rewrite N, X. cbn [obind]. rewrite E1. cbn [obind]. apply T, F. }
    split; [exact B'|]. split; [exact LB|]. split; [apply (LBS l' k'), built_valid, B'|]. split; [intros _; exact U'|]. split; [apply loop3_traversal; repeat split; discriminate|]. repeat (split; [assumption|]).
    intros NN. exfalso. apply NN. apply (normalized_iff _ _ _ _ V), N.
  - exists axis, l1, k0, lb, (grid d), (contents b (each gg k) (grid d)), (contents b (each gg k) (grid d)), (contents b (each gg k) (grid d)). repeat (split; [assumption|]). split.
    { exists 0. intros fuel F. unfold flip_randomize. rewrite N, X. cbn [obind]. rewrite E1. reflexivity. }
    split; [exact B1|]. split; [exact LB|]. split; [apply (LBS l1 _ V1)|]. split; [intros U; exfalso; apply (normalized_iff _ _ _ _ V) in U; congruence|].
    split; [apply loop3_traversal; repeat split; discriminate|]. split; [exact REL|]. split; [apply SAMES|]. split; [apply (generate_valid _ _ _ _ V1)|]. split; [reflexivity|]. intros _. split; reflexivity.
Qed.

(** *** Random rotations *)
Lemma turn_x u : mrot_axis (V3 1 0 0) u = M33 1 0 0 0 (cos u) (- sin u) 0 (sin u) (cos u).
Proof. unfold mrot_axis. mat_ring. Qed.
Lemma turn_y u : mrot_axis (V3 0 1 0) u = M33 (cos u) 0 (sin u) 0 1 0 (- sin u) 0 (cos u).
Proof. unfold mrot_axis. mat_ring. Qed.
Lemma turn_z u : mrot_axis (V3 0 0 1) u = M33 (cos u) (- sin u) 0 (sin u) (cos u) 0 0 0 1.
Proof. unfold mrot_axis. mat_ring. Qed.
Lemma xyz_product u v w : mrot_xyz u v w = mmul (mrot_axis (V3 0 0 1) w) (mmul (mrot_axis (V3 0 1 0) v) (mrot_axis (V3 1 0 0) u)).
Proof. rewrite turn_x, turn_y, turn_z. unfold mrot_xyz. mat_ring. Qed.
Lemma rotation_mmul m m' : rotation m -> rotation m' -> rotation (mmul m m').
Proof.
  intros [A B] [A' B']. split; intros u v; rewrite !mvec_mmul; [rewrite A; apply A'|]. rewrite B', B. reflexivity.
Qed.
Lemma along_unit v : vscale (/ vnorm v) v = vnormalized v.
Proof. reflexivity. Qed.
Lemma normalized_nonzero v : v <> vzero -> vnormalized (vnormalized v) = vnormalized v.
Proof. intros H. apply normalized_of_unit, normalized_unit, H. Qed.
Definition rotation_known (g : geometry) (x : rotation_axis) (s : shape) : Prop :=
  match x with AxisRandom => True | AxisVector v => (/ 10 ^ 20 < vnorm2 v)%R | _ => exists u, turning_axis g x s = Some u /\ u <> vzero end.
Lemma norm2_nonzero v : (/ 10 ^ 20 < vnorm2 v)%R -> v <> vzero.
Proof. intros H ->. assert (P : (0 < / 10 ^ 20)%R) by (apply Rinv_0_lt_compat, pow_lt; lra). unfold vnorm2, vdot, vzero in H. cbn [vx vy vz] in H. lra. Qed.
Lemma random_rotation_spec g x x' draw s : make_rotation_axis x = Some x' -> rotation_known g x s -> exists m, random_rotation g x' draw s = Some m /\ forall b c, randomly_turned g x draw (placed b c s) (placed b c (shape_rotate m s)).
Proof.
  intros M K. destruct draw as [[u v] w].
  assert (AX' : forall e, vnorm2 e = 1%R -> forall b c, (exists z, turning_axis g x (placed b c s) = Some z /\ e = vscale (/ vnorm z) z) -> x <> AxisRandom -> randomly_turned g x (u, v, w) (placed b c s) (placed b c (shape_rotate (mrot_axis e u) s))).
  { intros e NE b c (z&Z1&Z2) NR. split; [reflexivity|]. exists (mrot_axis e u). split; [apply rot_rotation, NE|]. split; [reflexivity|]. destruct x; try congruence; exists z; (split; [exact Z1|]); rewrite <- Z2; apply rot_about, NE. }
  destruct x as [a| | | |]; cbn [make_rotation_axis] in M.
  - destruct (Rltb (/ 10 ^ 20) (vnorm2 a)) eqn:E; [|discriminate]. injection M as <-. apply Rltb_true in E. exists (mrot_axis (vnormalized a) u). split; [reflexivity|]. intros b c. apply AX'; [apply normalized_unit, norm2_nonzero, E| |discriminate]. exists a. split; reflexivity.
  - injection M as <-. destruct K as (z&Z&NZ). unfold turning_axis in Z. destruct (ge_primary g) as [p|] eqn:P; [|discriminate]. injection Z as <-. exists (mrot_axis (vnormalized (mvec (sh_rot s) p)) u). split; [unfold random_rotation, axis_of; rewrite P; reflexivity|].
    intros b c. apply AX'; [apply normalized_unit, NZ| |discriminate]. exists (mvec (sh_rot s) p). unfold turning_axis. rewrite P. split; reflexivity.
  - injection M as <-. destruct K as (z&Z&NZ). unfold turning_axis in Z. destruct (ge_secondary g) as [p|] eqn:P; [|destruct (ge_primary g); discriminate]. assert (z = mvec (sh_rot s) p) as -> by (destruct (ge_primary g); congruence). exists (mrot_axis (vnormalized (mvec (sh_rot s) p)) u). split; [unfold random_rotation, axis_of; rewrite P; reflexivity|].
    intros b c. apply AX'; [apply normalized_unit, NZ| |discriminate]. exists (mvec (sh_rot s) p). unfold turning_axis. rewrite P. split; [destruct (ge_primary g); reflexivity|reflexivity].
  - injection M as <-. destruct K as (z&Z&NZ). unfold turning_axis in Z. destruct (ge_primary g) as [p|] eqn:P; [|discriminate]. destruct (ge_secondary g) as [q|] eqn:Q; [|discriminate]. injection Z as <-.
    exists (mrot_axis (vnormalized (vcross (mvec (sh_rot s) p) (mvec (sh_rot s) q))) u). split; [unfold random_rotation, axis_of; rewrite P, Q; cbn [obind]; rewrite normalized_nonzero by exact NZ; reflexivity|].
    intros b c. apply AX'; [apply normalized_unit, NZ| |discriminate]. exists (vcross (mvec (sh_rot s) p) (mvec (sh_rot s) q)). unfold turning_axis. rewrite P, Q. split; reflexivity.
  - injection M as <-. exists (mrot_xyz u (asin v) w). split; [reflexivity|]. intros b c. split; [reflexivity|]. exists (mrot_xyz u (asin v) w). rewrite xyz_product. split; [|split; reflexivity].
    apply rotation_mmul; [|apply rotation_mmul]; apply rot_rotation; unfold vnorm2, vdot; cbn; ring.
Qed.
Lemma rotations_spec l b d k g x draw : built l b d k -> (forall v, x = AxisVector v -> / 10 ^ 20 < vnorm2 v)%R -> (forall c s, in_range c d -> In s (k c) -> x <> AxisRandom -> exists u, turning_axis g x s = Some u /\ u <> vzero) ->
  exists l' k' lb cells molecules', rotation_randomize g x draw l = Some l' /\ built l' b d k' /\ getLatticeBox l = Some lb /\ getLatticeBox l' = Some lb /\
    ((forall c s, in_range c d -> In s (k c) -> in_unit s) -> forall c s, in_range c d -> In s (k' c) -> in_unit s) /\ traversal AX AY AZ d cells /\ generateMolecules l' = Some molecules' /\
    Forall2 (fun y m => let '(c, n, s) := y in randomly_turned g x (draw c n) (placed b c s) m) (numbered k cells) molecules'.
Proof.
  intros B XV XK. pose proof (built_valid _ _ _ _ B) as V. destruct (lattice_box_valid _ _ _ _ V) as (lb&LB&_&_).
  assert (KN : forall c s, in_range c d -> In s (k c) -> rotation_known g x s).
  { intros c s I J. unfold rotation_known. destruct x; try (apply (XK c s I J); discriminate); [apply XV; reflexivity|exact Logic.I]. }
  assert (MX : exists x', make_rotation_axis x = Some x').
  { destruct x as [v| | | |]; try (eexists; reflexivity). cbv beta iota delta [make_rotation_axis]. rewrite (proj2 (Rltb_true _ _) (XV v eq_refl)). eexists; reflexivity. }
  destruct MX as [x' MX].
  set (gg := fun c n s => match random_rotation g x' (draw c n) s with Some m => shape_rotate m s | None => s end).
  destruct (for_molecules_spec (fun c n s => m <- random_rotation g x' (draw c n) s ;; Some (shape_rotate m s)) gg l b d k V (ex_intro _ k B)) as (l1&E1&V1&[k0 B1]&_).
  { intros c n s I J. destruct (random_rotation_spec g x x' (draw c n) s MX (KN c s I (nth_error_In _ _ J))) as (m&E&_). unfold gg. rewrite E. reflexivity. }
  exists l1, k0, lb, (grid d), (contents b (each gg k) (grid d)). split; [unfold rotation_randomize; rewrite MX; exact E1|]. split; [exact B1|]. split; [exact LB|]. split.
  { unfold getLatticeBox in *. rewrite (v_box _ _ _ _ V1), (v_dims _ _ _ _ V1). rewrite (v_box _ _ _ _ V), (v_dims _ _ _ _ V) in LB. exact LB. }
  split; [|split; [apply loop3_traversal; repeat split; discriminate|split; [apply (generate_valid _ _ _ _ V1)|]]].
  - intros U c s I J. pose proof (v_cells _ _ _ _ (built_valid _ _ _ _ B1) c I) as Q1. pose proof (v_cells _ _ _ _ V1 c I) as Q2. rewrite Q1 in Q2. injection Q2 as Q2. rewrite Q2 in J.
    unfold each in J. apply in_map_iff in J as ([n t]&<-&J). apply indexed_in in J. cbn [fst snd]. pose proof (U c t I (nth_error_In _ _ J)) as UT. unfold gg. destruct (random_rotation g x' (draw c n) t); exact UT.
  - apply each_related. intros c n s I J. apply grid_in in I. destruct (random_rotation_spec g x x' (draw c n) s MX (KN c s I (nth_error_In _ _ J))) as (m&E&R). unfold gg. rewrite E. apply R.
Qed.
(** What is refused *)
Lemma rotations_refused l b d k g x draw : built l b d k -> (exists v, x = AxisVector v /\ (vnorm2 v <= / 10 ^ 20)%R) \/ (x <> AxisRandom /\ exists c s, in_range c d /\ In s (k c) /\ turning_axis g x s = None) ->
  rotation_randomize g x draw l = None.
Proof.
  intros B [(v&->&L)|(NR&c&s&I&J&T)].
  - unfold rotation_randomize. cbv beta iota delta [make_rotation_axis]. destruct (Rltb (/ 10 ^ 20) (vnorm2 v)) eqn:E; [apply Rltb_true in E; lra|reflexivity].
  - pose proof (built_valid _ _ _ _ B) as V.
    assert (F : forall n t, random_rotation g x n t = None).
    { intros [[u v] w] t. unfold random_rotation, axis_of. unfold turning_axis in T. destruct x; try congruence; destruct (ge_primary g), (ge_secondary g); try discriminate T; reflexivity. }
    assert (MX : make_rotation_axis x = Some x) by (destruct x; try reflexivity; unfold turning_axis in T; discriminate).
    unfold rotation_randomize. rewrite MX. cbn [obind]. unfold for_molecules. rewrite (v_dims _ _ _ _ V).
    apply grid_in in I. fold (grid d).
    assert (Q : forall todo l0, (exists k0, valid l0 b d k0 /\ In s (k0 c)) -> In c todo -> (forall c', In c' todo -> in_range c' d) ->
      fold_left (fun r c => l' <- r ;; modify_cell l' c (fun ms => map_opt (fun p => m <- random_rotation g x (draw c (fst p)) (snd p) ;; Some (shape_rotate m (snd p))) (combine (seq 0 (length ms)) ms))) todo (Some l0) = None).
    { induction todo as [|c' todo IH]; intros l0 (k0&V0&J0) IC RG; [destruct IC|]. cbn [fold_left obind]. pose proof (RG c' (or_introl eq_refl)) as I'.
      destruct (k0 c') as [|t r] eqn:KC.
      - assert (c' <> c) by (intros ->; rewrite KC in J0; destruct J0). assert (BB : exists l1, modify_cell l0 c' (fun ms => map_opt (fun p => m <- random_rotation g x (draw c' (fst p)) (snd p) ;; Some (shape_rotate m (snd p))) (combine (seq 0 (length ms)) ms)) = Some l1 /\ valid l1 b d k0).
        { unfold modify_cell. pose proof (modify_succeeds l0 b d k0 c' (fun ms => ms) V0 I') as N. destruct (modifySpecificCellMolecules l0 c' (fun ms => ms)) as [l1|] eqn:M1; [|congruence]. cbn [obind].
          destruct (modify_valid _ _ _ _ _ _ _ V0 M1) as (_&_&V1). rewrite (v_cells _ _ _ _ V1 c' I'). destruct (idx3_dec c' c') as [_|Y]; [|congruence]. rewrite KC. cbn [obind length seq combine map_opt].
          pose proof (modify_succeeds l1 b d _ c' (fun _ => []) V1 I') as N2. destruct (modifySpecificCellMolecules l1 c' (fun _ => [])) as [l2|] eqn:M2; [|congruence]. destruct (modify_valid _ _ _ _ _ _ _ V1 M2) as (_&_&V2).
          exists l2. split; [reflexivity|]. eapply valid_ext; [exact V2|]. intros c'' _. cbv beta. destruct (idx3_dec c'' c') as [->|]; [rewrite KC; reflexivity|reflexivity]. }
        destruct BB as (l1&E1&V1). rewrite E1. apply IH; [exists k0; auto|destruct IC; [congruence|assumption]|intros c'' X; apply RG; right; exact X].
      - assert (modify_cell l0 c' (fun ms => map_opt (fun p => m <- random_rotation g x (draw c' (fst p)) (snd p) ;; Some (shape_rotate m (snd p))) (combine (seq 0 (length ms)) ms)) = None) as ->; [|apply fold_none].
        unfold modify_cell. destruct (modifySpecificCellMolecules l0 c' (fun ms => ms)) as [l1|] eqn:M1; [|reflexivity]. cbn [obind].
        destruct (modify_valid _ _ _ _ _ _ _ V0 M1) as (_&_&V1). rewrite (v_cells _ _ _ _ V1 c' I'). destruct (idx3_dec c' c') as [_|Y]; [|congruence]. rewrite KC. cbn [obind length seq combine map_opt fst snd]. rewrite F. reflexivity. }
    apply Q; [exists k; auto|exact I|intros c' X; apply grid_in, X].
Qed.
Lemma flips_refused l g flips fuel : ge_primary g = None -> flip_randomize fuel g flips l = None.
Proof. intros P. unfold flip_randomize, findFlipAxis. rewrite P. reflexivity. Qed.
