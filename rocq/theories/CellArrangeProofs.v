From Coq Require Import ZArith Reals List Bool Arith Permutation Sorting.Sorted Lra Lia Psatz.
From Verif Require Import TextModel GeomModel GeomProofs BoxModel BoxSpec BoxProofs PbcModel PbcSpec RotModel RotSpec RotProofs XcBuildProofs LatticeModel LatticeSpec LatticeProofs LatticeNormProofs DimsModel DimsSpec DimsProofs OptModel CellModel CellSpec CellProofs CellKindProofs CellLatticeProofs.
Import ListNotations.
Local Open Scope R_scope.

Lemma rows_det u v w : mdet (rows u v w) = vdot (vcross u v) w.
Proof. unfold mdet, rows, vdot, vcross. cbn. ring. Qed.
Lemma rows_box u v w : box_of_matrix (mtrans (rows u v w)) = box_of_sides u v w.
Proof. reflexivity. Qed.
Lemma sides_det u v w : mdet (matrix_of_sides u v w) = vdot (vcross u v) w.
Proof. unfold mdet, matrix_of_sides, vdot, vcross. cbn. ring. Qed.
Lemma ten8 : 0 < / 10 ^ 8.
Proof. apply Rinv_0_lt_compat, pow_lt. lra. Qed.
Lemma box_of_independent u v w : vdot (vcross u v) w <> 0 -> exists b, box_of_sides u v w = Some b.
Proof.
  intros D. unfold box_of_sides, box_of_matrix, minverse. destruct (Reqb (mdet (matrix_of_sides u v w)) 0) eqn:E; [apply Reqb_true in E; rewrite sides_det in E; contradiction|eexists; reflexivity].
Qed.
Lemma sides_have u v w b : box_of_sides u v w = Some b -> has_sides b u v w.
Proof. intros E. split; [do 3 eexists; exact E|exact (box_sides_given _ _ _ _ E)]. Qed.
Lemma input_matched i : match_dim i <> None <-> acceptable i.
Proof.
  destruct i as [x|v|u v w]; cbn [match_dim acceptable].
  - destruct (Rltb 0 x) eqn:E; [apply Rltb_true in E|apply Rltb_false in E]; split; intros H; try congruence; try lra; exfalso; lra.
  - destruct (Rltb 0 (vx v)) eqn:X; [apply Rltb_true in X|apply Rltb_false in X]; (destruct (Rltb 0 (vy v)) eqn:Y; [apply Rltb_true in Y|apply Rltb_false in Y]);
     (destruct (Rltb 0 (vz v)) eqn:W; [apply Rltb_true in W|apply Rltb_false in W]); cbn [andb]; split; intros H; try congruence; try lra; exfalso; lra.
  - rewrite rows_det, rows_box. destruct (Rltb (/ 10 ^ 8) (Rabs (vdot (vcross u v) w))) eqn:E; [apply Rltb_true in E|apply Rltb_false in E].
    + split; [intros _; exact E|]. intros _. pose proof ten8. destruct (box_of_independent u v w) as [b ->]; [|discriminate]. intros Q. rewrite Q, Rabs_R0 in E. lra.
    + split; intros H; [congruence|lra].
Qed.
Lemma input_box i x : match_dim i = Some x -> exists b, dim_box x = Some b /\ is_box b (given_sides i).
Proof.
  intros M. assert (A : acceptable i) by (apply input_matched; congruence). destruct i as [y|v|u v w]; cbn [match_dim] in M; cbn [acceptable] in A.
  - destruct (Rltb 0 y); [|discriminate]. injection M as <-. destruct (cuboid_some y y y) as (b&E&_); try lra. exists b. split; [exact E|]. exact (cuboid_has_sides _ _ _ _ E).
  - destruct (Rltb 0 (vx v) && Rltb 0 (vy v) && Rltb 0 (vz v)); [|discriminate]. injection M as <-. destruct A as (X&Y&W). destruct (cuboid_some (vx v) (vy v) (vz v)) as (b&E&_); try lra. exists b. split; [exact E|]. exact (cuboid_has_sides _ _ _ _ E).
  - destruct (Rltb _ _); [|discriminate]. rewrite rows_box in M. destruct (box_of_sides u v w) as [b|] eqn:E; [|discriminate]. injection M as <-. exists b. split; [reflexivity|]. exact (sides_have _ _ _ _ E).
Qed.
Lemma is_box_constructed b s : is_box b s -> constructed b.
Proof. destruct s as [[u v] w]. intros [C _]. exact C. Qed.
Lemma divided b n : constructed b -> positive n -> exists cb, divided_box b n = Some cb /\ constructed cb /\ lattice_box_sides cb b n.
Proof.
  intros C (PX&PY&PZ).
  assert (P : forall m, (0 < m)%nat -> 0 < / INR m) by (intros m H; apply Rinv_0_lt_compat, lt_0_INR, H).
  destruct (scale_sides_props b (V3 (/ INR (ix n)) (/ INR (iy n)) (/ INR (iz n))) C (P _ PX) (P _ PY) (P _ PZ)) as (cb&E&CC&_&S&_).
  exists cb. split; [exact E|]. split; [exact CC|]. intros a. rewrite S. assert (I0 : forall m, (0 < m)%nat -> INR m <> 0) by (intros m H; apply Rgt_not_eq, lt_0_INR, H).
  destruct a; cbn [vget iget vx vy vz]; (apply vec_ext; cbn; field; apply I0; assumption).
Qed.
Lemma turned_xyz r m : m = mrot_xyz (PI / 180 * vx r) (PI / 180 * vy r) (PI / 180 * vz r) -> turned_by r m.
Proof.
  intros ->. exists (mrot_axis (V3 1 0 0) (vx r * PI / 180)), (mrot_axis (V3 0 1 0) (vy r * PI / 180)), (mrot_axis (V3 0 0 1) (vz r * PI / 180)).
  assert (U : vnorm2 (V3 1 0 0) = 1 /\ vnorm2 (V3 0 1 0) = 1 /\ vnorm2 (V3 0 0 1) = 1) by (unfold vnorm2, vdot; cbn; repeat split; ring). destruct U as (U1&U2&U3).
  pose proof (rot_about _ (vx r * PI / 180) U1) as A1. pose proof (rot_about _ (vy r * PI / 180) U2) as A2. pose proof (rot_about _ (vz r * PI / 180) U3) as A3.
  split; [exact A1|]. split; [exact A2|]. split; [exact A3|]. rewrite (xyz_product _ _ _ _ _ _ A1 A2 A3). f_equal; field.
Qed.
Lemma turned_zero : turned_by vzero mid.
Proof. apply turned_xyz. cbn. rewrite !Rmult_0_r. unfold mrot_xyz. rewrite sin_0, cos_0. unfold mid. cbn. f_equal; ring. Qed.
Lemma cell_molecules t x b ms : create_cell t x = Some (b, ms) -> Forall2 (fun s q => sh_pos s = fst q /\ turned_by (snd q) (sh_rot s)) ms (documented_molecules t).
Proof.
  intros E. destruct (cell_positions _ _ _ _ E) as [P R].
  assert (BI : builtin t -> documented_molecules t = map (fun p => (p, vzero)) (documented_positions t) -> Forall2 (fun s q => sh_pos s = fst q /\ turned_by (snd q) (sh_rot s)) ms (documented_molecules t)).
  { intros B ->. specialize (R B). rewrite <- P, map_map. clear -R. induction ms as [|s l IH]; constructor; [|apply IH; intros; apply R; right; assumption].
    cbn [fst snd]. split; [reflexivity|]. rewrite (R s (or_introl eq_refl)). exact turned_zero. }
  destruct t as [| | |a|a|shapes]; try (apply BI; [exact Logic.I|reflexivity]). clear BI P R. cbn in E. unfold with_molecules in E. destruct (dim_box x); [|discriminate]. injection E as _ <-.
  cbn [documented_molecules]. induction shapes as [|[p r] l IH]; constructor; [|exact IH]. cbn. split; [reflexivity|]. apply turned_xyz. reflexivity.
Qed.
Lemma forall2_app {A B} (P : A -> B -> Prop) l1 l2 m1 m2 : Forall2 P l1 m1 -> Forall2 P l2 m2 -> Forall2 P (l1 ++ l2) (m1 ++ m2).
Proof. intros H1 H2. induction H1; [exact H2|constructor; assumption]. Qed.
Lemma filled_contents t cb lb n ms x b : constructed cb -> constructed lb -> positive n -> lattice_box_sides cb lb n -> create_cell t x = Some (b, ms) -> filled t lb n (contents cb (fun _ => ms) (grid n)).
Proof.
  intros C CL (PX&PY&PZ) SD E. exists (grid n). split; [apply loop3_traversal; repeat split; discriminate|]. pose proof (cell_molecules _ _ _ _ E) as M. unfold contents.
  induction (grid n) as [|c l IH]; [constructor|]. cbn [flat_map list_prod]. apply forall2_app; [|exact IH]. clear E IH. induction M as [|s [p r] ms' qs [HP HR] _ IH]; constructor; [|exact IH].
  cbn [fst snd] in *. split; [|exact HR]. subst p. cbn [placed sh_pos].
  rewrite (combination cb _ C), (combination lb _ CL), !SD. cbn [vx vy vz iget].
  assert (I0 : forall m, (0 < m)%nat -> INR m <> 0) by (intros m H; apply Rgt_not_eq, lt_0_INR, H). pose proof (I0 _ PX). pose proof (I0 _ PY). pose proof (I0 _ PZ).
  apply vec_ext; cbn; field; auto.
Qed.
Lemma same_sides b lb lb' n : constructed lb -> lattice_box_sides b lb n -> lattice_box_sides b lb' n -> forall s, is_box lb' s -> is_box lb s.
Proof.
  intros C S S' [[u v] w] (_&X&Y&W). split; [exact C|]. repeat split; [rewrite <- X|rewrite <- Y|rewrite <- W]; rewrite S, S'; reflexivity.
Qed.
Lemma make_some b ms n : positive n -> exists l, make_lattice b ms n = Some l.
Proof.
  intros (PX&PY&PZ). unfold make_lattice. rewrite (proj2 (Nat.ltb_lt 0 _) PX), (proj2 (Nat.ltb_lt 0 _) PY), (proj2 (Nat.ltb_lt 0 _) PZ). eexists; reflexivity.
Qed.
Lemma forall2_length {A B} (P : A -> B -> Prop) l m : Forall2 P l m -> length l = length m.
Proof. intros H. induction H; [reflexivity|]. cbn. congruence. Qed.
Lemma documented_length t : length (documented_molecules t) = length (documented_positions t).
Proof. destruct t; cbn [documented_molecules]; [rewrite map_length; reflexivity..|cbn [documented_positions]; rewrite map_length; reflexivity]. Qed.
Lemma filled_length t lb n shapes : filled t lb n shapes -> length shapes = (cells_in n * length (documented_positions t))%nat.
Proof.
  intros (cells&T&E). apply forall2_length in E. rewrite E, prod_length, documented_length.
  assert (L : length cells = cells_in n); [|rewrite L; reflexivity].
  transitivity (length (grid n)); [|apply grid_length]. apply Permutation_length. eapply traversal_permutation; [exact T|apply loop3_traversal; repeat split; discriminate].
Qed.
(** A box given, cells calculated *)
Lemma boxed_core t b n s : is_box b s -> positive n -> exists cb ms l lb shapes, divided_box b n = Some cb /\ create_cell t (DimBox cb) = Some (cb, ms) /\ make_lattice cb ms n = Some l /\
  create_packing [] Full l = Some (lb, shapes) /\ is_box lb s /\ filled t lb n shapes.
Proof.
  intros IB P. pose proof (is_box_constructed _ _ IB) as C. destruct (divided b n C P) as (cb&E&CC&S). destruct (cell_of_box t cb) as [ms EM]. destruct (make_some cb ms n P) as [l ML].
  destruct (packing_full l cb n ms ML CC) as (lb&EP&CL&SL). exists cb, ms, l, lb, (contents cb (fun _ => ms) (grid n)).
  split; [exact E|]. split; [exact EM|]. split; [exact ML|]. split; [exact EP|]. split; [exact (same_sides cb lb b n CL SL S s IB)|].
  exact (filled_contents t cb lb n ms _ _ CC CL P SL EM).
Qed.
Lemma boxed_spec t i x n : match_dim i = Some x -> positive n -> exists l lb shapes, boxed_lattice t x n = Some l /\
  create_packing [] Full l = Some (lb, shapes) /\ is_box lb (given_sides i) /\ filled t lb n shapes.
Proof.
  intros M P. destruct (input_box i x M) as (b&EB&IB). destruct (boxed_core t b n _ IB P) as (cb&ms&l&lb&shapes&E&EM&ML&EP&IL&F). exists l, lb, shapes.
  split; [unfold boxed_lattice; rewrite EB; cbn [obind]; rewrite E; cbn [obind]; rewrite EM; exact ML|]. auto.
Qed.
Lemma manual_spec t x b ms n : create_cell t x = Some (b, ms) -> constructed b -> positive n -> exists l lb shapes, manual_lattice t x n = Some l /\
  create_packing [] Full l = Some (lb, shapes) /\
  has_sides lb (vscale (INR (ix n)) (box_side b AX)) (vscale (INR (iy n)) (box_side b AY)) (vscale (INR (iz n)) (box_side b AZ)) /\ filled t lb n shapes.
Proof.
  intros E C P. destruct (make_some b ms n P) as [l ML]. destruct (packing_full l b n ms ML C) as (lb&EP&CL&SL). exists l, lb, (contents b (fun _ => ms) (grid n)).
  split; [unfold manual_lattice; rewrite E; exact ML|]. split; [exact EP|]. split; [split; [exact CL|repeat split; rewrite SL; reflexivity]|]. exact (filled_contents t b lb n ms _ _ C CL P SL E).
Qed.
Lemma manual_cell t i x : match_dim i = Some x -> (forall y, i <> InFloat y) -> exists b ms, create_cell t x = Some (b, ms) /\ is_box b (given_sides i).
Proof.
  intros M NF. destruct (input_box i x M) as (b&EB&IB). destruct (cell_of_box t b) as [ms EM]. exists b, ms. split; [|exact IB].
  destruct x as [y|v|b']; [exfalso|destruct v as [v1 v2 v3]; rewrite cell_of_sides; cbn in EB; rewrite EB; exact EM|injection EB as ->; exact EM].
  destruct i as [z|v|u v w]; [exact (NF z eq_refl)| |]; cbn [match_dim] in M; [destruct (_ && _); discriminate|]. destruct (Rltb _ _); [|discriminate]. destruct (box_of_matrix _); discriminate.
Qed.
Lemma cell_of_one t : exists b ms, create_cell t (DimNumber 1) = Some (b, ms).
Proof.
  destruct t as [| | |a|a|shapes]; try (match goal with |- exists b ms, create_cell ?t _ = _ => destruct (cell_neighbours t 1 Logic.I ltac:(lra)) as (b&ms&E&_); eauto end).
  destruct (cuboid_some 1 1 1) as (b&E&_); try lra. exists b, (map custom_shape shapes). cbn. unfold box_cube. rewrite E. reflexivity.
Qed.
Lemma automatic_spec fuel t i x N l : match_dim i = Some x -> (0 < N)%nat -> automatic_lattice fuel t x N = Some l ->
  exists b n lb shapes, is_box b (given_sides i) /\ nearly_cubic N (length (documented_positions t)) b n /\
    create_packing [] Full l = Some (lb, shapes) /\ is_box lb (given_sides i) /\ filled t lb n shapes /\ (N <= length shapes)%nat.
Proof.
  intros M NP. destruct (input_box i x M) as (b&EB&IB). destruct (cell_of_one t) as (b1&ms1&E1). unfold automatic_lattice. rewrite EB, E1. cbn [obind snd].
  assert (L1 : length ms1 = length (documented_positions t)) by (rewrite <- (proj1 (cell_positions _ _ _ _ E1)), map_length; reflexivity). rewrite L1.
  destruct (optimize_dims fuel N (length (documented_positions t)) b) as [n|] eqn:O; [|discriminate]. cbn [obind]. pose proof (dims_enough _ _ _ _ _ O) as EN.
  assert (P : positive n).
  { unfold cells_in in EN. destruct n as [nx ny nz]. cbn in *. repeat split; cbn; [destruct nx|destruct ny|destruct nz]; try lia; exfalso; rewrite ?Nat.mul_0_r, ?Nat.mul_0_l in EN; cbn in EN; lia. }
  destruct (boxed_core t b n _ IB P) as (cb&ms&l'&lb&shapes&E&EM&ML&EP&IL&F). rewrite E. cbn [obind]. rewrite EM. cbn [obind fst snd]. rewrite ML. intros [= <-].
  exists b, n, lb, shapes. split; [exact IB|]. split; [exact (dims_result _ _ _ _ _ (is_box_constructed _ _ IB) NP O)|]. split; [exact EP|]. split; [exact IL|]. split; [exact F|]. rewrite (filled_length _ _ _ _ F). exact EN.
Qed.
Lemma automatic_terminates t i x N b cells s : match_dim i = Some x -> (0 < N)%nat -> (0 < length (documented_positions t))%nat -> is_box b (given_sides i) -> cells_needed N (length (documented_positions t)) cells -> cube_side b cells s ->
  (forall a, s <= 2 * box_height b a) -> exists l, terminates_with (fun fuel => automatic_lattice fuel t x N) l.
Proof.
  intros M NP SP IB CN CS H. destruct (input_box i x M) as (b'&EB&IB').
  assert (HB : b' = b).
  { destruct (given_sides i) as [[u v] w]. destruct IB as (C&X&Y&W), IB' as (C'&X'&Y'&W'). destruct C as (p&q&r&C), C' as (p'&q'&r'&C').
    destruct (box_sides_given _ _ _ _ C) as (A1&A2&A3). destruct (box_sides_given _ _ _ _ C') as (B1&B2&B3). rewrite A1 in X. rewrite A2 in Y. rewrite A3 in W. rewrite B1 in X'. rewrite B2 in Y'. rewrite B3 in W'. congruence. }
  subst b'. destruct (proj1 (dims_terminate N (length (documented_positions t)) b cells s (is_box_constructed _ _ IB) NP SP CN CS) H) as (n&F&T).
  assert (E0 : forall fuel, (F <= fuel)%nat -> exists l, automatic_lattice fuel t x N = Some l /\ automatic_lattice F t x N = Some l).
  { intros fuel LE. destruct (cell_of_one t) as (b1&ms1&E1).
    assert (L1 : length ms1 = length (documented_positions t)) by (rewrite <- (proj1 (cell_positions _ _ _ _ E1)), map_length; reflexivity).
    pose proof (T F (le_n _)) as TF. cbv beta in TF. pose proof (dims_enough _ _ _ _ _ TF) as EN.
    assert (P : positive n) by (unfold cells_in in EN; destruct n as [nx ny nz]; cbn in *; repeat split; cbn; [destruct nx|destruct ny|destruct nz]; try lia; exfalso; rewrite ?Nat.mul_0_r, ?Nat.mul_0_l in EN; cbn in EN; lia).
    destruct (boxed_core t b n _ IB P) as (cb&ms&l'&lb&shapes&E&EM&ML&EP&IL&FF). exists l'. unfold automatic_lattice. rewrite EB, E1. cbn [obind snd]. rewrite L1, (T fuel LE), TF. cbn [obind]. rewrite E. cbn [obind]. rewrite EM. split; exact ML. }
  destruct (E0 F (le_n _)) as (l&E&_). exists l, F. intros fuel LE. destruct (E0 fuel LE) as (l'&E1&E2). congruence.
Qed.
Lemma automatic_more : ~ (forall fuel t i x N l lb shapes, match_dim i = Some x -> (0 < N)%nat -> automatic_lattice fuel t x N = Some l -> create_packing [] Full l = Some (lb, shapes) -> length shapes = N).
Proof.
  intros H. assert (M : match_dim (InFloat 1) = Some (DimNumber 1)) by (cbn; destruct (Rltb 0 1) eqn:E; [reflexivity|apply Rltb_false in E; lra]).
  destruct (input_box _ _ M) as (b&EB&IB). pose proof (is_box_constructed _ _ IB) as C.
  assert (HH : forall a, box_height b a = 1).
  { assert (N1 : vnorm (V3 1 0 0) = 1 /\ vnorm (V3 0 1 0) = 1 /\ vnorm (V3 0 0 1) = 1) by (unfold vnorm, vnorm2, vdot; cbn; rewrite !Rmult_0_r, !Rmult_1_r, ?Rplus_0_r, ?Rplus_0_l, sqrt_1; auto).
    destruct N1 as (NX&NY&NZ). destruct IB as (_&X&Y&W). intros a. unfold box_height, box_volume, box_face.
    assert (CX : vcross (box_side b AY) (box_side b AZ) = V3 1 0 0) by (rewrite Y, W; apply vec_ext; cbn; ring).
    assert (CY : vcross (box_side b AZ) (box_side b AX) = V3 0 1 0) by (rewrite X, W; apply vec_ext; cbn; ring).
    assert (CZ : vcross (box_side b AX) (box_side b AY) = V3 0 0 1) by (rewrite X, Y; apply vec_ext; cbn; ring).
    assert (V : Rabs (vdot (vcross (box_side b AX) (box_side b AY)) (box_side b AZ)) = 1) by (rewrite CZ, W; unfold vdot; cbn; rewrite Rabs_pos_eq; lra).
    rewrite V. destruct a; rewrite ?CX, ?CY, ?CZ, ?NX, ?NY, ?NZ; field. }
  destruct (automatic_terminates CellBcc (InFloat 1) (DimNumber 1) 1 b 1 1 M) as (l&F&T); auto.
  - cbn. lia.
  - split; [cbn; lia|intros m; cbn; lia].
  - split; [lra|]. rewrite !HH. cbn. ring.
  - intros a. rewrite HH. lra.
  - specialize (T F (le_n _)). cbv beta in T. destruct (automatic_spec F CellBcc (InFloat 1) (DimNumber 1) 1 l M ltac:(lia) T) as (b'&n&lb&shapes&_&_&EP&_&FI&_).
    specialize (H F CellBcc (InFloat 1) (DimNumber 1) 1%nat l lb shapes M ltac:(lia) T EP). rewrite (filled_length _ _ _ _ FI) in H. cbn in H. lia.
Qed.

(** *** The automatic order of axes *)
Lemma auto_order l : exists a0 a1 a2, different a0 a1 a2 /\ goes_first (lat_dims l) a0 a1 /\ goes_first (lat_dims l) a1 a2 /\ optimizeAxisOrder l = [axis_letter a0; axis_letter a1; axis_letter a2].
Proof.
  unfold optimizeAxisOrder. destruct (lat_dims l) as [x y z]. cbn [ix iy iz fold_right insert_pair].
  assert (LE : forall p q, pair_leb p q = true <-> (fst p < fst q)%nat \/ (fst p = fst q /\ (snd p <= snd q)%Z)).
  { intros p q. unfold pair_leb. rewrite orb_true_iff, andb_true_iff, Nat.ltb_lt, Nat.eqb_eq, Z.leb_le. tauto. }
  assert (GT : forall p q, pair_leb p q = false <-> (fst q < fst p)%nat \/ (fst p = fst q /\ (snd q < snd p)%Z)).
  { intros p q. rewrite <- not_true_iff_false, LE. lia. }
  assert (U : forall a0 a1 a2, different a0 a1 a2 -> goes_first (I3 x y z) a0 a1 -> goes_first (I3 x y z) a1 a2 -> exists b0 b1 b2, different b0 b1 b2 /\ goes_first (I3 x y z) b0 b1 /\ goes_first (I3 x y z) b1 b2 /\ [axis_letter a0; axis_letter a1; axis_letter a2] = [axis_letter b0; axis_letter b1; axis_letter b2]).
  { intros a0 a1 a2 D A B. exists a0, a1, a2. auto. }
  destruct (pair_leb (y, 121%Z) (z, 122%Z)) eqn:E1; [apply LE in E1|apply GT in E1]; cbn [fst snd] in E1; cbn [insert_pair];
    repeat (match goal with |- context [pair_leb ?p ?q] => let H := fresh in destruct (pair_leb p q) eqn:H; [apply LE in H|apply GT in H]; cbn [fst snd] in H; cbn [insert_pair] end);
    cbn [map snd rev app].
  all: [> apply (U AZ AY AX) | apply (U AZ AX AY) | apply (U AX AZ AY) | apply (U AY AZ AX) | apply (U AY AX AZ) | apply (U AX AY AZ)].
  all: try (repeat split; discriminate); unfold goes_first; cbn; lia.
Qed.
Lemma auto_serial l b d k n : built l b d k -> exists a0 a1 a2 cells size, different a0 a1 a2 /\ goes_first d a0 a1 /\ goes_first d a1 a2 /\ traversal a0 a1 a2 d cells /\ lattice_size l = Some size /\
  populate (SerialAuto n) l = if Nat.leb n size then Some (firstn n (flat_map (fun c => map (placed b c) (k c)) cells)) else None.
Proof.
  intros B. pose proof (built_valid _ _ _ _ B) as V. destruct (auto_order l) as (a0&a1&a2&D&G1&G2&E). destruct (serial_valid l b d k a0 a1 a2 n V D) as (cells&size&T&S&P).
  exists a0, a1, a2, cells, size. rewrite (v_dims _ _ _ _ V) in G1, G2. split; [exact D|]. split; [exact G1|]. split; [exact G2|]. split; [exact T|]. split; [exact S|]. cbn [populate]. rewrite E. exact P.
Qed.
Lemma fold_transformed ts : forall l l', fold_left (fun r (t : transformer) => x <- r ;; t x) ts (Some l) = Some l' <-> transformed ts l l'.
Proof.
  induction ts as [|t ts IH]; intros l l'; cbn [fold_left obind].
  - split; [intros [= <-]; constructor|intros H; inversion H; reflexivity].
  - destruct (t l) as [m|] eqn:E.
    + rewrite IH. split; [intros H; econstructor; eauto|]. intros H. inversion H as [|? ? ? m' ? E' T]; subst. rewrite E in E'. injection E' as <-. exact T.
    + assert (N : forall u : list transformer, fold_left (fun r (t : transformer) => x <- r ;; t x) u None = None) by (induction u; [reflexivity|exact IHu]). rewrite N.
      split; [discriminate|]. intros H. inversion H. congruence.
Qed.
Lemma packing_iff ts p l b shapes : create_packing ts p l = Some (b, shapes) <-> exists l', transformed ts l l' /\ populate p l' = Some shapes /\ getLatticeBox l' = Some b.
Proof.
  unfold create_packing. destruct (fold_left _ ts (Some l)) as [l1|] eqn:F; cbn [obind].
  - apply fold_transformed in F. split.
    + destruct (populate p l1) as [m|] eqn:P; [|discriminate]. cbn [obind]. destruct (getLatticeBox l1) eqn:G; [|discriminate]. intros [= <- <-]. exists l1. auto.
    + intros (l'&T&P&G). assert (l' = l1) as -> by (apply fold_transformed in F, T; congruence). rewrite P. cbn [obind]. rewrite G. reflexivity.
  - split; [discriminate|]. intros (l'&T&_). apply fold_transformed in T. congruence.
Qed.
