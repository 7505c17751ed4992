From Coq Require Import ZArith Reals List Bool Arith Permutation Sorting.Sorted Lra Lia Psatz.
From Verif Require Import TextModel GeomModel GeomProofs BoxModel BoxSpec BoxProofs PbcModel PbcSpec RotModel RotSpec XcBuildProofs LatticeModel LatticeSpec LatticeProofs LatticeNormProofs DimsModel DimsSpec DimsProofs OptModel CellModel CellSpec CellProofs CellKindProofs.
Import ListNotations.
Local Open Scope R_scope.

(** *** Positions of molecules and boxes of cells *)
Lemma cell_positions t x b ms : create_cell t x = Some (b, ms) -> map sh_pos ms = documented_positions t /\ (builtin t -> forall s, In s ms -> sh_rot s = mid).
Proof.
  intros E. assert (M : ms = match t with CellSc => sc_molecules | CellBcc => bcc_molecules | CellFcc => fcc_molecules | CellHcp a => hcp_molecules a | CellHexagonal a => hexagonal_molecules a | CellCustom shapes => map custom_shape shapes end).
  { unfold create_cell, with_molecules in E. destruct t, x; cbn beta iota in E; repeat match type of E with match ?o with _ => _ end = _ => destruct o end; try discriminate E; injection E as _ <-; reflexivity. }
  subst ms. split.
  - destruct t as [| | |a|a|shapes]; try reflexivity.
    + destruct a; cbn; repeat (match goal with |- _ :: _ = _ :: _ => f_equal end); try reflexivity; apply vec_ext; cbn; lra.
    + destruct a; reflexivity.
    + cbn [documented_positions]. rewrite map_map. apply map_ext. reflexivity.
  - intros B s I. destruct t as [| | |a|a|shapes]; try contradiction; cbn in I; try (destruct a; cbn in I); intuition (subst; reflexivity).
Qed.
Lemma documented_centred t : builtin t -> centred (documented_positions t).
Proof.
  intros B a. assert (H : forall (low high : vec) l, In low l -> In high l -> vget low a + vget high a = 1 -> (forall v, In v l -> vget low a <= vget v a <= vget high a) ->
    exists low high, In low l /\ In high l /\ vget low a + vget high a = 1 /\ (forall v, In v l -> vget low a <= vget v a <= vget high a)) by (intros; eauto 10).
  destruct t as [| | |ax|ax|shapes]; try contradiction; cbn [documented_positions].
  - apply (H (V3 (1/2) (1/2) (1/2)) (V3 (1/2) (1/2) (1/2))); cbn; auto; [destruct a; cbn; lra|intros v [<-|[]]; lra].
  - apply (H (V3 (1/4) (1/4) (1/4)) (V3 (3/4) (3/4) (3/4))); cbn; auto; [destruct a; cbn; lra|intros v I; intuition subst; destruct a; cbn; lra].
  - apply (H (V3 (1/4) (1/4) (1/4)) (match a with AX => V3 (3/4) (1/4) (3/4) | _ => V3 (1/4) (3/4) (3/4) end)); cbn; auto;
      [destruct a; auto|destruct a; cbn; lra|intros v I; intuition subst; destruct a; cbn; lra].
  - apply (H (shifted_for ax (V3 (1/4) (1/12) (1/4))) (shifted_for ax (V3 (3/4) (11/12) (3/4)))); cbn; auto; [destruct ax, a; cbn; lra|intros v I; intuition subst; destruct ax, a; cbn; lra].
  - apply (H (shifted_for ax (V3 (1/4) (1/4) (1/2))) (shifted_for ax (V3 (3/4) (3/4) (1/2)))); cbn; auto; [destruct ax, a; cbn; lra|intros v I; intuition subst; destruct ax, a; cbn; lra].
Qed.
Lemma documented_unit t v a : builtin t -> In v (documented_positions t) -> 0 <= vget v a < 1.
Proof.
  intros B I. destruct t as [| | |ax|ax|shapes]; try contradiction; cbn in I; try destruct ax; cbn in I; intuition subst; destruct a; cbn; lra.
Qed.
Lemma custom_rotations shapes x b ms n p r mx my mz : create_cell (CellCustom shapes) x = Some (b, ms) -> nth_error shapes n = Some (p, r) ->
  rotates_about mx (V3 1 0 0) (vx r * PI / 180) -> rotates_about my (V3 0 1 0) (vy r * PI / 180) -> rotates_about mz (V3 0 0 1) (vz r * PI / 180) ->
  nth_error ms n = Some (Shape p (mmul mz (mmul my mx))).
Proof.
  intros E N X Y W. cbn in E. unfold with_molecules in E. destruct (dim_box x); [|discriminate]. injection E as _ <-. rewrite (map_nth_error custom_shape n _ N). unfold custom_shape. cbn [fst snd].
  rewrite (xyz_product mx my mz _ _ _ X Y W). f_equal. f_equal. f_equal; field.
Qed.
Lemma cell_of_box t b : exists ms, create_cell t (DimBox b) = Some (b, ms).
Proof. destruct t; eexists; reflexivity. Qed.
Lemma cell_of_sides t x y z : create_cell t (DimSides (V3 x y z)) = match box_cuboid x y z with Some b => create_cell t (DimBox b) | None => None end.
Proof. destruct t; cbn; destruct (box_cuboid x y z); reflexivity. Qed.

(** *** Whole lattices *)
Lemma nth_flat {A B} (f : A -> list B) L : forall l i y, (forall x, In x l -> length (f x) = L) -> nth_error (flat_map f l) i = Some y ->
  exists q r x, (i = q * L + r)%nat /\ nth_error l q = Some x /\ nth_error (f x) r = Some y.
Proof.
  induction l as [|x l IH]; intros i y H E; [destruct i; discriminate|]. cbn [flat_map] in E. pose proof (H x (or_introl eq_refl)) as HL.
  destruct (Nat.lt_ge_cases i L) as [C|C].
  - rewrite nth_error_app1 in E by lia. exists 0%nat, i, x. split; [lia|]. split; [reflexivity|exact E].
  - rewrite nth_error_app2 in E by lia. destruct (IH (i - length (f x))%nat y (fun z I => H z (or_intror I)) E) as (q&r&z&Q&N&F). exists (S q), r, z. split; [cbn; lia|]. split; [exact N|exact F].
Qed.
Lemma combination b v : constructed b -> relativeToAbsolute b v = vadd (vadd (vscale (vx v) (box_side b AX)) (vscale (vy v) (box_side b AY))) (vscale (vz v) (box_side b AZ)).
Proof. intros _. unfold box_side, relativeToAbsolute. apply vec_ext; cbn; ring. Qed.
Lemma lattice_apart b ms d n k lb : (0 < ix n)%nat -> (0 < iy n)%nat -> (0 < iz n)%nat -> constructed b -> nearest_neighbours b ms d k -> lattice_box_sides b lb n ->
  balls_apart lb (contents b (fun _ => ms) (grid n)) d.
Proof.
  intros PX PY PZ CB [A _] SB m m' s s' i j l E E' NE. unfold contents in E, E'.
  assert (LEN : forall x, In x (grid n) -> length (map (placed b x) ms) = length ms) by (intros; apply map_length).
  destruct (nth_flat _ _ _ _ _ LEN E) as (q&r&c&Q&N&F). destruct (nth_flat _ _ _ _ _ LEN E') as (q'&r'&c'&Q'&N'&F').
  rewrite nth_error_map in F, F'. destruct (nth_error ms r) as [t|] eqn:T; [|discriminate]. destruct (nth_error ms r') as [t'|] eqn:T'; [|discriminate]. cbn in F, F'. injection F as <-. injection F' as <-.
  assert (RC : in_range c n) by (apply grid_in; exact (nth_error_In _ _ N)). assert (RC' : in_range c' n) by (apply grid_in; exact (nth_error_In _ _ N')).
  set (p := Site r (Z.of_nat (ix c)) (Z.of_nat (iy c)) (Z.of_nat (iz c))).
  set (p' := Site r' (Z.of_nat (ix c') + Z.of_nat (ix n) * i) (Z.of_nat (iy c') + Z.of_nat (iy n) * j) (Z.of_nat (iz c') + Z.of_nat (iz n) * l)).
  apply (A p p').
  - exists t. split; [exact T|]. cbn [placed sh_pos p cell_x cell_y cell_z]. f_equal. apply vec_ext; cbn; rewrite <- INR_IZR_INZ; reflexivity.
  - exists t'. split; [exact T'|]. cbn [placed sh_pos p' cell_x cell_y cell_z]. unfold box_translation. rewrite !SB. rewrite !(combination b _ CB).
    rewrite !plus_IZR, !mult_IZR, <- !INR_IZR_INZ. apply vec_ext; cbn; ring.
  - intros EQ. unfold p, p' in EQ. injection EQ as ER EX EY EZ. destruct RC as (R1&R2&R3), RC' as (R1'&R2'&R3').
    assert (U : forall a a' w z : Z, (0 <= a < w)%Z -> (0 <= a' < w)%Z -> (a = a' + w * z)%Z -> z = 0%Z) by (intros; nia).
    assert (ZX : i = 0%Z) by (eapply (U (Z.of_nat (ix c)) (Z.of_nat (ix c')) (Z.of_nat (ix n))); [lia|lia|exact EX]).
    assert (ZY : j = 0%Z) by (eapply (U (Z.of_nat (iy c)) (Z.of_nat (iy c')) (Z.of_nat (iy n))); [lia|lia|exact EY]).
    assert (ZZ : l = 0%Z) by (eapply (U (Z.of_nat (iz c)) (Z.of_nat (iz c')) (Z.of_nat (iz n))); [lia|lia|exact EZ]).
    destruct NE as [NE|NE]; [|apply NE; subst; reflexivity]. apply NE. rewrite Q, Q'. subst r'. f_equal. f_equal.
    assert (EC : c = c') by (destruct c, c'; cbn in *; f_equal; lia). subst c'.
    apply (proj1 (NoDup_nth_error (grid n)) (grid_nodup n)); [apply nth_error_Some; congruence|congruence].
Qed.
Lemma packing_full l b n ms : make_lattice b ms n = Some l -> constructed b ->
  exists lb, create_packing [] Full l = Some (lb, contents b (fun _ => ms) (grid n)) /\ constructed lb /\ lattice_box_sides b lb n.
Proof.
  intros M C. pose proof (make_valid b ms n l C M) as V. destruct (lattice_box_valid _ _ _ _ V) as (lb&LB&CL&S). exists lb. split; [|auto].
  unfold create_packing, populate. cbn [fold_left obind]. rewrite (generate_valid _ _ _ _ V). cbn [obind]. rewrite LB. reflexivity.
Qed.
Lemma flat_seq_length {A} (f : nat -> list A) k m : (forall i, length (f i) = k) -> forall s, length (flat_map f (seq s m)) = (m * k)%nat.
Proof. intros H. induction m as [|m IH]; intros s; [reflexivity|]. cbn. rewrite app_length, H, IH. lia. Qed.
Lemma grid_length n : length (grid n) = (ix n * iy n * iz n)%nat.
Proof.
  unfold grid, loop3. cbn [iget]. rewrite <- Nat.mul_assoc. apply flat_seq_length. intros i. apply flat_seq_length. intros j. rewrite map_length, seq_length. reflexivity.
Qed.
Lemma contents_length b ms n : length (contents b (fun _ => ms) (grid n)) = (ix n * iy n * iz n * length ms)%nat.
Proof.
  unfold contents. rewrite <- grid_length. induction (grid n) as [|c l IH]; [reflexivity|]. cbn. rewrite app_length, map_length, IH. reflexivity.
Qed.
Lemma ball_lattice t d n : builtin t -> 0 < d -> (0 < ix n)%nat -> (0 < iy n)%nat -> (0 < iz n)%nat -> exists l lb shapes, manual_lattice t (DimNumber d) n = Some l /\
  create_packing [] Full l = Some (lb, shapes) /\ length shapes = (ix n * iy n * iz n * length (documented_positions t))%nat /\ balls_apart lb shapes d.
Proof.
  intros B D PX PY PZ. destruct (cell_neighbours t d B D) as (b&ms&E&C&NN). destruct (cell_positions _ _ _ _ E) as [P _].
  destruct (make_lattice b ms n) as [l|] eqn:M; [|unfold make_lattice in M; rewrite (proj2 (Nat.ltb_lt 0 _) PX), (proj2 (Nat.ltb_lt 0 _) PY), (proj2 (Nat.ltb_lt 0 _) PZ) in M; discriminate].
  destruct (packing_full l b n ms M C) as (lb&EP&CL&SB). exists l, lb, (contents b (fun _ => ms) (grid n)). split; [unfold manual_lattice; rewrite E; exact M|]. split; [exact EP|]. split.
  - rewrite contents_length, <- P, map_length. reflexivity.
  - eapply lattice_apart; eassumption.
Qed.
