From Coq Require Import ZArith Reals List Bool Arith Permutation Sorting.Sorted Lra Lia Psatz.
From Verif Require Import TextModel GeomModel GeomProofs BoxModel BoxSpec BoxProofs PbcModel PbcSpec RFloorModel RFloorProofs LatticeModel LatticeSpec LatticeProofs LatticeNormProofs PackModel RotModel TransModel TransSpec TransProofs DistModel ShrinkModel ShrinkSpec ShrinkProofs ShrinkCellProofs.
Import ListNotations.
Local Open Scope R_scope.

(** *** Bisection with tests which need fuel *)
Fixpoint ebis (fuel : nat) (test : R -> option (answer bool)) (lo hi : R) : option (answer R) :=
  match fuel with
  | O => None
  | S fuel' => let mid := (lo + hi) / 2 in
    o <-! test mid ;;
    (let '(lo', hi') := if o : bool then (mid, hi) else (lo, mid) in
     if Rltb EPSILON (Rabs (hi' - lo')) then ebis fuel' test lo' hi' else Some (Value hi'))
  end.
Lemma ebis_bis test etest fuel : forall lo hi, 0 < lo \/ 0 <= lo -> lo < hi -> (forall x, lo < x < hi -> terminates_with (fun n => etest n x) (Value (test x))) ->
  exists n, forall fuel0, (n <= fuel0)%nat -> ebis fuel (etest fuel0) lo hi = match bis fuel test lo hi with Some f => Some (Value f) | None => None end.
Proof.
  induction fuel as [|fuel IH]; intros lo hi P L T; [exists O; reflexivity|]. cbn [ebis bis]. cbv zeta. set (mid := (lo + hi) / 2). assert (M : lo < mid < hi) by (unfold mid; lra).
  destruct (T mid M) as [n0 T0]. destruct (test mid).
  - destruct (IH mid hi) as [n1 T1]; [left; lra|lra|intros x X; apply T; lra|]. exists (n0 + n1)%nat. intros fuel0 F. rewrite T0 by lia. cbn [abind]. destruct (Rltb EPSILON _); [apply T1; lia|reflexivity].
  - destruct (IH lo mid) as [n1 T1]; [exact P|lra|intros x X; apply T; lra|]. exists (n0 + n1)%nat. intros fuel0 F. rewrite T0 by lia. cbn [abind]. destruct (Rltb EPSILON _); [apply T1; lia|reflexivity].
Qed.
Lemma ebis_mono test fuel : forall fuel' lo hi r, ebis fuel test lo hi = Some r -> (fuel <= fuel')%nat -> ebis fuel' test lo hi = Some r.
Proof.
  induction fuel as [|fuel IH]; intros fuel' lo hi r H F; [discriminate|]. destruct fuel' as [|fuel']; [lia|]. cbn [ebis] in *. cbv zeta in *. destruct (test ((lo + hi) / 2)) as [[o|]|]; cbn [abind] in *; [|exact H|discriminate].
  destruct o; (destruct (Rltb EPSILON _); [apply IH; [exact H|lia]|exact H]).
Qed.
Lemma ebisection test etest lo hi : 0 <= lo -> lo < hi -> (forall x, lo < x < hi -> terminates_with (fun n => etest n x) (Value (test x))) ->
  exists d lo', terminates_with (fun fuel => ebis fuel (etest fuel) lo hi) (Value d) /\ lo <= lo' < d /\ d <= hi /\ d - lo' <= EPSILON /\ (lo' = lo \/ test lo' = true) /\ (d = hi \/ test d = false).
Proof.
  intros P L T. destruct (bisection test lo hi L) as (n&d&lo'&B&R). exists d, lo'. split; [|exact R].
  destruct (ebis_bis test etest (S n) lo hi (or_intror P) L T) as [n0 H]. exists (S n + n0)%nat. intros fuel F. apply (ebis_mono _ (S n)); [|lia]. rewrite H by lia. rewrite B by lia. reflexivity.
Qed.

(** *** Molecules in the unit cell *)
Lemma Rfl_unique x z : IZR z <= x < IZR z + 1 -> Rfl x = z.
Proof.
  intros H. pose proof (Rfl_spec x) as S0. assert (A : IZR z < IZR (Rfl x + 1)) by (rewrite plus_IZR; lra). assert (B : IZR (Rfl x) < IZR (z + 1)) by (rewrite plus_IZR; lra).
  apply lt_IZR in A. apply lt_IZR in B. lia.
Qed.
Lemma frac_wrapped s : wrapped s (frac s).
Proof.
  split; [reflexivity|]. split; [apply frac_unit|]. exists (- Rfl (vx (sh_pos s)))%Z, (- Rfl (vy (sh_pos s)))%Z, (- Rfl (vz (sh_pos s)))%Z. apply vec_ext; cbn; rewrite opp_IZR; ring.
Qed.
Lemma wrapped_frac s s' : wrapped s s' -> s' = frac s.
Proof.
  intros (R0&U&i&j&k&P). destruct s' as [p' r'], s as [p r]. cbn in *. subst r'. unfold frac. cbn. f_equal. subst p'.
  assert (F : forall x z, 0 <= x + IZR z < 1 -> Rfl x = (- z)%Z) by (intros x z H; apply Rfl_unique; rewrite opp_IZR; lra).
  pose proof (F _ _ (U AX)) as FX. pose proof (F _ _ (U AY)) as FY. pose proof (F _ _ (U AZ)) as FZ. apply vec_ext; cbn; rewrite ?FX, ?FY, ?FZ, opp_IZR; ring.
Qed.
Lemma wrapped_all cell cell' : Forall2 wrapped cell cell' <-> cell' = map frac cell.
Proof.
  split.
  - induction 1 as [|s s' cell cell' H _ IH]; [reflexivity|]. cbn. rewrite (wrapped_frac _ _ H), IH. reflexivity.
  - intros ->. induction cell; constructor; [apply frac_wrapped|assumption].
Qed.
Lemma frac_same s : in_unit s -> frac s = s.
Proof. intros U. symmetry. apply wrapped_frac. split; [reflexivity|]. split; [exact U|]. exists 0%Z, 0%Z, 0%Z. apply vec_ext; cbn; ring. Qed.
Lemma frac_same_all cell : (forall s, In s cell -> in_unit s) -> map frac cell = cell.
Proof. intros U. rewrite <- (map_id cell) at 2. apply map_ext_in. intros s I. apply frac_same, U, I. Qed.
Lemma normalize_regular b d cell : terminates_with (fun fuel => normalize fuel (Lattice b [cell] d true)) (Lattice b [map frac cell] d true).
Proof.
  destruct (shapes_terminate cell) as [n T]. exists n. intros fuel F. unfold normalize. destruct (isNormalized (Lattice b [cell] d true)) eqn:N.
  - unfold isNormalized in N. cbn in N. rewrite andb_true_r in N. rewrite frac_same_all; [reflexivity|]. apply cell_normalized_iff, N.
  - cbn [lat_regular]. unfold normalizeRegular. cbn. rewrite T by exact F. reflexivity.
Qed.
Lemma sorted_unique {A} (R : A -> A -> Prop) : (forall x y, R x y -> R y x -> False) -> forall l l', StronglySorted R l -> StronglySorted R l' -> (forall x, In x l <-> In x l') -> l = l'.
Proof.
  intros AS l l' H. assert (IR : forall x, ~ R x x) by (intros x X; exact (AS x x X X)). revert l'. induction H as [|x l H IH F]; intros l' H' E.
  - destruct l' as [|y l']; [reflexivity|]. destruct (proj2 (E y) (or_introl eq_refl)).
  - destruct H' as [|y l' H' F']; [destruct (proj1 (E x) (or_introl eq_refl))|].
    rewrite Forall_forall in F, F'. assert (x = y) as ->.
    { destruct (proj1 (E x) (or_introl eq_refl)) as [A0|A0]; [auto|]. destruct (proj2 (E y) (or_introl eq_refl)) as [B0|B0]; [auto|]. destruct (AS x y (F y B0) (F' x A0)). }
    f_equal. apply IH; [exact H'|]. intros z. split; intros I0.
    + destruct (proj1 (E z) (or_intror I0)) as [A0|A0]; [subst z; destruct (IR y (F y I0))|exact A0].
    + destruct (proj2 (E z) (or_intror I0)) as [A0|A0]; [subst z; destruct (IR y (F' y I0))|exact A0].
Qed.
Lemma traversal_grid d cells : traversal AX AY AZ d cells -> cells = grid d.
Proof.
  intros [M S0]. pose proof (loop3_traversal AX AY AZ d ltac:(repeat split; discriminate)) as [M' S'].
  apply (sorted_unique (before AX AY AZ)); [unfold before; intros x y; lia|exact S0|exact S'|]. intros c. rewrite M, M'. reflexivity.
Qed.

(** *** Overlaps in the lattice *)
Definition positive (d : idx3) : Prop := (0 < ix d /\ 0 < iy d /\ 0 < iz d)%nat.
Definition sizes (d : idx3) : vec := V3 (INR (ix d)) (INR (iy d)) (INR (iz d)).
Section Crystal.
Variable overlaps : box -> list shape -> bool.
Definition crystal_test (b : box) (d : idx3) (cell : list shape) : bool :=
  match getLatticeBox (Lattice b [cell] d true) with Some lb => overlaps lb (contents b (fun _ => map frac cell) (grid d)) | None => false end.
Lemma regular_valid b d cell : constructed b -> positive d -> valid (Lattice b [cell] d true) b d (fun _ => cell).
Proof. intros C P. apply make_valid; [exact C|]. apply make_iff. auto. Qed.
Lemma regular_box b d cell : constructed b -> positive d -> exists lb, getLatticeBox (Lattice b [cell] d true) = Some lb /\ scaled b (sizes d) lb.
Proof.
  intros C P. destruct (lattice_box_valid _ _ _ _ (regular_valid b d cell C P)) as (lb&LB&CL&SL). exists lb. split; [exact LB|]. split; [exact CL|]. intros []; [apply (SL AX)|apply (SL AY)|apply (SL AZ)].
Qed.
Lemma same_lattice_box b d cell cell' : getLatticeBox (Lattice b [cell] d true) = getLatticeBox (Lattice b [cell'] d true).
Proof. reflexivity. Qed.
Lemma crystal_test_spec b d cell : constructed b -> positive d -> terminates_with (fun fuel => areShapesOverlapping overlaps fuel b cell d) (Value (crystal_test b d cell)) /\ (crystal_test b d cell = true <-> crystal_overlaps overlaps b d cell).
Proof.
  intros C P. destruct (regular_box b d cell C P) as (lb&LB&SL). unfold crystal_test. rewrite LB. split.
  - destruct (normalize_regular b d cell) as [n T]. exists n. intros fuel F. unfold areShapesOverlapping. rewrite (proj2 (make_iff b cell d _) (conj P eq_refl)). cbn [may_throw abind]. rewrite T by exact F. cbn [may_loop abind].
    rewrite (generate_valid _ _ _ _ (regular_valid b d (map frac cell) C P)). cbn [may_throw abind]. rewrite (same_lattice_box b d _ cell), LB. reflexivity.
  - split.
    + intros O. exists lb, (grid d), (map frac cell). split; [exact SL|]. split; [apply loop3_traversal; repeat split; discriminate|]. split; [apply wrapped_all; reflexivity|exact O].
    + intros (lb'&cells&cell'&S'&T&W&O). rewrite (scaled_unique _ _ _ _ SL S'). apply traversal_grid in T as ->. apply wrapped_all in W as ->. exact O.
Qed.
End Crystal.

(** *** Coordinates of layers *)
Lemma change_coords_spec a f indices : forall cell, NoDup indices -> (forall i, In i indices -> nth_error cell i <> None) -> exists cell', change_coords a f indices cell = Some cell' /\
  forall j, nth_error cell' j = if in_dec Nat.eq_dec j indices then option_map (fun s => Shape (put (sh_pos s) a (f (vget (sh_pos s) a))) (sh_rot s)) (nth_error cell j) else nth_error cell j.
Proof.
  induction indices as [|i indices IH]; intros cell N I0; [exists cell; split; reflexivity|]. inversion N as [|? ? NI N']; subst. cbn [change_coords].
  destruct (nth_error cell i) as [s|] eqn:E; [|destruct (I0 i (or_introl eq_refl) E)].
  destruct (change_at_spec (fun s => Some (Shape (vput (sh_pos s) a (f (vget (sh_pos s) a))) (sh_rot s))) i cell s _ E eq_refl) as (cell1&E1&H1). rewrite E1.
  destruct (IH cell1 N') as (cell2&E2&H2).
  { intros j J. rewrite H1. destruct (Nat.eqb_spec j i); [discriminate|]. apply I0. right; exact J. }
  exists cell2. split; [exact E2|]. intros j. rewrite H2, H1. destruct (in_dec Nat.eq_dec j indices) as [J|J], (in_dec Nat.eq_dec j (i :: indices)) as [K|K], (Nat.eqb_spec j i) as [Q|Q]; cbn in K; try (subst j; contradiction); try (exfalso; intuition congruence); try reflexivity.
  subst j. rewrite E, put_vput. reflexivity.
Qed.
Section Layers.
Variables (a : axis) (cell : list shape) (zs : list R) (layers : list (R * list nat)).
Hypothesis sorted_zs : StronglySorted Rlt zs.
Hypothesis coordinates : forall z, In z zs <-> exists s, In s cell /\ vget (sh_pos s) a = z.
Hypothesis layers_zs : layers_of a cell zs layers.
Definition layer_of (s : shape) : nat := layers_below zs (vget (sh_pos s) a).
Lemma layer_of_bound s : In s cell -> nth_error zs (layer_of s) = Some (vget (sh_pos s) a).
Proof.
  intros I0. assert (J : In (vget (sh_pos s) a) zs) by (apply coordinates; eauto). apply In_nth_error in J as [n J]. unfold layer_of. rewrite (below_nth zs n _ sorted_zs J). exact J.
Qed.
Lemma layer_change f pre y post q is' z : length pre = q -> nth_error layers q = Some (z, is') -> length (pre ++ y :: post) = length zs ->
  change_coords a f is' (relayered a zs (pre ++ y :: post) cell) = Some (relayered a zs (pre ++ f y :: post) cell).
Proof.
  intros LQ LA LL. destruct layers_zs as [_ LZ]. destruct (LZ q z is' LA) as (ZQ&N&II).
  destruct (change_coords_spec a f is' (relayered a zs (pre ++ y :: post) cell) N) as (cell'&E&H).
  { intros i J. apply II in J as (s&J&_). unfold relayered. rewrite nth_error_map, J. discriminate. }
  rewrite E. f_equal. apply TransProofs.nth_ext. intros j. rewrite H. unfold relayered. rewrite !nth_error_map. destruct (nth_error cell j) as [s|] eqn:J; cbn [option_map]; [|destruct (in_dec _ _ _); reflexivity].
  pose proof (layer_of_bound s (nth_error_In _ _ J)) as LB. fold (layer_of s).
  assert (D : In j is' <-> layer_of s = q).
  { rewrite II. split.
    - intros (s'&J'&C). rewrite J in J'. injection J' as <-. unfold coord in C. unfold layer_of. rewrite C. apply below_nth; assumption.
    - intros Q. exists s. split; [exact J|]. rewrite Q, ZQ in LB. injection LB as LB. symmetry. exact LB. }
  destruct (in_dec Nat.eq_dec j is') as [K|K].
  - apply D in K. rewrite K. cbn [sh_pos sh_rot]. rewrite get_put_same, put_put, !app_nth2, LQ, Nat.sub_diag by lia. reflexivity.
  - assert (Q : layer_of s <> q) by tauto. do 3 f_equal. destruct (Nat.lt_ge_cases (layer_of s) q) as [L|L].
    + rewrite !app_nth1 by lia. reflexivity.
    + rewrite !app_nth2 by lia. destruct (layer_of s - length pre)%nat as [|m] eqn:M; [lia|reflexivity].
Qed.
Lemma relayered_same : relayered a zs zs cell = cell.
Proof.
  unfold relayered. rewrite <- (map_id cell) at 2. apply map_ext_in. intros s I0. pose proof (layer_of_bound s I0) as LB. fold (layer_of s). rewrite (nth_error_nth _ _ 0 LB). destruct s as [[x y z] r], a; reflexivity.
Qed.
Lemma relayered_map g ys : g 0 = 0 -> map (fun s => Shape (vput (sh_pos s) a (g (vget (sh_pos s) a))) (sh_rot s)) (relayered a zs ys cell) = relayered a zs (map g ys) cell.
Proof.
  intros G. unfold relayered. rewrite map_map. apply map_ext. intros s. cbn [sh_pos sh_rot]. rewrite put_vput, put_put, get_put_same. rewrite <- (map_nth g), G. reflexivity.
Qed.
Lemma relayered_in g ys : length ys = length zs -> map (fun s => Shape (vput (sh_pos s) a (g (vget (sh_pos s) a))) (sh_rot s)) (relayered a zs ys cell) = relayered a zs (map g ys) cell.
Proof.
  intros L. unfold relayered. rewrite map_map. apply map_ext_in. intros s I0. cbn [sh_pos sh_rot]. rewrite put_vput, put_put, get_put_same. fold (layer_of s). pose proof (layer_of_bound s I0) as LB.
  assert (B : (layer_of s < length zs)%nat) by (apply nth_error_Some; congruence). do 2 f_equal. rewrite (nth_indep (map g ys) 0 (g 0)) by (rewrite map_length; lia). symmetry. apply map_nth.
Qed.

Variables (overlaps : box -> list shape -> bool) (b : box) (d : idx3).
Hypothesis constructed_b : constructed b.
Hypothesis positive_d : positive d.
Definition crystal (ys : list R) : Prop := crystal_overlaps overlaps b d (relayered a zs ys cell).
Definition ctest (ys : list R) : bool := crystal_test overlaps b d (relayered a zs ys cell).
Lemma ctest_iff ys : ctest ys = true <-> crystal ys.
Proof. apply crystal_test_spec; assumption. Qed.
Lemma layer_loop_ebis fuel0 pre post q is' z : length pre = q -> nth_error layers q = Some (z, is') -> (length pre + S (length post) = length zs)%nat -> forall fuel lo hi,
  layer_loop overlaps fuel fuel0 b d a is' lo hi (relayered a zs (pre ++ hi :: post) cell) =
  (y <-! ebis fuel (fun x => areShapesOverlapping overlaps fuel0 b (relayered a zs (pre ++ x :: post) cell) d) lo hi ;; Some (Value (relayered a zs (pre ++ y :: post) cell))).
Proof.
  intros LQ LA LL fuel. induction fuel as [|fuel IH]; intros lo hi; [reflexivity|]. cbn [layer_loop ebis]. cbv zeta. rewrite (layer_change _ pre hi post q is' z LQ LA) by (rewrite app_length; cbn; lia). cbn [may_throw abind].
  destruct (areShapesOverlapping _ _ _ _ _) as [[[|]|]|]; cbn [abind]; try reflexivity; destruct (Rltb EPSILON _); try apply IH; reflexivity.
Qed.
Lemma layers_suffix : forall rest pre z is0, layers = pre ++ (z, is0) :: rest -> 0 <= z -> forall done, length done = S (length pre) ->
  exists ys, terminates_with (fun fuel => optimize_layers overlaps fuel b d a (z, is0) rest (relayered a zs (done ++ map fst rest) cell)) (Value (relayered a zs ys cell)) /\ length ys = length zs /\
  compressed crystal done z (map fst rest) ys.
Proof.
  destruct layers_zs as [MZ _]. induction rest as [|[z' is1] rest IH]; intros pre z is0 LE ZP done LD.
  - exists done. rewrite app_nil_r. split; [apply at_once|]. split; [rewrite <- MZ, LE, map_length, app_length; cbn; lia|]. constructor.
  - assert (LEN : (length done + S (length (map fst rest)) = length zs)%nat) by (rewrite <- MZ, LE, !map_length, app_length; cbn; lia).
    assert (LA : nth_error layers (length done) = Some (z', is1)) by (rewrite LE, LD, nth_error_app2 by lia; replace (S (length pre) - length pre)%nat with 1%nat by lia; reflexivity).
    assert (ZZ : z < z').
    { pose proof sorted_zs as SZ. rewrite <- MZ, LE, map_app in SZ. clear -SZ. induction pre as [|p pre IH]; cbn in SZ; inversion SZ as [|? ? S1 F1]; subst; [inversion F1; assumption|apply IH; exact S1]. }
    destruct (ebisection (fun x => ctest (done ++ x :: map fst rest)) (fun fuel x => areShapesOverlapping overlaps fuel b (relayered a zs (done ++ x :: map fst rest) cell) d) z z' ZP ZZ) as (y&y'&[n T]&Y1&Y2&Y3&Y4&Y5).
    { intros x _. apply crystal_test_spec; assumption. }
    destruct (IH (pre ++ [(z, is0)]) z' is1) with (done := done ++ [y + EPSILON]) as (ys&[m T']&LY&CP); [rewrite <- app_assoc; exact LE|lra|rewrite !app_length; cbn; lia|].
    exists ys. split; [|split; [exact LY|]].
    + exists (n + m)%nat. intros fuel F. cbn [optimize_layers map fst snd]. rewrite (layer_loop_ebis fuel done (map fst rest) (length done) is1 z' eq_refl LA LEN fuel). rewrite T by lia. cbn [abind].
      rewrite (layer_change _ done y (map fst rest) (length done) is1 z' eq_refl LA) by (rewrite app_length; cbn; lia). cbn [may_throw abind].
      specialize (T' fuel ltac:(lia)). rewrite <- app_assoc in T'. exact T'.
    + cbn [map fst]. eapply compressed_layer with (y := y); [lra| | |exact CP].
      * intros L K. apply ctest_iff in K. destruct Y5; [lra|congruence].
      * unfold EPSILON in Y3. fold accuracy in Y3. destruct Y4 as [->|Y4]; [left; lra|]. destruct (Rle_lt_dec y (z + accuracy)) as [L|L]; [left; exact L|]. right. exists y'. split; [lra|]. split; [lra|]. apply ctest_iff. exact Y4.
Qed.
Lemma box_sides_scaled f : 0 < f -> exists b', (let side a' := if axis_eqb a' a then vscale f (box_side b a') else box_side b a' in box_of_sides (side AX) (side AY) (side AZ)) = Some b' /\ scaled b (put (V3 1 1 1) a f) b' /\ (forall a', box_height b' a' = vget (put (V3 1 1 1) a f) a' * box_height b a').
Proof.
  intros F. destruct (scaled_exists b (put (V3 1 1 1) a f) constructed_b (put_positive _ _ _ one_positive F)) as (b'&E&S'&H). exists b'. split; [|split; assumption]. rewrite <- E. unfold box_scale_sides. cbv zeta.
  destruct a; cbn [axis_eqb put]; unfold vget; cbn [vx vy vz]; f_equal; apply vec_ext; cbn; ring.
Qed.
Lemma rescale_spec ys f : 0 < f -> exists b', rescaleCell a b (relayered a zs ys cell) f = Some (b', relayered a zs (map (fun y => y / f) ys) cell) /\ scaled b (put (V3 1 1 1) a f) b' /\ (forall a', box_height b' a' = vget (put (V3 1 1 1) a f) a' * box_height b a').
Proof.
  intros F. destruct (box_sides_scaled f F) as (b'&E&S'). exists b'. split; [|exact S']. unfold rescaleCell. cbv zeta in *. rewrite E. pose proof (relayered_map (fun x => x / f) ys ltac:(cbn beta; field; lra)) as RM. cbn beta in RM. rewrite RM. reflexivity.
Qed.
Lemma rescale_one ys : rescaleCell a b (relayered a zs ys cell) 1 = Some (b, relayered a zs ys cell).
Proof.
  destruct (rescale_spec ys 1 ltac:(lra)) as (b'&E&S'&_). rewrite E. assert (b' = b) as ->.
  { apply (scaled_unique b (put (V3 1 1 1) a 1)); [exact S'|]. split; [exact constructed_b|]. intros a'. destruct a, a'; apply vec_ext; cbn; ring. }
  do 2 f_equal. f_equal. rewrite <- (map_id ys) at 2. apply map_ext. intros y. field.
Qed.
Definition ftest (ys : list R) (f : R) : bool := match rescaleCell a b (relayered a zs ys cell) f with Some c => crystal_test overlaps (fst c) d (snd c) | None => false end.
Lemma ftest_spec ys f : 0 < f -> exists c, rescaleCell a b (relayered a zs ys cell) f = Some c /\ terminates_with (fun fuel => areShapesOverlapping overlaps fuel (fst c) (snd c) d) (Value (ftest ys f)) /\
  (ftest ys f = true <-> cell_overlaps overlaps b d a zs ys cell f).
Proof.
  intros F. destruct (rescale_spec ys f F) as (b'&E&S'&_). eexists. split; [exact E|]. unfold ftest. rewrite E. cbn [fst snd]. destruct (crystal_test_spec overlaps b' d (relayered a zs (map (fun y => y / f) ys) cell) (proj1 S') positive_d) as [T I0]. split; [exact T|].
  rewrite I0. split; [intros K; exists b'; auto|]. intros (b2&S2&K). rewrite (scaled_unique _ _ _ _ S' S2). exact K.
Qed.
Lemma cell_loop_ebis fuel0 ys fuel : forall lo hi best, 0 < lo < hi -> rescaleCell a b (relayered a zs ys cell) hi = Some best ->
  may_throw (rescaleCell a b (relayered a zs ys cell) hi) = Some (Value best) /\
  cell_loop overlaps fuel fuel0 a d b (relayered a zs ys cell) lo hi best =
  (f <-! ebis fuel (fun x => c <-! may_throw (rescaleCell a b (relayered a zs ys cell) x) ;; areShapesOverlapping overlaps fuel0 (fst c) (snd c) d) lo hi ;; may_throw (rescaleCell a b (relayered a zs ys cell) f)).
Proof.
  induction fuel as [|fuel IH]; intros lo hi best L B; (split; [rewrite B; reflexivity|]); [reflexivity|]. cbn [cell_loop ebis]. cbv zeta. destruct (ftest_spec ys ((lo + hi) / 2) ltac:(lra)) as (c&E&_). rewrite E. cbn [may_throw abind].
  destruct (areShapesOverlapping _ _ _ _ _) as [[[|]|]|]; cbn [abind]; try reflexivity; destruct (Rltb EPSILON _); try (apply IH; [lra|assumption]); cbn [abind]; [rewrite B|rewrite E]; reflexivity.
Qed.
Lemma optimizeCell_spec range ys lb : 0 < range -> scaled b (sizes d) lb -> exists r, terminates_with (fun fuel => optimizeCell range overlaps fuel a d b (relayered a zs ys cell)) r /\
  match r with
  | Value c => (forall a', margin * range < box_height lb a') /\ cell_overlaps overlaps b d a zs ys cell (least_factor range lb a) /\
      exists f, touching (cell_overlaps overlaps b d a zs ys cell) (least_factor range lb a) f /\ 0 < f /\ rescaleCell a b (relayered a zs ys cell) f = Some c
  | Violated => (exists a', box_height lb a' <= margin * range) \/ ~ cell_overlaps overlaps b d a zs ys cell (least_factor range lb a)
  end.
Proof.
  intros RP SL. unfold optimizeCell. destruct (regular_box b d (relayered a zs ys cell) constructed_b positive_d) as (lb'&LB&SL'). rewrite (scaled_unique _ _ _ _ SL' SL) in LB. clear lb' SL'. rewrite LB. cbn [may_throw abind].
  destruct (all_axes _) eqn:AA; cbn [validate abind].
  2:{ exists Violated. split; [apply at_once|]. left. apply all_axes_false in AA as [a' AA]. apply Rltb_false in AA. exists a'. exact AA. }
  assert (HH : forall a', margin * range < box_height lb a') by (intros a'; apply Rltb_true; exact (proj1 (all_axes_iff _) AA a')).
  assert (HP : 0 < box_height lb a) by (apply height_pos, constructed_valid, SL). cbv zeta. change (range * FACTOR_EPSILON / box_height lb a) with (least_factor range lb a).
  pose proof (least_positive range lb a RP (proj1 SL)) as LP. assert (LF : least_factor range lb a < 1). { unfold least_factor. apply (Rmult_lt_reg_r (box_height lb a)); [exact HP|]. unfold Rdiv. rewrite Rmult_assoc, Rinv_l by lra. specialize (HH a). lra. }
  set (lo := least_factor range lb a) in *. destruct (ftest_spec ys lo LP) as (c0&E0&[n0 T0]&I0). rewrite E0. cbn [may_throw abind].
  destruct (ftest ys lo) eqn:F0.
  2:{ exists Violated. split; [exists n0; intros fuel F; rewrite T0 by exact F; reflexivity|]. right. intros K. apply I0 in K. discriminate. }
  destruct (ebisection (ftest ys) (fun fuel x => c <-! may_throw (rescaleCell a b (relayered a zs ys cell) x) ;; areShapesOverlapping overlaps fuel (fst c) (snd c) d) lo 1 ltac:(lra) LF) as (f&f'&[n T]&Y1&Y2&Y3&Y4&Y5).
  { intros x X. destruct (ftest_spec ys x ltac:(lra)) as (c&E&[m Tm]&_). exists m. intros fuel F. rewrite E. cbn [may_throw abind]. apply Tm, F. }
  destruct (ftest_spec ys f ltac:(lra)) as (c&Ec&_&If). exists (Value c). split.
  - exists (n0 + n)%nat. intros fuel F. rewrite T0 by lia. cbn [abind]. destruct (cell_loop_ebis fuel ys fuel lo 1 _ ltac:(lra) (rescale_one ys)) as [_ ->]. rewrite T by lia. cbn [abind]. rewrite Ec. reflexivity.
  - split; [exact HH|]. split; [apply I0; reflexivity|]. exists f. split; [|split; [lra|exact Ec]]. split; [lra|]. split.
    + intros L K. apply If in K. destruct Y5; [lra|congruence].
    + exists f'. unfold EPSILON in Y3. fold accuracy in Y3. split; [lra|]. split; [lra|]. destruct (ftest_spec ys f' ltac:(lra)) as (_&_&_&I1). apply I1. destruct Y4 as [->|]; assumption.
Qed.
Lemma space_layers_spec shift factor : forall rest pre done, layers = pre ++ rest -> length done = length pre -> forall ys, length ys = length rest ->
  space_layers a shift factor (length pre) rest (relayered a zs (done ++ ys) cell) = Some (relayered a zs (done ++ map (fun p => (snd p + INR (fst p) * shift) / factor) (combine (seq (length pre) (length ys)) ys)) cell).
Proof.
  destruct layers_zs as [MZ _]. induction rest as [|[z is'] rest IH]; intros pre done LE LD ys LY.
  - destruct ys; [reflexivity|discriminate].
  - destruct ys as [|y ys]; [discriminate|]. cbn [space_layers snd]. rewrite (layer_change _ done y ys (length done) is' z eq_refl).
    + cbn [length] in LY. specialize (IH (pre ++ [(z, is')]) (done ++ [(y + INR (length pre) * shift) / factor]) ltac:(rewrite <- app_assoc; exact LE) ltac:(rewrite !app_length; cbn; lia) ys ltac:(lia)).
      rewrite app_length in IH. cbn [length] in IH. rewrite Nat.add_1_r in IH. rewrite <- !app_assoc in IH. cbn [app] in IH. rewrite IH. reflexivity.
    + rewrite LE, LD, nth_error_app2, Nat.sub_diag by lia. reflexivity.
    + rewrite <- MZ, LE, map_length, !app_length. cbn in *. lia.
Qed.
Lemma spaced_spec h f spacing m : 0 < h -> 0 < f -> f * h + INR m * spacing <> 0 -> forall ys i,
  map (fun p => (snd p + INR (fst p) * (spacing / (f * h))) / ((f * h + INR m * spacing) / (f * h))) (combine (seq i (length ys)) (map (fun y => y / f) ys)) = spaced h f spacing m i ys.
Proof.
  intros HP FP NZ ys. induction ys as [|y ys IH]; intros i; [reflexivity|]. cbn [length seq map combine spaced fst snd]. rewrite IH. f_equal. field. repeat split; lra.
Qed.
Lemma spaced_length h f spacing m ys : forall i, length (spaced h f spacing m i ys) = length ys.
Proof. induction ys; intros i; cbn; auto. Qed.
Lemma introduceSpacing_spec ys f spacing c : length ys = length zs -> 0 < f -> rescaleCell a b (relayered a zs ys cell) f = Some c ->
  let h := box_height b a in let m := length zs in
  if Rltb 0 (f * h + INR m * spacing)
  then exists b', introduceSpacing a spacing layers c = Some (Value (b', relayered a zs (spaced h f spacing m 0 ys) cell)) /\ scaled b (put (V3 1 1 1) a (f + INR m * spacing / h)) b'
  else introduceSpacing a spacing layers c = Some Violated.
Proof.
  intros LY FP RC h m. assert (HP : 0 < h) by (apply height_pos, constructed_valid, constructed_b). destruct (rescale_spec ys f FP) as (b1&E1&S1&H1). rewrite E1 in RC. injection RC as <-.
  assert (LL : length layers = m) by (unfold m; rewrite <- (proj1 layers_zs), map_length; reflexivity).
  unfold introduceSpacing. cbn [fst snd]. rewrite H1, get_put_same, LL. fold h. cbv zeta. assert (FH : 0 < f * h) by (apply Rmult_lt_0_compat; assumption).
  destruct (Rltb 0 (f * h + INR m * spacing)) eqn:P.
  - apply Rltb_true in P. assert (Q : 0 < (f * h + INR m * spacing) / (f * h)) by (apply Rdiv_lt_0_compat; assumption). rewrite (proj2 (Rltb_true _ _) Q). cbn [validate abind].
    destruct (scaled_exists b1 (put (V3 1 1 1) a ((f * h + INR m * spacing) / (f * h))) (proj1 S1) (put_positive _ _ _ one_positive Q)) as (b2&E2&S2&_).
    assert (E2' : box_of_sides (if axis_eqb AX a then vscale ((f * h + INR m * spacing) / (f * h)) (box_side b1 AX) else box_side b1 AX) (if axis_eqb AY a then vscale ((f * h + INR m * spacing) / (f * h)) (box_side b1 AY) else box_side b1 AY)
      (if axis_eqb AZ a then vscale ((f * h + INR m * spacing) / (f * h)) (box_side b1 AZ) else box_side b1 AZ) = Some b2).
    { rewrite <- E2. unfold box_scale_sides. clear. destruct a; cbn [axis_eqb put]; unfold vget; cbn [vx vy vz]; f_equal; apply vec_ext; cbn; ring. }
    rewrite E2'. cbn [may_throw abind]. pose proof (space_layers_spec (spacing / (f * h)) ((f * h + INR m * spacing) / (f * h)) layers [] [] eq_refl eq_refl (map (fun y => y / f) ys) ltac:(rewrite map_length, LL; exact LY)) as SP.
    cbn [length app] in SP. rewrite SP, map_length, (spaced_spec h f spacing m HP FP ltac:(lra)). cbn [may_throw abind]. exists b2. split; [reflexivity|].
    pose proof (scaled_trans _ _ _ _ _ S1 S2) as TR. replace (put (V3 1 1 1) a (f + INR m * spacing / h)) with (vmake (fun a0 => vget (put (V3 1 1 1) a f) a0 * vget (put (V3 1 1 1) a ((f * h + INR m * spacing) / (f * h))) a0)); [exact TR|].
    clear -FP HP. apply vec_ext; destruct a; cbn; try ring; field; lra.
  - apply Rltb_false in P. rewrite (proj2 (Rltb_false _ _)); [reflexivity|]. unfold Rdiv. apply (Rmult_le_reg_r (f * h)); [exact FH|]. rewrite Rmult_assoc, Rinv_l by lra. lra.
Qed.
Lemma center_spec ws s0 s1 : length ws = length zs -> nth_error cell 0 = Some s0 -> nth_error cell (length cell - 1) = Some s1 ->
  centerShapesInCell a (relayered a zs ws cell) = Some (relayered a zs (map (fun w => w + (1/2 - (nth (layer_of s0) ws 0 + nth (layer_of s1) ws 0) / 2)) ws) cell).
Proof.
  intros L E0 E1. unfold centerShapesInCell.
  assert (LR : length (relayered a zs ws cell) = length cell) by (unfold relayered; apply map_length).
  assert (N : forall i s, nth_error cell i = Some s -> nth_error (relayered a zs ws cell) i = Some (Shape (put (sh_pos s) a (nth (layer_of s) ws 0)) (sh_rot s))) by (intros i s E; unfold relayered; rewrite nth_error_map, E; reflexivity).
  rewrite LR, (N _ _ E0), (N _ _ E1). cbn [sh_pos]. rewrite !get_put_same. f_equal. exact (relayered_in (fun w => w + (1/2 - (nth (layer_of s0) ws 0 + nth (layer_of s1) ws 0) / 2)) ws L).
Qed.
End Layers.
