From Coq Require Import ZArith Reals List Bool Arith Permutation Sorting.Sorted Lra Lia Psatz.
From Verif Require Import TextModel GeomModel GeomProofs BoxModel BoxSpec BoxProofs PbcModel PbcSpec LatticeModel LatticeSpec LatticeProofs LatticeNormProofs PackModel RotModel TransModel TransSpec TransProofs DistModel ShrinkModel ShrinkSpec.
Import ListNotations.
Local Open Scope R_scope.

(** *** Bisection *)
Fixpoint bis (fuel : nat) (test : R -> bool) (lo hi : R) : option R :=
  match fuel with
  | O => None
  | S fuel' => let mid := (lo + hi) / 2 in
    let '(lo', hi') := if test mid then (mid, hi) else (lo, mid) in
    if Rltb EPSILON (Rabs (hi' - lo')) then bis fuel' test lo' hi' else Some hi'
  end.
Lemma EPSILON_pos : 0 < EPSILON.
Proof. unfold EPSILON. apply Rinv_0_lt_compat, pow_lt. lra. Qed.
Lemma bis_spec test n : forall lo hi, lo < hi -> hi - lo <= EPSILON * 2 ^ n ->
  exists d lo', (forall fuel, (n < fuel)%nat -> bis fuel test lo hi = Some d) /\ lo <= lo' < d /\ d <= hi /\ d - lo' <= EPSILON /\ (lo' = lo \/ test lo' = true) /\ (d = hi \/ test d = false).
Proof.
  pose proof EPSILON_pos as EP. induction n as [|n IH]; intros lo hi L W.
  - set (mid := (lo + hi) / 2). assert (M : lo < mid < hi) by (unfold mid; lra).
    assert (W' : hi - mid <= EPSILON /\ mid - lo <= EPSILON) by (unfold mid; cbn in W; lra).
    destruct (test mid) eqn:O.
    + exists hi, mid. split; [|repeat split; auto; lra]. intros [|fuel] F; [lia|]. cbn [bis]. cbv zeta. fold mid. rewrite O, (proj2 (Rltb_false _ _)); [reflexivity|]. rewrite Rabs_pos_eq; lra.
    + exists mid, lo. split; [|repeat split; auto; lra]. intros [|fuel] F; [lia|]. cbn [bis]. cbv zeta. fold mid. rewrite O, (proj2 (Rltb_false _ _)); [reflexivity|]. rewrite Rabs_pos_eq; lra.
  - set (mid := (lo + hi) / 2). assert (M : lo < mid < hi) by (unfold mid; lra).
    assert (W' : hi - mid <= EPSILON * 2 ^ n /\ mid - lo <= EPSILON * 2 ^ n) by (unfold mid; cbn in W; lra).
    destruct (test mid) eqn:O.
    + destruct (Rltb EPSILON (Rabs (hi - mid))) eqn:T.
      * destruct (IH mid hi) as (d&lo'&H&R1&R2&R3&R4&R5); [lra|lra|]. exists d, lo'. split; [|repeat split; try apply R1; try lra; [destruct R4 as [->|]; auto|exact R5]].
        intros [|fuel] F; [lia|]. cbn [bis]. cbv zeta. fold mid. rewrite O, T. apply H. lia.
      * apply Rltb_false in T. rewrite Rabs_pos_eq in T by lra. exists hi, mid. split; [|repeat split; auto; lra]. intros [|fuel] F; [lia|]. cbn [bis]. cbv zeta. fold mid. rewrite O, (proj2 (Rltb_false _ _)); [reflexivity|]. rewrite Rabs_pos_eq; lra.
    + destruct (Rltb EPSILON (Rabs (mid - lo))) eqn:T.
      * destruct (IH lo mid) as (d&lo'&H&R1&R2&R3&R4&R5); [lra|lra|]. exists d, lo'. split; [|repeat split; try apply R1; try lra; [exact R4|destruct R5 as [->|]; auto]].
        intros [|fuel] F; [lia|]. cbn [bis]. cbv zeta. fold mid. rewrite O, T. apply H. lia.
      * apply Rltb_false in T. rewrite Rabs_pos_eq in T by lra. exists mid, lo. split; [|repeat split; auto; lra]. intros [|fuel] F; [lia|]. cbn [bis]. cbv zeta. fold mid. rewrite O, (proj2 (Rltb_false _ _)); [reflexivity|]. rewrite Rabs_pos_eq; lra.
Qed.
Lemma enough_halvings x : exists n, x <= EPSILON * 2 ^ n.
Proof.
  pose proof EPSILON_pos as EP. destruct (Pow_x_infinity 2 ltac:(rewrite Rabs_pos_eq; lra) (x / EPSILON)) as [n H]. exists n. specialize (H n (le_n n)).
  rewrite Rabs_pos_eq in H by (apply pow_le; lra). apply Rge_le in H. apply Rmult_le_compat_l with (r := EPSILON) in H; [|lra]. replace (EPSILON * (x / EPSILON)) with x in H by (field; lra). exact H.
Qed.
Lemma bisection test lo hi : lo < hi -> exists n d lo', (forall fuel, (n < fuel)%nat -> bis fuel test lo hi = Some d) /\ lo <= lo' < d /\ d <= hi /\ d - lo' <= EPSILON /\ (lo' = lo \/ test lo' = true) /\ (d = hi \/ test d = false).
Proof. intros L. destruct (enough_halvings (hi - lo)) as [n H]. destruct (bis_spec test n lo hi L H) as (d&lo'&R). exists n, d, lo'. exact R. Qed.

(** *** Boxes *)
Lemma same_box b b' : constructed b -> constructed b' -> (forall a, box_side b a = box_side b' a) -> b = b'.
Proof.
  intros (p&q&r&C) (p'&q'&r'&C') H. destruct (box_sides_given _ _ _ _ C) as (A1&A2&A3). destruct (box_sides_given _ _ _ _ C') as (B1&B2&B3).
  pose proof (H AX) as HX. pose proof (H AY) as HY. pose proof (H AZ) as HZ. rewrite A1, B1 in HX. rewrite A2, B2 in HY. rewrite A3, B3 in HZ. congruence.
Qed.
Lemma scaled_unique b g b1 b2 : scaled b g b1 -> scaled b g b2 -> b1 = b2.
Proof. intros [C1 S1] [C2 S2]. apply same_box; auto. intros a. rewrite S1, S2. reflexivity. Qed.
Definition factors_positive (g : vec) : Prop := forall a, 0 < vget g a.
Lemma scaled_exists b g : constructed b -> factors_positive g -> exists b', box_scale_sides g b = Some b' /\ scaled b g b' /\ forall a, box_height b' a = vget g a * box_height b a.
Proof.
  intros C P. destruct (scale_sides_props b g C (P AX) (P AY) (P AZ)) as (b'&E&CC&_&SD&H). exists b'. split; [exact E|]. split; [split; assumption|exact H].
Qed.
Lemma scaled_heights b g b' : constructed b -> factors_positive g -> scaled b g b' -> forall a, box_height b' a = vget g a * box_height b a.
Proof. intros C P S'. destruct (scaled_exists b g C P) as (b1&_&S1&H). rewrite (scaled_unique _ _ _ _ S' S1). exact H. Qed.
Lemma scaled_trans b g b1 g' b2 : scaled b g b1 -> scaled b1 g' b2 -> scaled b (vmake (fun a => vget g a * vget g' a)) b2.
Proof. intros [C1 S1] [C2 S2]. split; [exact C2|]. intros a. rewrite S2, S1, vget_vmake. unfold vscale. cbn. f_equal; ring. Qed.
Lemma scale_column_box b a f : box_of_matrix (scale_column (dims b) a f) = box_scale_sides (put (V3 1 1 1) a f) b.
Proof.
  unfold box_scale_sides, box_of_sides. f_equal. unfold scale_column, matrix_of_sides, box_side, relativeToAbsolute. destruct (dims b). destruct a; apply mat_ext; intros i j; destruct i, j; cbn; ring.
Qed.
Lemma get_put_same g a x : vget (put g a x) a = x.
Proof. destruct a; reflexivity. Qed.
Lemma get_put_other g a a' x : a' <> a -> vget (put g a x) a' = vget g a'.
Proof. destruct a, a'; intros H; try contradiction; reflexivity. Qed.
Lemma put_positive g a x : factors_positive g -> 0 < x -> factors_positive (put g a x).
Proof. intros P X a'. specialize (P a'). destruct a, a'; cbn in *; assumption. Qed.
Lemma put_vput v a x : vput v a x = put v a x.
Proof. destruct a, v; reflexivity. Qed.
Lemma put_put g a x y : put (put g a x) a y = put g a y.
Proof. destruct a; reflexivity. Qed.
Lemma one_positive : factors_positive (V3 1 1 1).
Proof. intros []; cbn; lra. Qed.
Lemma column_scaled b g b1 a f : constructed b -> factors_positive g -> scaled b g b1 -> vget g a = 1 -> 0 < f -> exists b2, box_of_matrix (scale_column (dims b1) a f) = Some b2 /\ scaled b (put g a f) b2 /\ dims b2 = scale_column (dims b1) a f.
Proof.
  intros C P S1 G F. rewrite scale_column_box. destruct (scaled_exists b1 (put (V3 1 1 1) a f) (proj1 S1) (put_positive _ _ _ one_positive F)) as (b2&E&S2&_). exists b2. split; [exact E|].
  assert (D : dims b2 = scale_column (dims b1) a f).
  { rewrite <- scale_column_box in E. unfold box_of_matrix in E. destruct (minverse _); [|discriminate]. injection E as <-. reflexivity. }
  split; [|exact D]. pose proof (scaled_trans _ _ _ _ _ S1 S2) as T. replace (put g a f) with (vmake (fun a0 => vget g a0 * vget (put (V3 1 1 1) a f) a0)); [exact T|].
  apply vec_ext; destruct a; cbn in *; rewrite ?G; ring.
Qed.
Lemma middle_columns m a x y : middle (scale_column m a x) (scale_column m a y) = scale_column m a ((x + y) / 2).
Proof. destruct m. destruct a; apply mat_ext; intros i j; destruct i, j; cbn; field. Qed.
Lemma scale_column_one m a : scale_column m a 1 = m.
Proof. destruct m. destruct a; apply mat_ext; intros i j; destruct i, j; cbn; ring. Qed.
Lemma scale_columns m a x y : scale_column (scale_column m a x) a y = scale_column m a (x * y).
Proof. destruct m. destruct a; apply mat_ext; intros i j; destruct i, j; cbn; ring. Qed.
Lemma absolute_stretched b b' shapes : generateAbsoluteShapes (map (fun s => Shape (absoluteToRelative b (sh_pos s)) (sh_rot s)) shapes) (dims b') = map (stretched b b') shapes.
Proof. unfold generateAbsoluteShapes. rewrite map_map. reflexivity. Qed.

Section Shrink.
Variables (hard : bool) (range : R) (overlaps : box -> list shape -> bool).
Hypothesis range_pos : 0 < range.
Variables (b : box) (shapes : list shape).
Hypothesis constructed_b : constructed b.
Let rel := map (fun s => Shape (absoluteToRelative b (sh_pos s)) (sh_rot s)) shapes.
Variables (g : vec) (b1 : box) (a : axis).
Hypothesis g_positive : factors_positive g.
Hypothesis b1_scaled : scaled b g b1.
Hypothesis a_one : vget g a = 1.
Let col f := scale_column (dims b1) a f.
Definition test_column (f : R) : bool := match box_of_matrix (scale_column (dims b1) a f) with Some b' => overlaps b' (map (stretched b b') shapes) | None => false end.
Lemma tested_column f : 0 < f -> overlaps_in overlaps (col f) (generateAbsoluteShapes rel (col f)) = Some (Value (test_column f)) /\ (test_column f = true <-> overlapping_at overlaps b shapes (put g a f)).
Proof.
  intros F. destruct (column_scaled b g b1 a f constructed_b g_positive b1_scaled a_one F) as (b2&E&S2&D). unfold overlaps_in, col, test_column. rewrite E. cbn [may_throw abind]. rewrite <- D. unfold rel. rewrite absolute_stretched. split; [reflexivity|].
  split; [intros O; exists b2; auto|]. intros (b'&S'&O). rewrite (scaled_unique _ _ _ _ S2 S'). exact O.
Qed.
Lemma shrink_loop_bis fuel : forall lo hi, 0 < lo < hi ->
  shrink_loop overlaps fuel rel lo hi (col lo) (col hi) (generateAbsoluteShapes rel (col hi)) =
  match bis fuel test_column lo hi with Some f => Some (Value (col f, generateAbsoluteShapes rel (col f))) | None => None end.
Proof.
  induction fuel as [|fuel IH]; intros lo hi L; [reflexivity|]. cbn [shrink_loop bis]. cbv zeta. replace (middle (col lo) (col hi)) with (col ((lo + hi) / 2)) by (symmetry; apply middle_columns).
  destruct (tested_column ((lo + hi) / 2) ltac:(lra)) as [-> _]. cbn [abind]. destruct (test_column ((lo + hi) / 2)).
  - destruct (Rltb EPSILON _); [apply IH; lra|reflexivity].
  - destruct (Rltb EPSILON _); [apply IH; lra|reflexivity].
Qed.
Lemma margin_pos : 0 < margin.
Proof. unfold margin. assert (0 < / 10 ^ 12) by (apply Rinv_0_lt_compat, pow_lt; lra). lra. Qed.
Lemma touching_of lo f lo' : 0 < lo -> lo <= lo' < f -> f <= 1 -> f - lo' <= EPSILON -> test_column lo = true -> (lo' = lo \/ test_column lo' = true) -> (f = 1 \/ test_column f = false) ->
  touching (fun x => overlapping_at overlaps b shapes (put g a x)) lo f.
Proof.
  intros P L LE W T0 T1 T2. split; [lra|]. split.
  - intros F O. apply (proj2 (tested_column f ltac:(lra))) in O. destruct T2; [lra|congruence].
  - exists lo'. split; [lra|]. split; [unfold accuracy; unfold EPSILON in W; lra|]. apply (proj2 (tested_column lo' ltac:(lra))). destruct T1 as [->|]; assumption.
Qed.
Lemma shrink_axis_spec : 0 < box_height b a -> least_factor range b a < 1 -> exists r, terminates_with (fun fuel => shrink_axis range overlaps fuel (box_height b) rel b1 a) r /\
  match r with
  | Value b2 => exists f, overlapping_at overlaps b shapes (put g a (least_factor range b a)) /\ touching (fun x => overlapping_at overlaps b shapes (put g a x)) (least_factor range b a) f /\
      ~ margin_overlap overlaps b shapes g a f /\ scaled b (put g a (f * margin)) b2
  | Violated => ~ overlapping_at overlaps b shapes (put g a (least_factor range b a)) \/
      exists f, touching (fun x => overlapping_at overlaps b shapes (put g a x)) (least_factor range b a) f /\ margin_overlap overlaps b shapes g a f
  end.
Proof.
  intros HP LF. pose proof margin_pos as MP. assert (LP : 0 < least_factor range b a) by (unfold least_factor; apply Rdiv_lt_0_compat; [apply Rmult_lt_0_compat|]; assumption).
  unfold shrink_axis. change (range * FACTOR_EPSILON / box_height b a) with (least_factor range b a). set (lo := least_factor range b a) in *. cbv zeta.
  destruct (tested_column lo LP) as [TE TI]. change (scale_column (dims b1) a lo) with (col lo). rewrite TE. cbn [abind].
  destruct (test_column lo) eqn:T0.
  2:{ exists Violated. split; [exists O; intros; reflexivity|]. left. intros O. apply TI in O. discriminate. }
  cbn [validate abind]. destruct (bisection test_column lo 1 LF) as (n&f&lo'&B&L&LE&W&T1&T2).
  pose proof (touching_of lo f lo' LP L LE W T0 T1 T2) as TG. assert (FP : 0 < f) by lra.
  assert (C1 : col 1 = dims b1) by (apply scale_column_one). rewrite <- C1.
  destruct (column_scaled b g b1 a f constructed_b g_positive b1_scaled a_one FP) as (bf&Ef&Sf&Df).
  destruct (column_scaled b g b1 a (f * margin) constructed_b g_positive b1_scaled a_one ltac:(apply Rmult_lt_0_compat; lra)) as (b2&E2&S2&D2).
  assert (V : forall fuel, (n < fuel)%nat -> (r <-! shrink_loop overlaps fuel rel lo 1 (col lo) (col 1) (generateAbsoluteShapes rel (col 1)) ;;
    (b' <-! may_throw (box_of_matrix (scale_column (fst r) a FACTOR_EPSILON)) ;; (_ <-! validate (negb (overlaps b' (snd r))) ;; Some (Value b')))) = Some (if overlaps b2 (map (stretched b bf) shapes) then Violated else Value b2)).
  { intros fuel F. rewrite (shrink_loop_bis fuel lo 1 ltac:(lra)), (B fuel F). cbn [abind fst snd]. unfold col at 1. rewrite scale_columns. change FACTOR_EPSILON with margin. rewrite E2. cbn [may_throw abind].
    unfold col. rewrite <- Df. unfold rel. rewrite absolute_stretched. destruct (overlaps b2 (map (stretched b bf) shapes)); reflexivity. }
  destruct (overlaps b2 (map (stretched b bf) shapes)) eqn:O.
  - exists Violated. split; [exists (S n); intros fuel F; apply V; lia|]. right. exists f. split; [exact TG|]. exists bf, b2. auto.
  - exists (Value b2). split; [exists (S n); intros fuel F; apply V; lia|]. exists f. split; [apply TI; reflexivity|]. split; [exact TG|]. split; [|exact S2].
    intros (x&y&X&Y&OO). rewrite (scaled_unique _ _ _ _ Sf X), (scaled_unique _ _ _ _ S2 Y) in O. congruence.
Qed.
End Shrink.
