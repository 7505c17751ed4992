From Coq Require Import Reals List Bool Lia Lra Psatz.
From Verif Require Import GeomModel GeomProofs PbcModel PbcSpec PackModel InterModel ShapesModel PackSpec WallShapesProofs DistModel DistSpec.
Import ListNotations.
Open Scope R_scope.

Section Search.
Variable ov : R -> bool.
Lemma upper_spec n : forall k, (n + k = 10)%nat -> (1 <= n)%nat -> exists r, (forall fuel, (n <= fuel)%nat -> find_upper fuel ov (2 ^ k) = Some r) /\
  match r with
  | Value d => exists j, (k <= j <= 9)%nat /\ d = 2 ^ j /\ ov d = false /\ forall i, (k <= i < j)%nat -> ov (2 ^ i) = true
  | Violated => forall i, (k <= i <= 9)%nat -> ov (2 ^ i) = true
  end.
Proof.
  induction n as [|n IH]; intros k E P; [lia|]. destruct (ov (2 ^ k)) eqn:O.
  - destruct (Nat.eq_dec n 0) as [Z|Z].
    + assert (k = 9)%nat as -> by lia. exists Violated. split.
      * intros [|fuel] F; [lia|]. cbn [find_upper]. rewrite O. cbv zeta. rewrite (proj2 (Rltb_false _ _)); [reflexivity|]. cbn. lra.
      * intros i I. assert (i = 9)%nat as -> by lia. exact O.
    + destruct (IH (S k)) as (r&H&R); [lia|lia|]. exists r. split.
      * intros [|fuel] F; [lia|]. cbn [find_upper]. rewrite O. cbv zeta. replace (2 ^ k * 2) with (2 ^ S k) by (cbn; ring).
        rewrite (proj2 (Rltb_true _ _)); [apply H; lia|]. assert (L : 2 ^ S k <= 2 ^ 9) by (apply Rle_pow; [lra|lia]). cbn in L |- *. lra.
      * destruct r as [d|].
        -- destruct R as (j&J&D&N&T). exists j. split; [lia|]. split; [exact D|]. split; [exact N|]. intros i I. destruct (Nat.eq_dec i k) as [->|]; [exact O|apply T; lia].
        -- intros i I. destruct (Nat.eq_dec i k) as [->|]; [exact O|apply R; lia].
  - exists (Value (2 ^ k)). split.
    + intros [|fuel] F; [lia|]. cbn [find_upper]. rewrite O. reflexivity.
    + exists k. split; [lia|]. split; [reflexivity|]. split; [exact O|]. intros i I. lia.
Qed.
Lemma bisect_spec n : forall lo hi, 0 <= lo < hi -> hi - lo <= EPSILON * 2 ^ n -> ov lo = true -> ov hi = false ->
  exists d lo', (forall fuel, (n < fuel)%nat -> bisect fuel ov lo hi = Some d) /\ lo <= lo' < d /\ d <= hi /\ ov lo' = true /\ ov d = false /\ d - lo' <= EPSILON.
Proof.
  assert (EP : 0 < EPSILON) by (unfold EPSILON; apply Rinv_0_lt_compat, pow_lt; lra).
  induction n as [|n IH]; intros lo hi L W O1 O2.
  - set (mid := (hi + lo) / 2). assert (M : lo < mid < hi) by (unfold mid; lra).
    assert (W' : hi - mid <= EPSILON /\ mid - lo <= EPSILON) by (unfold mid; cbn in W; lra).
    destruct (ov mid) eqn:O.
    + exists hi, mid. split; [|repeat split; auto; lra]. intros [|fuel] F; [lia|]. cbn [bisect]. cbv zeta. fold mid. rewrite O. rewrite (proj2 (Rltb_false _ _)); [reflexivity|lra].
    + exists mid, lo. split; [|repeat split; auto; lra]. intros [|fuel] F; [lia|]. cbn [bisect]. cbv zeta. fold mid. rewrite O. rewrite (proj2 (Rltb_false _ _)); [reflexivity|lra].
  - set (mid := (hi + lo) / 2). assert (M : lo < mid < hi) by (unfold mid; lra).
    assert (W' : hi - mid <= EPSILON * 2 ^ n /\ mid - lo <= EPSILON * 2 ^ n) by (unfold mid; cbn in W; lra).
    destruct (ov mid) eqn:O.
    + destruct (Rltb EPSILON (hi - mid)) eqn:T.
      * destruct (IH mid hi) as (d&lo'&H&R); [lra|lra|auto|auto|]. exists d, lo'. split; [|repeat split; try apply R; lra]. intros [|fuel] F; [lia|]. cbn [bisect]. cbv zeta. fold mid. rewrite O, T. apply H. lia.
      * exists hi, mid. split; [|apply Rltb_false in T; repeat split; auto; lra]. intros [|fuel] F; [lia|]. cbn [bisect]. cbv zeta. fold mid. rewrite O, T. reflexivity.
    + destruct (Rltb EPSILON (mid - lo)) eqn:T.
      * destruct (IH lo mid) as (d&lo'&H&R); [lra|lra|auto|auto|]. exists d, lo'. split; [|repeat split; try apply R; lra]. intros [|fuel] F; [lia|]. cbn [bisect]. cbv zeta. fold mid. rewrite O, T. apply H. lia.
      * exists mid, lo. split; [|apply Rltb_false in T; repeat split; auto; lra]. intros [|fuel] F; [lia|]. cbn [bisect]. cbv zeta. fold mid. rewrite O, T. reflexivity.
Qed.
End Search.

Section Minimize.
Variables (w : winter) (s1 s2 : shape) (direction : vec).
Let dir := vscale (/ vnorm direction) direction.
Lemma at_touch d : overlap_at w s1 s2 dir d = true <-> touch w s1 s2 direction d.
Proof. unfold overlap_at, touch, dir. replace (vscale d (vscale (/ vnorm direction) direction)) with (vscale (d / vnorm direction) direction) by (apply vec_ext; cbn; unfold Rdiv; ring). tauto. Qed.
Lemma not_touch d : overlap_at w s1 s2 dir d = false <-> ~ touch w s1 s2 direction d.
Proof. rewrite <- at_touch. destruct (overlap_at w s1 s2 dir d); split; intros; congruence. Qed.
Lemma start_touch : overlapBetweenShapes w (Shape vzero (sh_rot s1)) (Shape vzero (sh_rot s2)) free = overlap_at w s1 s2 dir 0.
Proof. unfold overlap_at. replace (vscale 0 dir) with vzero by (apply vec_ext; cbn; ring). reflexivity. Qed.
Theorem minimize_spec : exists r, terminates_with (fun fuel => minimizeForDirection fuel w s1 s2 direction) r /\
  match r with Value d => ~ refused w s1 s2 direction /\ tangent w s1 s2 direction d | Violated => refused w s1 s2 direction end.
Proof.
  destruct (Rltb EPSILON (vnorm2 direction)) eqn:E1.
  2: { exists Violated. split; [exists 0%nat; intros fuel _; unfold minimizeForDirection; rewrite E1; reflexivity|]. left. apply Rltb_false in E1. exact E1. }
  destruct (in_hard (wi w)) eqn:E2.
  2: { exists Violated. split; [exists 0%nat; intros fuel _; unfold minimizeForDirection; rewrite E1, E2; reflexivity|]. right; left. exact E2. }
  destruct (overlap_at w s1 s2 dir 0) eqn:E3.
  2: { exists Violated. split; [exists 0%nat; intros fuel _; unfold minimizeForDirection; rewrite E1, E2, start_touch, E3; reflexivity|]. right; right; left. apply not_touch, E3. }
  destruct (upper_spec (overlap_at w s1 s2 dir) 10 0) as (r&H&S); [reflexivity|lia|]. cbn [pow] in H. destruct r as [d|].
  - destruct S as (j&J&->&N&T).
    assert (P : 1 <= 2 ^ j) by (apply pow_R1_Rle; lra). assert (Q : 2 ^ j <= 2 ^ 9) by (apply Rle_pow; [lra|lia]). cbn in Q.
    destruct (bisect_spec (overlap_at w s1 s2 dir) 49 0 (2 ^ j)) as (d&lo&B&L1&L2&O1&O2&W); [lra| |exact E3|exact N|].
    { rewrite Rminus_0_r. unfold EPSILON. apply Rle_trans with 512; [lra|]. apply Rmult_le_reg_l with (10 ^ 12); [apply pow_lt; lra|]. rewrite <- Rmult_assoc, Rinv_r by (apply pow_nonzero; lra). rewrite Rmult_1_l. lra. }
    exists (Value d). split.
    + exists 50%nat. intros fuel F. unfold minimizeForDirection. rewrite E1, E2, start_touch, E3. cbv zeta. cbn [negb]. fold dir. rewrite (H fuel) by lia. cbn [obind]. rewrite (B fuel) by lia. reflexivity.
    + split.
      * intros [X|[X|[X|X]]].
        -- apply Rltb_true in E1. change EPSILON with precision in E1. lra.
        -- congruence.
        -- apply X, at_touch, E3.
        -- specialize (X j ltac:(lia)). apply at_touch in X. congruence.
      * split; [lra|]. split; [apply not_touch, O2|]. exists lo. split; [lra|]. split; [change EPSILON with precision in W; lra|]. apply at_touch, O1.
  - exists Violated. split.
    + exists 10%nat. intros fuel F. unfold minimizeForDirection. rewrite E1, E2, start_touch, E3. cbv zeta. cbn [negb]. fold dir. rewrite (H fuel) by lia. reflexivity.
    + right; right; right. intros k K. apply at_touch, S. lia.
Qed.
Lemma monotone_tangent d : monotone w s1 s2 direction -> tangent w s1 s2 direction d ->
  forall x, 0 <= x -> (d <= x -> ~ touch w s1 s2 direction x) /\ (x <= d - precision -> touch w s1 s2 direction x).
Proof.
  intros M (P&N&d'&D&W&T) x X. split.
  - intros L Y. apply N. apply (M x d); [lra|exact Y].
  - intros L. apply (M d' x); [lra|exact T].
Qed.
End Minimize.

Lemma obind_terminates {A B} (f : nat -> option A) (g : A -> nat -> option B) a b : terminates_with f a -> terminates_with (g a) b -> terminates_with (fun n => obind (f n) (fun x => g x n)) b.
Proof. intros (n&H) (m&H'). exists (n + m)%nat. intros fuel F. rewrite H by lia. cbn. apply H'. lia. Qed.
Lemma axes_spec w s1 s2 : exists r, terminates_with (fun fuel => minimizeForAxes fuel w s1 s2) r /\
  match r with
  | Value (x, y, z) => tangent w s1 s2 (V3 1 0 0) x /\ tangent w s1 s2 (V3 0 1 0) y /\ tangent w s1 s2 (V3 0 0 1) z
  | Violated => refused w s1 s2 (V3 1 0 0) \/ refused w s1 s2 (V3 0 1 0) \/ refused w s1 s2 (V3 0 0 1)
  end.
Proof.
  destruct (minimize_spec w s1 s2 (V3 1 0 0)) as (x&X&X'), (minimize_spec w s1 s2 (V3 0 1 0)) as (y&Y&Y'), (minimize_spec w s1 s2 (V3 0 0 1)) as (z&Z&Z').
  exists (match x, y, z with Value x, Value y, Value z => Value (x, y, z) | _, _, _ => Violated end). split.
  - unfold minimizeForAxes. apply (obind_terminates _ _ x _ X). apply (obind_terminates _ _ y _ Y). apply (obind_terminates _ (fun z _ => Some _) z _ Z). exists 0%nat. reflexivity.
  - destruct x as [x|], y as [y|], z as [z|]; tauto.
Qed.

(** Spheres *)
Lemma sphere_touch r i c s1 s2 direction d : sphere r = Some i -> 0 < vnorm2 direction -> 0 <= d -> touch (WInter i c) s1 s2 direction d <-> d < 2 * r.
Proof.
  intros E N D. destruct (sphere_made r i E) as (R&->). unfold touch. cbn [overlapBetweenShapes wi in_centres in_overlap sh_pos sh_rot]. unfold sphere_overlap. cbn [free bc_distance2].
  assert (NP : 0 < vnorm direction) by (unfold vnorm; apply sqrt_lt_R0, N).
  replace (vnorm2 (vsub (vscale (d / vnorm direction) direction) vzero)) with (d * d).
  2: { transitivity ((d / vnorm direction) * (d / vnorm direction) * vnorm2 direction); [|unfold vnorm2, vdot, vsub, vscale, vzero; cbn; ring]. rewrite <- (vnorm_sqr direction) at 1. field. lra. }
  rewrite Rltb_true. split; intros H; nra.
Qed.
Lemma sphere_monotone r i c s1 s2 direction : sphere r = Some i -> 0 < vnorm2 direction -> monotone (WInter i c) s1 s2 direction.
Proof. intros E N d d' D. rewrite !(sphere_touch r i) by (auto; lra). lra. Qed.
Lemma sphere_tangent r i c s1 s2 direction d : sphere r = Some i -> 0 < vnorm2 direction -> tangent (WInter i c) s1 s2 direction d -> 2 * r <= d <= 2 * r + precision.
Proof.
  intros E N (P&T&d'&D&W&T'). rewrite (sphere_touch r i) in T, T' by (auto; lra). lra.
Qed.
Lemma terminates_unique {A} (f : nat -> option A) a b : terminates_with f a -> terminates_with f b -> a = b.
Proof. intros (n&H) (m&H'). specialize (H (n + m)%nat ltac:(lia)). specialize (H' (n + m)%nat ltac:(lia)). congruence. Qed.
Lemma minimize_monotone w s1 s2 direction d : monotone w s1 s2 direction ->
  terminates_with (fun fuel => minimizeForDirection fuel w s1 s2 direction) (Value d) ->
  forall x, 0 <= x -> (d <= x -> ~ touch w s1 s2 direction x) /\ (x <= d - precision -> touch w s1 s2 direction x).
Proof.
  intros M T. destruct (minimize_spec w s1 s2 direction) as (r&T'&S). pose proof (terminates_unique _ _ _ T T') as <-. apply monotone_tangent; tauto.
Qed.
Lemma precision_small : 0 < precision < 1.
Proof. unfold precision. split; [apply Rinv_0_lt_compat, pow_lt; lra|]. apply Rmult_lt_reg_l with (10 ^ 12); [apply pow_lt; lra|]. rewrite Rinv_r by (apply pow_nonzero; lra). lra. Qed.
Lemma sphere_distance r i c s1 s2 direction : sphere r = Some i -> precision < vnorm2 direction -> 2 * r <= 512 -> exists d,
  terminates_with (fun fuel => minimizeForDirection fuel (WInter i c) s1 s2 direction) (Value d) /\ 2 * r <= d <= 2 * r + precision.
Proof.
  intros E N L. pose proof precision_small as PS. destruct (minimize_spec (WInter i c) s1 s2 direction) as (a&T&S). destruct a as [d|].
  - exists d. split; [exact T|]. destruct S as (_&S). apply (sphere_tangent r i c s1 s2 direction d E); [lra|exact S].
  - exfalso. destruct S as [X|[X|[X|X]]].
    + lra.
    + destruct (sphere_made r i E) as (_&->). cbn in X. discriminate.
    + apply X, (sphere_touch r i); auto; try lra. destruct (sphere_made r i E). lra.
    + specialize (X 9%nat ltac:(lia)). apply (sphere_touch r i) in X; auto; cbn [pow] in *; lra.
Qed.
