From Coq Require Import Reals ZArith List Bool Arith Lia Lra Psatz Permutation.
From Verif Require Import TextModel GeomModel GeomProofs SegSpec ShapesModel XcSpec VolSpec BananaSpec.
Import ListNotations.
Open Scope R_scope.

(** *** Balls with centres on a circle *)
Definition along (x z angle : R) : R := - x * cos angle + z * sin angle.
Lemma along_between x z a b c k : a <= b <= c -> c - a < PI -> 0 <= k -> k <= along x z a -> k <= along x z c -> k <= along x z b.
Proof.
  intros (H1&H2) L K A C. destruct (Req_dec a c) as [E|NE]; [replace b with a by lra; exact A|].
  assert (S0 : 0 < sin (c - a)) by (apply sin_gt_0; lra).
  assert (E : sin (c - a) * along x z b = sin (c - b) * along x z a + sin (b - a) * along x z c).
  { unfold along. rewrite !sin_minus. generalize (sin2_cos2 b). unfold Rsqr. generalize (sin a) (cos a) (sin b) (cos b) (sin c) (cos c). intros. nra. }
  assert (S1 : 0 <= sin (c - b)) by (apply sin_ge_0; lra). assert (S2 : 0 <= sin (b - a)) by (apply sin_ge_0; lra).
  assert (T : sin (c - a) <= sin (c - b) + sin (b - a)).
  { replace (c - a) with ((c - b) + (b - a)) by ring. rewrite sin_plus. pose proof (COS_bound (c - b)). pose proof (COS_bound (b - a)). nra. }
  apply Rmult_le_reg_l with (sin (c - a)); [exact S0|]. rewrite E. apply Rle_trans with ((sin (c - b) + sin (b - a)) * k); [nra|]. nra.
Qed.
Lemma along_turn x z a : along x z (a + 2 * PI) = along x z a. Proof. unfold along. rewrite sin_plus, cos_plus, sin_2PI, cos_2PI. ring. Qed.
Lemma along_opposite x z a : along x z (a + PI) = - along x z a. Proof. unfold along. rewrite neg_cos, neg_sin. ring. Qed.
Definition level (radius r : R) (d : vec) : R := (vnorm2 d + radius ^ 2 - r ^ 2) / (2 * radius).
Lemma ball_along radius r c angle y : 0 < radius -> 0 < r ->
  in_ball (on_arc radius c angle) r y <-> level radius r (vsub y c) <= along (vx (vsub y c)) (vz (vsub y c)) angle.
Proof.
  intros P Q. unfold in_ball, level. set (d := vsub y c).
  assert (E : vnorm2 (vsub y (on_arc radius c angle)) = vnorm2 d + radius ^ 2 - 2 * radius * along (vx d) (vz d) angle).
  { unfold d, along, vnorm2, vdot, on_arc. cbn [vsub vadd vx vy vz]. generalize (sin2_cos2 angle). unfold Rsqr. generalize (sin angle) (cos angle). intros s k T. replace (radius ^ 2) with (radius ^ 2 * (s * s + k * k)) by (rewrite T; ring). ring. }
  split; intros H.
  - assert (vnorm2 (vsub y (on_arc radius c angle)) <= r ^ 2). { unfold vnorm in H. apply sqrt_le_0; [apply vnorm2_nonneg|apply pow2_ge_0|]. rewrite sqrt_pow2 by lra. exact H. }
    apply Rmult_le_reg_l with (2 * radius); [lra|]. replace (2 * radius * ((vnorm2 d + radius ^ 2 - r ^ 2) / (2 * radius))) with (vnorm2 d + radius ^ 2 - r ^ 2) by (field; lra). lra.
  - apply Rmult_le_compat_l with (r := 2 * radius) in H; [|lra]. replace (2 * radius * ((vnorm2 d + radius ^ 2 - r ^ 2) / (2 * radius))) with (vnorm2 d + radius ^ 2 - r ^ 2) in H by (field; lra).
    unfold vnorm. rewrite <- (sqrt_pow2 r) by lra. apply sqrt_le_1_alt. lra.
Qed.
Lemma level_pos radius r d : 0 < r <= radius -> d <> vzero -> 0 < level radius r d.
Proof.
  intros P N. unfold level. assert (0 < vnorm2 d). { destruct (vnorm2_nonneg d) as [H|H]; [exact H|]. exfalso. apply N. symmetry in H. unfold vnorm2, vdot in H. apply vec_ext; cbn; nra. }
  apply Rdiv_lt_0_compat; [nra|lra].
Qed.

(** *** Runs of consecutive indices *)
Fixpoint tally (p : nat -> bool) (n : nat) : nat := match n with O => O | S n' => (tally p n' + if p n' then 1 else 0)%nat end.
Definition both (p : nat -> bool) (i : nat) : bool := p i && p (S i).
Lemma tally_zero p n : (forall i, (i < n)%nat -> p i = false) -> tally p n = 0%nat.
Proof. induction n as [|n IH]; intros H; [reflexivity|]. cbn. rewrite (H n) by lia. rewrite IH; [reflexivity|]. intros i L. apply H. lia. Qed.
Lemma runs_step p n : (tally p (S (S n)) + tally (both p) n)%nat = (tally p (S n) + tally (both p) (S n) + if p (S n) && negb (p n) then 1 else 0)%nat.
Proof. cbn. unfold both. destruct (p n), (p (S n)); cbn; lia. Qed.
(** One run *)
Lemma one_run p n : (forall i j k, (i < j < k)%nat -> (k < S n)%nat -> p i = true -> p k = true -> p j = true) -> (exists i, (i < S n)%nat /\ p i = true) -> tally p (S n) = (tally (both p) n + 1)%nat.
Proof.
  induction n as [|n IH]; intros C (i&L&T).
  - cbn. replace i with 0%nat in T by lia. rewrite T. reflexivity.
  - pose proof (runs_step p n) as R. destruct (existsb p (seq 0 (S n))) eqn:X.
    + apply existsb_exists in X. destruct X as (j&J&TJ). apply in_seq in J. rewrite IH in R; [|intros; eapply C; eauto; lia|exists j; split; [lia|exact TJ]].
      assert (p (S n) && negb (p n) = false). { destruct (p (S n)) eqn:PS; [|reflexivity]. cbn. destruct (Nat.eq_dec j n) as [->|N]; [rewrite TJ; reflexivity|]. rewrite (C j n (S n)) by (try lia; assumption). reflexivity. }
      rewrite H in R. lia.
    + assert (F : forall j, (j < S n)%nat -> p j = false). { intros j J. destruct (p j) eqn:E; [|reflexivity]. assert (existsb p (seq 0 (S n)) = true) by (apply existsb_exists; exists j; split; [apply in_seq; lia|exact E]). congruence. }
      rewrite (tally_zero p (S n) F) in R. assert (i = S n) as -> by (destruct (Nat.eq_dec i (S n)); [assumption|rewrite F in T by lia; discriminate]). rewrite T, (F n) in R by lia. cbn [andb negb] in R.
      assert (Z : tally (both p) n = 0%nat) by (apply tally_zero; intros j J; unfold both; rewrite F by lia; reflexivity).
      assert (Z' : tally (both p) (S n) = 0%nat) by (apply tally_zero; intros j J; unfold both; rewrite (F j) by lia; reflexivity). lia.
Qed.
(** Two runs, at both ends *)
Lemma two_runs p n : (forall i j k, (i < j < k)%nat -> (k < S n)%nat -> p i = false -> p k = false -> p j = false) -> p 0%nat = true -> p n = true -> (exists i, (i < S n)%nat /\ p i = false) ->
  tally p (S n) = (tally (both p) n + 2)%nat.
Proof.
  intros C P0 PN (f&F&PF).
  assert (G : forall m, (m <= n)%nat -> (((exists i, (i < m)%nat /\ p i = false) /\ p m = true) -> tally p (S m) = (tally (both p) m + 2)%nat) /\ ((~ exists i, (i < m)%nat /\ p i = false) \/ p m = false -> tally p (S m) = (tally (both p) m + 1)%nat)).
  { induction m as [|m IH]; intros M.
    - split; [intros ((i&L&_)&_); lia|]. intros _. cbn. rewrite P0. reflexivity.
    - destruct (IH ltac:(lia)) as (I2&I1). pose proof (runs_step p m) as R. split.
      + intros ((i&L&E)&T). destruct (p m) eqn:PM.
        * rewrite I2 in R; [rewrite T in R; cbn [andb negb] in R; lia|]. split; [|reflexivity]. exists i. split; [|exact E]. destruct (Nat.eq_dec i m); [congruence|lia].
        * rewrite I1 in R by (right; reflexivity). rewrite T in R. cbn [andb negb] in R. lia.
      + intros [N|E].
        * assert (PM : p m = true) by (destruct (p m) eqn:PM; [reflexivity|exfalso; apply N; exists m; split; [lia|exact PM]]). rewrite I1 in R; [rewrite PM in R; rewrite andb_false_r in R; lia|]. left. intros (i&L&E). apply N. exists i. split; [lia|exact E].
        * rewrite E in R. cbn [andb] in R. rewrite I1 in R; [lia|]. destruct (p m) eqn:PM; [|right; reflexivity]. left. intros (i&L&EI). assert (p m = false) by (apply (C i m (S m)); (lia || assumption)). congruence. }
  apply (proj1 (G n ltac:(lia))). split; [|exact PN]. exists f. split; [|exact PF]. destruct (Nat.eq_dec f n); [congruence|lia].
Qed.
Lemma number_tally (P : nat -> Prop) p n k : (forall i, (i < n)%nat -> (p i = true <-> P i)) -> number_of P n k -> k = tally p n.
Proof.
  intros H (l&ND&I&<-). assert (Q : forall n, tally p n = List.length (filter p (seq 0 n))).
  { clear. induction n as [|n IH]; [reflexivity|]. rewrite seq_S, filter_app, app_length. cbn. rewrite IH. destruct (p n); reflexivity. }
  rewrite Q. apply Permutation_length, NoDup_Permutation; [exact ND|apply NoDup_filter, seq_NoDup|]. intros i. rewrite I, filter_In, in_seq. specialize (H i). intuition lia.
Qed.

(** *** Spheres on the arc *)
Section Arc.
Variables (radius arcAngle r : R) (c : vec) (n : nat) (y : vec).
Hypothesis R0 : 0 < radius. Hypothesis A0 : 0 < arcAngle < 2 * PI. Hypothesis r0 : 0 < r <= radius. Hypothesis n0 : (1 <= n)%nat. Hypothesis Y : y <> c.
Let ang (i : nat) : R := - arcAngle / 2 + INR i / INR n * arcAngle.
Let k := level radius r (vsub y c).
Let f := along (vx (vsub y c)) (vz (vsub y c)).
Let p (i : nat) : bool := if Rle_dec k (f (ang i)) then true else false.
Lemma arc_p i : p i = true <-> k <= f (ang i). Proof. unfold p. destruct (Rle_dec k (f (ang i))); split; intros; congruence || auto. Qed.
Lemma arc_pn i : p i = false <-> ~ k <= f (ang i). Proof. unfold p. destruct (Rle_dec k (f (ang i))); split; intros; congruence || auto. Qed.
Lemma arc_level : 0 < k. Proof. apply level_pos; [lra|]. intros E. apply Y. apply (f_equal vx) in E as EX. apply (f_equal vy) in E as EY. apply (f_equal vz) in E. cbn in EX, EY, E. destruct y, c. cbn in *. f_equal; lra. Qed.
Lemma arc_n : 1 <= INR n. Proof. apply (le_INR 1). exact n0. Qed.
Lemma arc_mono i j : (i <= j)%nat -> ang i <= ang j.
Proof. intros H. unfold ang. apply le_INR in H. pose proof arc_n. apply Rplus_le_compat_l, Rmult_le_compat_r; [lra|]. unfold Rdiv. apply Rmult_le_compat_r; [left; apply Rinv_0_lt_compat; lra|exact H]. Qed.
Lemma arc_zero : ang 0 = - arcAngle / 2. Proof. unfold ang. cbn [INR]. pose proof arc_n. field. lra. Qed.
Lemma arc_end : ang n = arcAngle / 2. Proof. unfold ang. pose proof arc_n. field. lra. Qed.
Lemma arc_range i : (i <= n)%nat -> - arcAngle / 2 <= ang i <= arcAngle / 2. Proof. intros H. rewrite <- arc_zero, <- arc_end. split; apply arc_mono; lia. Qed.
Lemma arc_between i j m : (i <= j <= m)%nat -> ang m - ang i <= PI -> p i = true -> p m = true -> p j = true.
Proof.
  intros L D P M. apply arc_p in P, M. apply arc_p. pose proof arc_level. destruct (Req_dec (ang m - ang i) PI) as [E|NE].
  - exfalso. replace (ang m) with (ang i + PI) in M by lra. unfold f in *. rewrite along_opposite in M. lra.
  - apply (along_between _ _ (ang i) _ (ang m)); [split; apply arc_mono; lia|lra|lra|exact P|exact M].
Qed.
(** All points outside *)
Lemma arc_outside i m j : (i <= m <= n)%nat -> PI <= ang m - ang i -> p i = true -> p m = true -> (j <= i)%nat \/ (m <= j <= n)%nat -> p j = true.
Proof.
  intros L D P M J. apply arc_p in P, M. apply arc_p. pose proof arc_level as K. assert (D' : PI < ang m - ang i). { destruct D as [D|D]; [exact D|]. exfalso. replace (ang m) with (ang i + PI) in M by lra. unfold f in *. rewrite along_opposite in M. lra. }
  pose proof (arc_range i ltac:(lia)). pose proof (arc_range m ltac:(lia)). destruct J as [J|J].
  - pose proof (arc_range j ltac:(lia)). pose proof (arc_mono j i J). unfold f. rewrite <- along_turn. apply (along_between _ _ (ang m) _ (ang i + 2 * PI)); [lra|lra|lra|exact M|]. rewrite along_turn. exact P.
  - pose proof (arc_range j ltac:(lia)). pose proof (arc_mono m j ltac:(lia)). unfold f. apply (along_between _ _ (ang m) _ (ang i + 2 * PI)); [lra|lra|lra|exact M|]. rewrite along_turn. exact P.
Qed.
Lemma arc_runs : (exists i, (i <= n)%nat /\ p i = true) ->
  tally p (S n) = (tally (both p) n + 1 + if Rlt_dec PI arcAngle then if Nat.ltb 1 n then if p 0%nat && p n then 1 else 0 else 0 else 0)%nat.
Proof.
  intros (i&I&PI0). destruct (Rlt_dec PI arcAngle) as [LA|LA]; [destruct (Nat.ltb 1 n) eqn:N2; [apply Nat.ltb_lt in N2; destruct (p 0%nat && p n) eqn:B|]|]; rewrite ?Nat.add_0_r.
  - apply andb_prop in B. destruct B as (B0&Bn). rewrite (two_runs p n); [lia| |exact B0|exact Bn|].
    + intros a b d L D FA FD. destruct (p b) eqn:PB; [|reflexivity]. exfalso.
      destruct (Rle_dec (ang b - ang 0) PI) as [H|H]; [assert (p a = true) by (apply (arc_between 0 a b); (lia || assumption)); congruence|].
      destruct (Rle_dec (ang n - ang b) PI) as [H'|H']; [assert (p d = true) by (apply (arc_between b d n); (lia || assumption)); congruence|]. rewrite arc_zero in H. rewrite arc_end in H'. lra.
    + (* not all spheres *)
      destruct (forallb p (seq 0 (S n))) eqn:ALL.
      2: { assert (X : exists j, In j (seq 0 (S n)) /\ p j = false). { revert ALL. generalize (seq 0 (S n)). intros l. induction l as [|a l IH]; [discriminate|]. cbn. intros H. destruct (p a) eqn:PA; [|exists a; auto]. destruct (IH H) as (j&J&E). exists j. auto. }
           destruct X as (j&J&E). apply in_seq in J. exists j. split; [lia|exact E]. }
      exfalso. rewrite forallb_forall in ALL. assert (AP : forall j, (j <= n)%nat -> k <= f (ang j)) by (intros j J; apply arc_p, ALL, in_seq; lia).
      assert (ST : exists j, (j < n)%nat /\ ang j <= ang 0 + PI <= ang (S j)).
      { assert (G : forall m, (m <= n)%nat -> ang 0 + PI <= ang m -> exists j, (j < n)%nat /\ ang j <= ang 0 + PI <= ang (S j)).
        { induction m as [|m IH]; intros M H; [pose proof PI_RGT_0; lra|]. destruct (Rle_dec (ang 0 + PI) (ang m)) as [Q|Q]; [apply IH; [lia|exact Q]|]. exists m. split; [lia|lra]. }
        apply (G n); [lia|]. rewrite arc_zero, arc_end. lra. }
      destruct ST as (j&J&S1&S2). pose proof arc_level as K. assert (k <= f (ang 0 + PI)).
      { apply (along_between _ _ (ang j) _ (ang (S j))); [lra| |lra|apply AP; lia|apply AP; lia]. unfold ang. rewrite S_INR. assert (2 <= INR n) by (apply (le_INR 2); lia). replace (_ - _) with (arcAngle / INR n) by (field; lra). apply Rmult_lt_reg_r with (INR n); [lra|]. unfold Rdiv. rewrite Rmult_assoc, Rinv_l by lra. pose proof PI_RGT_0. nra. }
      unfold f in H. rewrite along_opposite in H. specialize (AP 0%nat ltac:(lia)). unfold f in AP. lra.
  - apply one_run; [|exists i; split; [lia|exact PI0]]. intros a b d L D PA PD. destruct (Rle_dec (ang d - ang a) PI) as [H|H]; [apply (arc_between a b d); (lia || assumption)|].
    assert (p 0%nat = true) by (apply (arc_outside a d); (lia || lra || assumption)). assert (p n = true) by (apply (arc_outside a d); (lia || lra || assumption)). rewrite H0, H1 in B. discriminate.
  - apply one_run; [|exists i; split; [lia|exact PI0]]. intros a b d L D. apply Nat.ltb_ge in N2. lia.
  - apply one_run; [|exists i; split; [lia|exact PI0]]. intros a b d L D PA PD. apply (arc_between a b d); try (lia || assumption). pose proof (arc_range a ltac:(lia)). pose proof (arc_range d ltac:(lia)). lra.
Qed.
Lemma arc_ball i : in_ball (division radius arcAngle c n i) r y <-> p i = true. Proof. unfold division. rewrite ball_along by lra. symmetry. apply arc_p. Qed.
End Arc.
