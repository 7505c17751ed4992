From Coq Require Import Reals List Bool Lra Lia Psatz.
From Verif Require Import GeomModel GeomProofs BoxModel PbcModel PackModel PackSpec DomSpec InterModel InterSpec InterProofs.
Import ListNotations.
Open Scope R_scope.

Lemma lj_at e s r : r <> 0 -> lj_energy e s (r * r) = lj_formula e s r.
Proof. intros N. unfold lj_energy, lj_formula. cbn zeta. field. exact N. Qed.
Lemma pow_strict x y n : 0 <= x < y -> (0 < n)%nat -> x ^ n < y ^ n.
Proof.
  intros [H0 H] Hn. destruct n as [|n]; [lia|]. clear Hn. induction n as [|n IH]; [simpl; lra|]. change (x ^ S (S n)) with (x * x ^ S n). change (y ^ S (S n)) with (y * y ^ S n). apply Rle_lt_trans with (x * y ^ S n); [apply Rmult_le_compat_l; lra|]. apply Rmult_lt_compat_r; [apply pow_lt; lra|lra].
Qed.
Lemma cut_six s : 0 < s -> 0 < rlj_range s /\ rlj_range s ^ 6 = 2 * s ^ 6.
Proof.
  intros H. unfold rlj_range. assert (P : 0 < Rpower 2 (1 / 6)) by apply exp_pos. split; [apply Rmult_lt_0_compat; auto|]. rewrite Rpow_mult_distr. rewrite <- (Rpower_pow 6 (Rpower 2 (1 / 6)) P), Rpower_mult. replace (1 / 6 * INR 6) with 1 by (simpl; lra). rewrite Rpower_1 by lra. ring.
Qed.
Lemma six_cut s r : 0 < s -> 0 < r -> (rlj_range s <= r <-> (s / r) ^ 6 <= / 2).
Proof.
  intros Hs Hr. destruct (cut_six s Hs) as [Hc Ec]. assert (Q : (s / r) ^ 6 = s ^ 6 / r ^ 6) by (field; lra). assert (P : 0 < r ^ 6) by (apply pow_lt; exact Hr). rewrite Q. split.
  - intros L. pose proof (pow_incr (rlj_range s) r 6 ltac:(lra)) as X. rewrite Ec in X. apply (Rmult_le_reg_r (r ^ 6)); [exact P|]. unfold Rdiv. rewrite Rmult_assoc, Rinv_l by lra. lra.
  - intros L. destruct (Rle_dec (rlj_range s) r) as [X|X]; [exact X|]. exfalso. pose proof (pow_strict r (rlj_range s) 6 ltac:(lra) ltac:(lia)) as Y. rewrite Ec in Y. apply (Rmult_le_compat_r (r ^ 6)) in L; [|lra]. unfold Rdiv in L. rewrite Rmult_assoc, Rinv_l in L by lra. lra.
Qed.
Lemma square_le a b : 0 < a -> 0 < b -> (a * a <= b * b <-> a <= b). Proof. intros. split; intros; nra. Qed.
(** The repulsive part is 4 epsilon (x - 1/2)^2 as long as x = (sigma / r)^6 exceeds 1/2. *)
Lemma rlj_square e s r : 0 < s -> 0 < r -> rlj_energy e s (r * r) = 4 * e * (Rmax 0 ((s / r) ^ 6 - / 2)) ^ 2.
Proof.
  intros Hs Hr. destruct (cut_six s Hs) as [Hc _]. unfold rlj_energy. cbn zeta. pose proof (six_cut s r Hs Hr) as C. unfold Rleb. destruct (Rle_dec _ _) as [L|L].
  - apply (proj1 (square_le _ _ Hc Hr)) in L. apply C in L. rewrite Rmax_left by lra. lra.
  - assert (~ rlj_range s <= r) by (intros X; apply L; apply (square_le _ _ Hc Hr); exact X). assert (/ 2 < (s / r) ^ 6) by (apply Rnot_le_lt; intros X; apply C in X; contradiction). rewrite Rmax_right by lra. field. lra.
Qed.
Theorem rlj_zero e s r : 0 < s -> rlj_range s <= r -> rlj_energy e s (r * r) = 0.
Proof. intros Hs L. destruct (cut_six s Hs) as [Hc _]. unfold rlj_energy. cbn zeta. unfold Rleb. destruct (Rle_dec _ _) as [X|X]; [reflexivity|]. exfalso. apply X. apply square_le; [exact Hc|lra|exact L]. Qed.
Theorem rlj_inside e s r : 0 < e -> 0 < s -> 0 < r < rlj_range s -> rlj_energy e s (r * r) = lj_formula e s r + e /\ 0 < rlj_energy e s (r * r).
Proof.
  intros He Hs [Hr L]. assert (X : / 2 < (s / r) ^ 6) by (apply Rnot_le_lt; intros X; apply six_cut in X; lra). split.
  - destruct (cut_six s Hs) as [Hc _]. unfold rlj_energy, lj_formula. cbn zeta. unfold Rleb. destruct (Rle_dec _ _) as [Y|Y]; [apply (proj1 (square_le _ _ Hc Hr)) in Y; lra|]. field. lra.
  - rewrite rlj_square by lra. rewrite Rmax_right by lra. apply Rmult_lt_0_compat; [lra|]. apply pow_lt. lra.
Qed.
Lemma cont_max f x : continuity_pt f x -> continuity_pt (fun r => Rmax 0 (f r)) x.
Proof.
  intros C. apply (continuity_pt_locally_ext (fun r => (f r + Rabs (f r)) / 2) _ 1 x ltac:(lra)).
  - intros y _. unfold Rmax, Rabs. destruct (Rle_dec 0 (f y)), (Rcase_abs (f y)); lra.
  - apply (continuity_pt_mult (fun r => f r + Rabs (f r)) (fun _ => / 2)); [|apply continuity_pt_const; intros a b; reflexivity]. apply continuity_pt_plus; [exact C|]. apply (continuity_pt_comp f Rabs x C). apply Rcontinuity_abs.
Qed.
Lemma cont_div s x : x <> 0 -> continuity_pt (fun r => s / r) x.
Proof. intros N. apply (continuity_pt_mult (fun _ => s) (fun r => / r)); [apply continuity_pt_const; intros a b; reflexivity|]. apply (continuity_pt_inv (fun r => r)); [apply derivable_continuous_pt, derivable_pt_id|exact N]. Qed.
Lemma cont_pow f n x : continuity_pt f x -> continuity_pt (fun r => f r ^ n) x.
Proof. intros C. apply (continuity_pt_comp f (fun y => y ^ n) x C). apply derivable_continuous_pt, derivable_pt_pow. Qed.
Lemma near_positive x : 0 < x -> forall y, R_dist y x < x -> 0 < y. Proof. intros H y D. unfold R_dist in D. apply Rabs_def2 in D. lra. Qed.
Theorem rlj_continuous e s r : 0 < s -> 0 < r -> continuity_pt (fun d => rlj_energy e s (d * d)) r.
Proof.
  intros Hs Hr. apply (continuity_pt_locally_ext (fun d => 4 * e * (Rmax 0 ((s / d) ^ 6 - / 2)) ^ 2) _ r r Hr).
  - intros y D. symmetry. apply rlj_square; [exact Hs|]. exact (near_positive r Hr y D).
  - apply (continuity_pt_mult (fun _ => 4 * e)); [apply continuity_pt_const; intros a b; reflexivity|]. apply (cont_pow (fun d => Rmax 0 ((s / d) ^ 6 - / 2)) 2). apply cont_max. apply (continuity_pt_minus (fun d => (s / d) ^ 6) (fun _ => / 2)); [|apply continuity_pt_const; intros a b; reflexivity]. apply (cont_pow (fun d => s / d) 6). apply cont_div. lra.
Qed.
Lemma ratio_decreasing s a b n : 0 < s -> 0 < a <= b -> (s / b) ^ n <= (s / a) ^ n.
Proof. intros Hs [Ha L]. apply pow_incr. split; [apply Rlt_le, Rdiv_lt_0_compat; lra|]. unfold Rdiv. apply Rmult_le_compat_l; [lra|]. apply Rinv_le_contravar; lra. Qed.
Theorem rlj_decreasing e s a b : 0 < e -> 0 < s -> 0 < a <= b -> rlj_energy e s (b * b) <= rlj_energy e s (a * a).
Proof.
  intros He Hs [Ha L]. rewrite !rlj_square by lra. apply Rmult_le_compat_l; [lra|]. apply pow_incr. split; [apply Rmax_l|]. apply Rle_max_compat_l. pose proof (ratio_decreasing s a b 6 Hs (conj Ha L)). lra.
Qed.
(** Square inverse core. *)
Theorem sic_at e s r : r <> 0 -> sic_energy e s (r * r) = e * Rmax 0 ((s / r) ^ 2 - 1).
Proof. intros N. unfold sic_energy. do 3 f_equal. field. exact N. Qed.
Theorem sic_zero e s r : 0 < s -> s <= r -> sic_energy e s (r * r) = 0.
Proof.
  intros Hs L. rewrite sic_at by lra. pose proof (ratio_decreasing s s r 2 Hs (conj Hs L)) as X. replace (s / s) with 1 in X by (field; lra). rewrite Rmax_left by (rewrite pow1 in X; lra). ring.
Qed.
Lemma sic_positive s r : 0 < r < s -> 0 < (s / r) ^ 2 - 1.
Proof. intros [Hr L]. assert (1 < s / r) by (apply (Rmult_lt_reg_r r); [exact Hr|]; unfold Rdiv; rewrite Rmult_assoc, Rinv_l by lra; lra). simpl. nra. Qed.
Theorem sic_inside e s r : 0 < r < s -> sic_energy e s (r * r) = e * ((s / r) ^ 2 - 1) /\ 0 < (s / r) ^ 2 - 1.
Proof. intros H. pose proof (sic_positive s r H). rewrite sic_at, Rmax_right by lra. auto. Qed.
Theorem sic_continuous e s r : 0 < s -> 0 < r -> continuity_pt (fun d => sic_energy e s (d * d)) r.
Proof.
  intros Hs Hr. apply (continuity_pt_locally_ext (fun d => e * Rmax 0 ((s / d) ^ 2 - 1)) _ r r Hr).
  - intros y D. symmetry. apply sic_at. pose proof (near_positive r Hr y D). lra.
  - apply (continuity_pt_mult (fun _ => e)); [apply continuity_pt_const; intros a b; reflexivity|]. apply cont_max. apply (continuity_pt_minus (fun d => (s / d) ^ 2) (fun _ => 1)); [|apply continuity_pt_const; intros a b; reflexivity]. apply (cont_pow (fun d => s / d) 2). apply cont_div. lra.
Qed.
(** Lennard-Jones. *)
Theorem lj_bottom e s r : 0 < e -> 0 < s -> 0 < r -> - e <= lj_energy e s (r * r) /\ (lj_energy e s (r * r) = - e <-> r = rlj_range s).
Proof.
  intros He Hs Hr. rewrite lj_at by lra. unfold lj_formula. set (x := (s / r) ^ 6). replace ((s / r) ^ 12) with (x * x) by (unfold x; ring). assert (Q : 4 * e * (x * x - x) = 4 * e * (x - / 2) ^ 2 - e) by field. rewrite Q. split; [pose proof (pow2_ge_0 (x - / 2)); nra|]. destruct (cut_six s Hs) as [Hc Ec]. split.
  - intros E. assert (Z : (x - / 2) ^ 2 = 0) by nra. assert (X : x = / 2) by (simpl in Z; nra). unfold x in X. assert (P : 0 < r ^ 6) by (apply pow_lt; exact Hr). replace ((s / r) ^ 6) with (s ^ 6 / r ^ 6) in X by (field; lra). assert (Y : r ^ 6 = rlj_range s ^ 6) by (rewrite Ec; apply (Rmult_eq_compat_r (r ^ 6)) in X; unfold Rdiv in X; rewrite Rmult_assoc, Rinv_l in X by lra; lra).
    destruct (Rtotal_order r (rlj_range s)) as [L|[L|L]]; [|exact L|]; [pose proof (pow_strict r (rlj_range s) 6 ltac:(lra) ltac:(lia))|pose proof (pow_strict (rlj_range s) r 6 ltac:(lra) ltac:(lia))]; lra.
  - intros ->. assert (X : x = / 2) by (unfold x; replace ((s / rlj_range s) ^ 6) with (s ^ 6 / rlj_range s ^ 6) by (field; lra); rewrite Ec; field; lra). rewrite X. field.
Qed.
Theorem lj_never_zero e s r : 0 < e -> 0 < s -> s < r -> lj_energy e s (r * r) < 0.
Proof.
  intros He Hs L. rewrite lj_at by lra. unfold lj_formula. set (x := (s / r) ^ 6). replace ((s / r) ^ 12) with (x * x) by (unfold x; ring). assert (0 < s / r < 1) by (split; [apply Rdiv_lt_0_compat; lra|]; apply (Rmult_lt_reg_r r); [lra|]; unfold Rdiv; rewrite Rmult_assoc, Rinv_l by lra; lra). assert (0 < x) by (apply pow_lt; lra). assert (x < 1) by (unfold x; rewrite <- (pow1 6); apply pow_strict; [lra|lia]). clearbody x. assert (0 < x * (1 - x)) by (apply Rmult_lt_0_compat; lra). assert (0 < e * (x * (1 - x))) by (apply Rmult_lt_0_compat; lra). lra.
Qed.
(** It is not of the declared range, whatever laws it follows. *)
Lemma some_norm r : 0 <= r -> vnorm2 (V3 r 0 0) = r * r /\ vnorm (V3 r 0 0) = r.
Proof. intros H. assert (E : vnorm2 (V3 r 0 0) = r * r) by (unfold vnorm2, vdot; cbn; ring). split; [exact E|]. unfold vnorm. rewrite E. apply sqrt_square. exact H. Qed.
Theorem lj_unlawful e s cs w : lj e s cs = Some w -> forall o l, ~ lawful (wi w) o l.
Proof.
  unfold lj, positive. destruct (Rltb 0 e && Rltb 0 s) eqn:P; [|discriminate]. intros H. injection H as <-. apply andb_true_iff in P. rewrite !rltb_iff in P. destruct P as [He Hs]. intros o l (_ & _ & F & _ & _ & _ & Z & _). cbn [central wi in_energy in_rangeRadius lj_range] in *.
  destruct (some_norm (4 * s) ltac:(lra)) as [E1 E2]. pose proof (Z mid 0%nat mid 0%nat (V3 (4 * s) 0 0)) as X. rewrite E2 in X. pose proof (F vzero mid 0%nat (V3 (4 * s) 0 0) mid 0%nat (Bc (fun _ _ => vzero) (fun _ _ => (4 * s) * (4 * s)))) as Y. cbn [bc_translation bc_distance2] in Y. replace (vsub (vadd (V3 (4 * s) 0 0) vzero) vzero) with (V3 (4 * s) 0 0) in Y by (unfold vsub, vadd, vzero; cbn; f_equal; ring). rewrite <- E1 in Y at 2. rewrite <- Y in X. pose proof (lj_never_zero e s (4 * s) He Hs ltac:(lra)). specialize (X ltac:(lra)). unfold lj_range in X. lra.
Qed.
Theorem built e s cs :
  (lj e s cs = if positive e s then Some (central (lj_energy e s) (3 * s) cs) else None) /\
  (forall w, rlj e s cs = Some w <-> 0 < e /\ 0 < s /\ w = central (rlj_energy e s) (rlj_range s) cs) /\
  (forall w, sic e s cs = Some w <-> e <> 0 /\ 0 < s /\ w = central (sic_energy e s) s cs) /\
  (forall w, lj e s cs = Some w <-> 0 < e /\ 0 < s /\ w = central (lj_energy e s) (3 * s) cs).
Proof.
  split; [reflexivity|]. split; [|split]; intros w.
  - unfold rlj, positive. destruct (Rltb 0 e && Rltb 0 s) eqn:P.
    + apply andb_true_iff in P. rewrite !rltb_iff in P. split; [intros H; injection H as <-; tauto|intros (_ & _ & ->); reflexivity].
    + split; [discriminate|]. intros (A & B & _). rewrite (proj2 (rltb_iff 0 e) A), (proj2 (rltb_iff 0 s) B) in P. discriminate.
  - unfold sic. destruct (negb (Reqb e 0) && Rltb 0 s) eqn:P.
    + apply andb_true_iff in P. rewrite negb_true_iff, rltb_iff in P. destruct P as [A B]. assert (e <> 0) by (intros X; apply reqb_iff in X; congruence). split; [intros H0; injection H0 as <-; tauto|intros (_ & _ & ->); reflexivity].
    + split; [discriminate|]. intros (A & B & _). rewrite (proj2 (rltb_iff 0 s) B), andb_true_r in P. apply negb_false_iff, reqb_iff in P. contradiction.
  - unfold lj, positive. destruct (Rltb 0 e && Rltb 0 s) eqn:P.
    + apply andb_true_iff in P. rewrite !rltb_iff in P. split; [intros H; injection H as <-; tauto|intros (_ & _ & ->); reflexivity].
    + split; [discriminate|]. intros (A & B & _). rewrite (proj2 (rltb_iff 0 e) A), (proj2 (rltb_iff 0 s) B) in P. discriminate.
Qed.
Theorem rlj_lawful e s cs w : rlj e s cs = Some w -> lawful (wi w) no_overlaps (central_law (rlj_energy e s)) /\ centres_reach (wi w).
Proof. intros H. apply built in H. destruct H as (He & Hs & ->). apply central_lawful; [apply cut_six; exact Hs|]. intros r L. apply rlj_zero; lra. Qed.
Theorem sic_lawful e s cs w : sic e s cs = Some w -> lawful (wi w) no_overlaps (central_law (sic_energy e s)) /\ centres_reach (wi w).
Proof. intros H. apply built in H. destruct H as (He & Hs & ->). apply central_lawful; [exact Hs|]. intros r L. apply sic_zero; lra. Qed.
