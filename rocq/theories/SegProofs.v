From Coq Require Import Reals Bool Lra Psatz.
From Verif Require Import GeomModel GeomProofs SegModel SegSpec.
Open Scope R_scope.

Lemma EPSILON_pos : 0 < EPSILON.
Proof. unfold EPSILON. apply Rinv_0_lt_compat. apply pow_lt. lra. Qed.
Definition bounded (f : fractions) : Prop := 0 <= fr_sN f <= fr_sD f /\ 0 <= fr_tN f <= fr_tD f.
Lemma divide_unit n d : 0 <= n <= d -> 0 <= divide n d <= 1.
Proof.
  intros H. unfold divide. destruct (Rltb (Rabs n) EPSILON) eqn:E; [lra|]. apply Rltb_false in E. pose proof EPSILON_pos. rewrite Rabs_pos_eq in E by lra.
  split; [apply Rle_mult_inv_pos; lra|]. apply (Rmult_le_reg_r d); [lra|]. unfold Rdiv. rewrite Rmult_assoc, Rinv_l by lra. lra.
Qed.
Lemma edge_bounded n a sD tN tD : 0 <= a -> 0 <= sD -> 0 <= tN <= tD -> bounded (edge n a sD tN tD).
Proof.
  intros A S T. unfold edge, bounded. destruct (Rltb n 0) eqn:E1; [cbn; lra|]. apply Rltb_false in E1. destruct (Rltb a n) eqn:E2; [cbn; lra|]. apply Rltb_false in E2. cbn; lra.
Qed.
Lemma fractions_bounded a b c d e : 0 <= a -> 0 <= c -> bounded (clamp_second a b d (closest_on_lines a b c d e)).
Proof.
  intros A C. assert (S : 0 <= fr_sN (closest_on_lines a b c d e) <= fr_sD (closest_on_lines a b c d e) /\ 0 <= fr_tD (closest_on_lines a b c d e)).
  { unfold closest_on_lines. cbv zeta. destruct (Rltb (a * c - b * b) EPSILON) eqn:E; [cbn; lra|]. apply Rltb_false in E. pose proof EPSILON_pos.
    destruct (Rltb (b * e - c * d) 0) eqn:E1; [cbn; lra|]. apply Rltb_false in E1. destruct (Rltb (a * c - b * b) (b * e - c * d)) eqn:E2; [cbn; lra|]. apply Rltb_false in E2. cbn; lra. }
  destruct S as [S T]. unfold clamp_second. destruct (Rltb (fr_tN _) 0) eqn:E1; [apply edge_bounded; lra|]. apply Rltb_false in E1.
  destruct (Rltb (fr_tD _) (fr_tN _)) eqn:E2; [apply edge_bounded; lra|]. apply Rltb_false in E2. split; lra.
Qed.
Lemma difference_points s11 s12 s21 s22 s t :
  vsub (vadd (vsub s11 s21) (vscale s (vsub s12 s11))) (vscale t (vsub s22 s21)) = vsub (vadd s11 (vscale s (vsub s12 s11))) (vadd s21 (vscale t (vsub s22 s21))).
Proof. apply vec_ext; cbn; ring. Qed.
Lemma attained s11 s12 s21 s22 : exists p q, on_segment s11 s12 p /\ on_segment s21 s22 q /\ segment_distance2 s11 s12 s21 s22 = vnorm2 (vsub p q).
Proof.
  unfold segment_distance2. cbv zeta. set (f := clamp_second _ _ _ _).
  assert (B : bounded f) by (apply fractions_bounded; apply vnorm2_nonneg). destruct B as [B1 B2].
  exists (vadd s11 (vscale (divide (fr_sN f) (fr_sD f)) (vsub s12 s11))), (vadd s21 (vscale (divide (fr_tN f) (fr_tD f)) (vsub s22 s21))).
  split; [exists (divide (fr_sN f) (fr_sD f)); split; [apply divide_unit; exact B1|reflexivity]|].
  split; [exists (divide (fr_tN f) (fr_tD f)); split; [apply divide_unit; exact B2|reflexivity]|].
  rewrite difference_points. reflexivity.
Qed.

(** *** Optimality of the fractions for lines which are not parallel *)
Definition optimal (a b c d e s t : R) : Prop :=
  0 <= s <= 1 /\ 0 <= t <= 1 /\ (forall x, 0 <= x <= 1 -> 0 <= (a * s - b * t + d) * (x - s)) /\ (forall y, 0 <= y <= 1 -> 0 <= (c * t - b * s - e) * (y - t)).
Definition fractional (f : fractions) (s t : R) : Prop := s * fr_sD f = fr_sN f /\ t * fr_tD f = fr_tN f.

(* a parameter within [0, 1] for the one-dimensional problem *)
Lemma edge_cases n a sD tN tD : 0 < a -> 0 < sD -> exists s, 0 <= s <= 1 /\ s * fr_sD (edge n a sD tN tD) = fr_sN (edge n a sD tN tD) /\
  fr_tN (edge n a sD tN tD) = tN /\ fr_tD (edge n a sD tN tD) = tD /\ (fr_sD (edge n a sD tN tD) = sD \/ fr_sD (edge n a sD tN tD) = a) /\
  (forall x, 0 <= x <= 1 -> 0 <= (a * s - n) * (x - s)) /\ ((s = 0 /\ n < 0) \/ (s = 1 /\ a < n) \/ (a * s = n)).
Proof.
  intros A S. unfold edge. destruct (Rltb n 0) eqn:E1; [|destruct (Rltb a n) eqn:E2].
  - apply Rltb_true in E1. exists 0. cbn. repeat split; try lra; auto. intros x X. nra.
  - apply Rltb_true in E2. exists 1. cbn. repeat split; try lra; auto. intros x X. nra.
  - apply Rltb_false in E1. apply Rltb_false in E2. exists (n / a). cbn. assert (Q : n / a * a = n) by (field; lra).
    assert (B : 0 <= n / a <= 1). { split; [apply Rle_mult_inv_pos; lra|]. apply (Rmult_le_reg_r a); lra. }
    split; [exact B|]. split; [exact Q|]. split; [reflexivity|]. split; [reflexivity|]. split; [right; reflexivity|]. split.
    + intros x X. replace (a * (n / a) - n) with 0 by (field; lra). lra.
    + right. right. lra.
Qed.
Section Optimal.
Variables a b c d e : R.
Hypothesis PA : 0 < a.
Hypothesis PC : 0 < c.
Hypothesis PD : 0 < a * c - b * b.

(* the derivative over t has the right sign on the edge t = 0 *)
Lemma edge0 s : 0 <= s <= 1 -> ((s = 0 /\ - d < 0) \/ (s = 1 /\ a < - d) \/ (a * s = - d)) ->
  ((b * e - c * d < 0 /\ e < 0) \/ (a * c - b * b < b * e - c * d /\ e + b < 0) \/ (0 <= b * e - c * d <= a * c - b * b /\ a * e - b * d < 0)) ->
  0 <= - (b * s) - e.
Proof.
  intros S C [[H1 H2]|[[H1 H2]|[H1 H2]]].
  - destruct C as [[-> C]|[[-> C]|C]].
    + lra.
    + assert (0 < b) by nra. assert (b * e < b * (- b)) by nra. assert (e < - b) by nra. lra.
    + assert (D : d = - (a * s)) by lra. subst d. destruct (Rle_lt_dec s 0) as [Z|Z]; [assert (s = 0) by lra; subst s; lra|].
      assert (0 < b) by nra. assert (b * e < - (b * b) * s) by nra. assert (e < - b * s) by nra. lra.
  - destruct C as [[-> C]|[[-> C]|C]].
    + assert (B : b < 0) by nra. destruct (Rle_lt_dec e 0) as [Z|Z]; [lra|]. exfalso. nra.
    + lra.
    + assert (D : d = - (a * s)) by lra. subst d. assert (B : b < 0) by nra. destruct (Rle_lt_dec (b * s + e) 0) as [Z|Z]; [lra|]. exfalso.
      (* b (e + b) > c a (1 - s) + ..., b e < - b b s *)
      assert (b * (b * s + e) < 0) by nra. assert (c * a * (1 - s) - b * b * (1 - s) >= 0) by nra. nra.
  - destruct C as [[-> C]|[[-> C]|C]].
    + destruct (Rle_lt_dec e 0) as [Z|Z]; [lra|]. exfalso. assert (0 < b) by nra. assert (a * e * c < b * d * c) by nra. assert (b * (c * d) <= b * (b * e)) by nra. nra.
    + destruct (Rle_lt_dec (e + b) 0) as [Z|Z]; [lra|]. exfalso. assert (B : b < 0) by nra. assert (a * (e + b) < b * (d + a)) by nra.
      assert (b * (b * (e + b)) >= b * (c * (a + d))) by nra. nra.
    + assert (D : d = - (a * s)) by lra. subst d. assert (a * (e + b * s) < 0) by nra. assert (e + b * s < 0) by nra. lra.
Qed.
End Optimal.
(* and on the edge t = 1: the other end of the second segment *)
Lemma edge1 a b c d e s : 0 < a -> 0 < c -> 0 < a * c - b * b -> 0 <= s <= 1 -> ((s = 0 /\ - d + b < 0) \/ (s = 1 /\ a < - d + b) \/ (a * s = - d + b)) ->
  ((b * e - c * d < 0 /\ c < e) \/ (a * c - b * b < b * e - c * d /\ c < e + b) \/ (0 <= b * e - c * d <= a * c - b * b /\ a * c - b * b < a * e - b * d)) ->
  c - b * s - e <= 0.
Proof.
  intros A C D S E H. pose proof (edge0 a (- b) c (d - b) (c - e) A C ltac:(lra) s S) as L.
  assert (L' : 0 <= - (- b * s) - (c - e)); [apply L|lra].
  - destruct E as [E|[E|E]]; [left|right; left|right; right]; lra.
  - destruct H as [H|[H|H]]; [left|right; left|right; right]; lra.
Qed.
Lemma fractions_optimal a b c d e : 0 < a -> 0 < c -> EPSILON <= a * c - b * b ->
  exists s t, fractional (clamp_second a b d (closest_on_lines a b c d e)) s t /\ optimal a b c d e s t /\
    (fr_sD (clamp_second a b d (closest_on_lines a b c d e)) = a * c - b * b \/ fr_sD (clamp_second a b d (closest_on_lines a b c d e)) = a) /\
    (fr_tD (clamp_second a b d (closest_on_lines a b c d e)) = a * c - b * b \/ fr_tD (clamp_second a b d (closest_on_lines a b c d e)) = c).
Proof.
  intros A C DE. pose proof EPSILON_pos as EP. assert (D : 0 < a * c - b * b) by lra.
  assert (F : exists sN tN tD, closest_on_lines a b c d e = Fr sN (a * c - b * b) tN tD /\ 0 <= sN <= a * c - b * b /\ 0 < tD /\ (tD = a * c - b * b \/ tD = c) /\
    ((b * e - c * d < 0 /\ sN = 0 /\ tN = e /\ tD = c) \/ (a * c - b * b < b * e - c * d /\ sN = a * c - b * b /\ tN = e + b /\ tD = c) \/
     (0 <= b * e - c * d <= a * c - b * b /\ sN = b * e - c * d /\ tN = a * e - b * d /\ tD = a * c - b * b))).
  { unfold closest_on_lines. cbv zeta. rewrite (proj2 (Rltb_false _ _) DE). destruct (Rltb (b * e - c * d) 0) eqn:E1; [|destruct (Rltb (a * c - b * b) (b * e - c * d)) eqn:E2].
    - apply Rltb_true in E1. do 3 eexists. split; [reflexivity|]. repeat split; try lra; auto.
    - apply Rltb_true in E2. do 3 eexists. split; [reflexivity|]. repeat split; try lra; auto; right; left; auto.
    - apply Rltb_false in E1. apply Rltb_false in E2. do 3 eexists. split; [reflexivity|]. repeat split; try lra; auto; right; right; auto. }
  destruct F as (sN&tN&tD&F&B&TD&TDC&K). rewrite F. unfold clamp_second; cbn [fr_sN fr_sD fr_tN fr_tD].
  destruct (Rltb tN 0) eqn:E1; [|destruct (Rltb tD tN) eqn:E2].
  - apply Rltb_true in E1. destruct (edge_cases (- d) a (a * c - b * b) 0 tD A D) as (s&S&Q&T1&T2&SD&V&W). exists s, 0.
    split; [split; [exact Q|rewrite T1; ring]|]. split.
    + split; [exact S|]. split; [lra|]. split; [intros x X; specialize (V x X); replace (a * s - b * 0 + d) with (a * s - - d) by ring; exact V|].
      intros y Y. assert (G : 0 <= - (b * s) - e). { apply (edge0 a b c d e A C D s S W). destruct K as [K|[K|K]]; [left|right; left|right; right]; repeat split; try lra; destruct K as (_&_&<-&_); lra. }
      replace (c * 0 - b * s - e) with (- (b * s) - e) by ring. rewrite Rminus_0_r. apply Rmult_le_pos; lra.
    + split; [exact SD|rewrite T2; exact TDC].
  - apply Rltb_true in E2. destruct (edge_cases (- d + b) a (a * c - b * b) tD tD A D) as (s&S&Q&T1&T2&SD&V&W). exists s, 1.
    split; [split; [exact Q|rewrite T1, T2; ring]|]. split.
    + split; [exact S|]. split; [lra|]. split; [intros x X; specialize (V x X); replace (a * s - b * 1 + d) with (a * s - (- d + b)) by ring; exact V|].
      intros y Y. assert (G : c - b * s - e <= 0). { apply (edge1 a b c d e s A C D S W). destruct K as [K|[K|K]]; [left|right; left|right; right]; repeat split; try lra; destruct K as (_&_&<-&<-); lra. }
      replace (c * 1 - b * s - e) with (c - b * s - e) by ring. nra.
    + split; [exact SD|rewrite T2; exact TDC].
  - apply Rltb_false in E1. apply Rltb_false in E2. exists (sN / (a * c - b * b)), (tN / tD).
    assert (QS : sN / (a * c - b * b) * (a * c - b * b) = sN) by (field; lra). assert (QT : tN / tD * tD = tN) by (field; lra).
    split; [split; [exact QS|exact QT]|]. split; [|cbn; auto].
    assert (BS : 0 <= sN / (a * c - b * b) <= 1). { split; [apply Rle_mult_inv_pos; lra|]. apply (Rmult_le_reg_r (a * c - b * b)); lra. }
    assert (BT : 0 <= tN / tD <= 1). { split; [apply Rle_mult_inv_pos; lra|]. apply (Rmult_le_reg_r tD); lra. }
    set (s := sN / (a * c - b * b)) in *. set (t := tN / tD) in *. clearbody s t.
    split; [exact BS|]. split; [exact BT|]. destruct K as [(K&K1&K2&K3)|[(K&K1&K2&K3)|(K&K1&K2&K3)]].
    + assert (s = 0) by nra. subst s. subst tD tN. split.
      * intros x X. assert (0 <= - b * t + d) by (apply (Rmult_le_reg_l c); nra). nra.
      * intros y Y. replace (c * t - b * 0 - e) with 0 by lra. lra.
    + assert (s = 1) by nra. subst s. subst tD tN. split.
      * intros x X. assert (a - b * t + d <= 0) by (apply (Rmult_le_reg_l c); nra). nra.
      * intros y Y. replace (c * t - b * 1 - e) with 0 by lra. lra.
    + subst tD. assert (G1 : a * s - b * t + d = 0). { apply (Rmult_eq_reg_l (a * c - b * b)); [|lra]. transitivity (a * (s * (a * c - b * b)) - b * (t * (a * c - b * b)) + d * (a * c - b * b)); [ring|]. rewrite QS, QT, K1, K2. ring. }
      assert (G2 : c * t - b * s - e = 0). { apply (Rmult_eq_reg_l (a * c - b * b)); [|lra]. transitivity (c * (t * (a * c - b * b)) - b * (s * (a * c - b * b)) - e * (a * c - b * b)); [ring|]. rewrite QS, QT, K1, K2. ring. }
      split; intros; rewrite ?G1, ?G2; lra.
Qed.
