From Coq Require Import Reals ZArith List Bool Lia Lra Permutation.
From Verif Require Import GeomModel GeomProofs BoxModel BoxSpec BoxProofs RFloorModel RotModel PackSpec PackSumProofs CorrProofs BinsModel BinsSpec TrackerModel TrackerSpec TrackerProofs TrackerMoveProofs.
Import ListNotations.
Local Open Scope R_scope.

Lemma epsilon_pos : 0 < epsilon. Proof. unfold epsilon. lra. Qed.
Lemma tolerance_epsilon : 2 / 10 ^ 8 = 2 * epsilon. Proof. unfold epsilon. field. Qed.
Lemma pronounced_epsilon k f s q : pronounced k f s -> (forall a, q a = Z.of_nat (k a) \/ q a = (- Z.of_nat (k a))%Z) -> epsilon * epsilon <= amplitude2 f s q.
Proof. intros H Hq. specialize (H q Hq). unfold epsilon. replace ((/ 10 ^ 8) ^ 2) with (/ 100000000 * / 100000000) in H by field. exact H. Qed.
Lemma small_square r e : 0 <= r -> 0 < e -> r * r < e * e -> r < e. Proof. intros. nra. Qed.
Lemma large_square r e : 0 <= r -> 0 < e -> e * e <= r * r -> e <= r. Proof. intros. nra. Qed.
(** The best phases of a combination of waves. *)
Definition plane (A B C D x y : R) : R := A * cos x * cos y + B * cos x * sin y + C * sin x * cos y + D * sin x * sin y.
Lemma plane_waves A B C D x y : 2 * plane A B C D x y = ((A - D) * cos (x + y) + (C + B) * sin (x + y)) + ((A + D) * cos (x - y) + (C - B) * sin (x - y)).
Proof. unfold plane. rewrite cos_plus, sin_plus, cos_minus, sin_minus. ring. Qed.
Section Plane.
Variables A B C D : R.
Let a := guardedAtan2 (C + B) (A - D).
Let b := guardedAtan2 (C - B) (A + D).
Lemma plane_near x y : plane A B C D x y <= plane A B C D ((a + b) / 2) ((a - b) / 2) + 2 * epsilon.
Proof.
  destruct (guarded (C + B) (A - D)) as (r1 & P1 & Q1 & _ & E1 & B1). destruct (guarded (C - B) (A + D)) as (r2 & P2 & Q2 & _ & E2 & B2). fold a in E1. fold b in E2.
  pose proof (plane_waves A B C D x y) as W. pose proof (plane_waves A B C D ((a + b) / 2) ((a - b) / 2)) as W0. replace ((a + b) / 2 + (a - b) / 2) with a in W0 by field. replace ((a + b) / 2 - (a - b) / 2) with b in W0 by field.
  assert (L1 : (A - D) * cos (x + y) + (C + B) * sin (x + y) <= (A - D) * cos a + (C + B) * sin a + 2 * epsilon).
  { destruct (Rle_dec epsilon r1) as [H|H]; [rewrite (E1 H a), Rminus_eq_0, cos_0; pose proof (B1 (x + y)); pose proof epsilon_pos; lra|pose proof (B1 (x + y)); pose proof (B1 a); lra]. }
  assert (L2 : (A + D) * cos (x - y) + (C - B) * sin (x - y) <= (A + D) * cos b + (C - B) * sin b + 2 * epsilon).
  { destruct (Rle_dec epsilon r2) as [H|H]; [rewrite (E2 H b), Rminus_eq_0, cos_0; pose proof (B2 (x - y)); pose proof epsilon_pos; lra|pose proof (B2 (x - y)); pose proof (B2 b); lra]. }
  lra.
Qed.
Lemma plane_exact : epsilon * epsilon <= (A - D) * (A - D) + (C + B) * (C + B) -> epsilon * epsilon <= (A + D) * (A + D) + (C - B) * (C - B) ->
  exists r1 r2, 0 < r1 /\ 0 < r2 /\ forall x y, 2 * plane A B C D x y = r1 * cos ((x - (a + b) / 2) + (y - (a - b) / 2)) + r2 * cos ((x - (a + b) / 2) - (y - (a - b) / 2)).
Proof.
  intros H1 H2. destruct (guarded (C + B) (A - D)) as (r1 & P1 & Q1 & _ & E1 & B1). destruct (guarded (C - B) (A + D)) as (r2 & P2 & Q2 & _ & E2 & B2). fold a in E1. fold b in E2. pose proof epsilon_pos as Ep. rewrite <- Q1 in H1. rewrite <- Q2 in H2. apply large_square in H1, H2; try assumption. exists r1, r2. split; [lra|]. split; [lra|]. intros x y.
  rewrite plane_waves, (E1 H1), (E2 H2). f_equal; f_equal; f_equal; field.
Qed.
Lemma plane_range : - PI < (a + b) / 2 <= PI /\ - PI < (a - b) / 2 <= PI.
Proof. destruct (guarded (C + B) (A - D)) as (r1 & _ & _ & R1 & _). destruct (guarded (C - B) (A + D)) as (r2 & _ & _ & R2 & _). fold a in R1. fold b in R2. lra. Qed.
Lemma plane_small x y x' y' : A * A + B * B + C * C + D * D < epsilon * epsilon -> plane A B C D x y <= plane A B C D x' y' + 2 * epsilon.
Proof.
  intros H. destruct (guarded (C + B) (A - D)) as (r1 & P1 & Q1 & _ & _ & B1). destruct (guarded (C - B) (A + D)) as (r2 & P2 & Q2 & _ & _ & B2). pose proof (plane_waves A B C D x y) as W. pose proof (plane_waves A B C D x' y') as W'.
  pose proof (B1 (x + y)). pose proof (B2 (x - y)). pose proof (B1 (x' + y')). pose proof (B2 (x' - y')). pose proof epsilon_pos. assert (r1 + r2 <= 2 * epsilon). { assert (Q : r1 * r1 + r2 * r2 = 2 * (A * A + B * B + C * C + D * D)) by (rewrite Q1, Q2; ring). assert ((r1 + r2) * (r1 + r2) < 2 * epsilon * (2 * epsilon)) by (pose proof (Rle_0_sqr (r1 - r2)) as S0; unfold Rsqr in S0; lra). left. apply small_square; lra. } lra.
Qed.
End Plane.
Lemma plane_whole A B C D x y m n : plane A B C D (x + 2 * PI * IZR m) (y + 2 * PI * IZR n) = plane A B C D x y.
Proof. unfold plane. rewrite !(proj1 (cos_whole _ _)), !(proj2 (cos_whole _ _)). reflexivity. Qed.

(** What is known of the origin before it is moved. *)
Definition found (k : axis -> nat) (f : shape_function) (s : system) (o : vec) : Prop :=
  in_unit o /\ (forall a, k a = 0%nat -> vget o a = 0) /\ near_maximum (2 / 10 ^ 8) k f s o /\
  (pronounced k f s -> is_maximum k f s o /\ forall r, is_maximum k f s r -> related k o r).

(** One wave. *)
Lemma axis_is_spec a b : reflect (a = b) (axis_is a b). Proof. destruct a, b; cbn; constructor; congruence. Qed.
Lemma amplitude1 k f s a : number_of_values f = 1%nat -> (0 < k a)%nat -> (forall b, b <> a -> k b = 0%nat) -> amplitude2 f s (fun b => Z.of_nat (k b)) = coefficient k f s (fun _ => false) * coefficient k f s (fun _ => false) + coefficient k f s (axis_is a) * coefficient k f s (axis_is a).
Proof.
  intros Hf Ha Hb. rewrite !coefficient_sum; try exact Hf; try reflexivity; [|intros b B; destruct (axis_is_spec a b); [subst; lia|reflexivity]]. unfold amplitude2.
  rewrite (Rsum_ext (fun p => component f 0 (snd p) * cos (phase_at _ (place s p))) (fun p => component f 0 (snd p) * part k (fun _ => false) (place s p))); [rewrite (Rsum_ext (fun p => component f 0 (snd p) * sin (phase_at _ (place s p))) (fun p => component f 0 (snd p) * part k (axis_is a) (place s p))); [ring|]|];
    intros p _; f_equal; unfold phase_at, part, fourier; rewrite <- !INR_IZR_INZ.
  - destruct a; rewrite ?(Hb AX), ?(Hb AY), ?(Hb AZ) by discriminate; cbn [INR Nat.eqb axis_is]; rewrite (proj2 (Nat.eqb_neq _ 0)) by lia; rewrite ?Rmult_0_l, ?Rmult_1_l, ?Rmult_1_r; f_equal; ring.
  - destruct a; rewrite ?(Hb AX), ?(Hb AY), ?(Hb AZ) by discriminate; cbn [INR Nat.eqb axis_is]; rewrite (proj2 (Nat.eqb_neq _ 0)) by lia; rewrite ?Rmult_0_l, ?Rmult_1_l, ?Rmult_1_r; f_equal; ring.
Qed.
Lemma found1 k f s a : number_of_values f = 1%nat -> (0 < k a)%nat -> (forall b, b <> a -> k b = 0%nat) -> found k f s (origin1 k (coefficient k f s) a).
Proof.
  intros Hf Ha Hb. pose proof (fun r => modulation1 k f s r a Hf Ha Hb) as M. pose proof (amplitude1 k f s a Hf Ha Hb) as Am. unfold origin1. set (c := coefficient k f s (fun _ => false)) in *. set (d := coefficient k f s (axis_is a)) in *.
  destruct (guarded d c) as (r & P & Q & Rg & E & Bd). pose proof epsilon_pos as Ep. destruct (Rltb (c * c + d * d) (epsilon * epsilon)) eqn:L; [apply Rltb_true in L|apply Rltb_false in L].
  - split; [intros b; destruct b; cbn; lra|]. split; [intros b _; destruct b; reflexivity|]. split.
    + intros r'. rewrite !M, tolerance_epsilon. rewrite <- Q in L. apply small_square in L; [|assumption|assumption]. pose proof (Bd (ang k r' a)). pose proof (Bd (ang k vzero a)). lra.
    + intros H. exfalso. pose proof (pronounced_epsilon k f s _ H (fun b => or_introl eq_refl)) as H'. rewrite Am in H'. lra.
  - unfold guardedAtan2 in Rg, E. rewrite (proj2 (Rltb_false _ _)) in Rg, E by lra. assert (L' : epsilon <= r) by (apply large_square; lra). specialize (E L').
    destruct (phase_coordinate (k a) (atan2 d c) Ha Rg) as (z & Ez & Iz). set (o := vmake _). assert (Oa : vget o a = fmod1 (atan2 d c / INR (k a) / 2 / PI + 1)) by (unfold o; rewrite vget_vmake; destruct (axis_is_spec a a); congruence). assert (Ob : forall b, b <> a -> vget o b = 0) by (intros b N; unfold o; rewrite vget_vmake; destruct (axis_is_spec a b); congruence).
    assert (Mr : forall r', modulation k f s r' = r * cos (ang k r' a - ang k o a)).
    { intros r'. rewrite M, E. f_equal. replace (ang k o a) with (atan2 d c + 2 * PI * IZR z) by (unfold ang; rewrite Oa; symmetry; exact Ez). replace (ang k r' a - (atan2 d c + 2 * PI * IZR z)) with (ang k r' a - atan2 d c + 2 * PI * IZR (- z)) by (rewrite opp_IZR; ring). symmetry. apply cos_whole. }
    assert (Mo : modulation k f s o = r) by (rewrite Mr, Rminus_eq_0, cos_0; ring). assert (Mx : is_maximum k f s o) by (intros r'; rewrite Mo, Mr; pose proof (COS_bound (ang k r' a - ang k o a)); nra).
    split; [|split; [|split]].
    + intros b. destruct (axis_is_spec a b) as [<- |N]; [rewrite Oa; exact Iz|rewrite Ob by congruence; lra].
    + intros b Kb. apply Ob. intros ->. lia.
    + intros r'. rewrite tolerance_epsilon. specialize (Mx r'). lra.
    + intros _. split; [exact Mx|]. intros r' H. specialize (H o). rewrite Mo, Mr in H. pose proof (COS_bound (ang k r' a - ang k o a)) as Cb. assert (C1 : cos (ang k r' a - ang k o a) = 1) by (apply Rle_antisym; [lra|]; apply (Rmult_le_reg_l r); lra). apply cos_one in C1. destruct C1 as [m C1].
      exists (fun b => if axis_is a b then (2 * m)%Z else 0%Z). split; [intros b Kb; destruct (axis_is_spec a b); [subst; lia|reflexivity]|]. split.
      * replace (_ + _ + _)%Z with (2 * m)%Z by (destruct a; cbn [axis_is]; lia). apply Z.even_spec. exists m. reflexivity.
      * intros b Kb. destruct (axis_is_spec a b) as [<- |N]; [|rewrite Hb in Kb by congruence; lia]. rewrite mult_IZR. unfold ang in C1. pose proof PI_RGT_0. apply (Rmult_eq_reg_l PI); [|lra]. lra.
Qed.
(** Two waves. *)
Lemma amplitude_two k f s i j : number_of_values f = 1%nat -> ordered_axes i j -> (0 < k i)%nat -> (0 < k j)%nat -> (forall b, b <> i -> b <> j -> k b = 0%nat) ->
  let A := coefficient k f s (fun _ => false) in let B := coefficient k f s (axis_is j) in let C := coefficient k f s (axis_is i) in let D := coefficient k f s (fun x => axis_is i x || axis_is j x) in
  amplitude2 f s (fun b => Z.of_nat (k b)) = (A - D) * (A - D) + (C + B) * (C + B) /\ amplitude2 f s (fun b => if axis_is j b then (- Z.of_nat (k b))%Z else Z.of_nat (k b)) = (A + D) * (A + D) + (C - B) * (C - B).
Proof.
  intros Hf Ho Hi Hj Hb. cbv zeta. rewrite !coefficient_sum; try exact Hf; try reflexivity;
    try (intros b B; destruct (axis_is_spec i b); [subst; lia|]; destruct (axis_is_spec j b); [subst; lia|]; reflexivity);
    try (intros b B; destruct (axis_is_spec i b); [subst; lia|]; reflexivity); try (intros b B; destruct (axis_is_spec j b); [subst; lia|]; reflexivity).
  unfold amplitude2. set (w := fun idx p => component f 0 (snd p) * part k idx (place s p)).
  assert (Wc : forall p, component f 0 (snd p) * cos (phase_at (fun b => Z.of_nat (k b)) (place s p)) = w (fun _ => false) p + w (fun x => axis_is i x || axis_is j x) p * -1).
  { intros p. unfold w, phase_at, part, fourier. rewrite <- !INR_IZR_INZ. destruct i, j; try contradiction; rewrite ?(Hb AX), ?(Hb AY), ?(Hb AZ) by discriminate; cbn [INR Nat.eqb axis_is orb]; rewrite !(proj2 (Nat.eqb_neq _ 0)) by lia; rewrite ?Rmult_0_l, ?Rplus_0_l, ?Rplus_0_r, Rmult_plus_distr_l, cos_plus, <- !Rmult_assoc; ring. }
  assert (Ws : forall p, component f 0 (snd p) * sin (phase_at (fun b => Z.of_nat (k b)) (place s p)) = w (axis_is i) p + w (axis_is j) p).
  { intros p. unfold w, phase_at, part, fourier. rewrite <- !INR_IZR_INZ. destruct i, j; try contradiction; rewrite ?(Hb AX), ?(Hb AY), ?(Hb AZ) by discriminate; cbn [INR Nat.eqb axis_is orb]; rewrite !(proj2 (Nat.eqb_neq _ 0)) by lia; rewrite ?Rmult_0_l, ?Rplus_0_l, ?Rplus_0_r, Rmult_plus_distr_l, sin_plus, <- !Rmult_assoc; ring. }
  assert (Vc : forall p, component f 0 (snd p) * cos (phase_at (fun b => if axis_is j b then (- Z.of_nat (k b))%Z else Z.of_nat (k b)) (place s p)) = w (fun _ => false) p + w (fun x => axis_is i x || axis_is j x) p).
  { intros p. unfold w, phase_at, part, fourier. destruct i, j; try contradiction; cbn [axis_is]; rewrite ?opp_IZR, <- !INR_IZR_INZ; rewrite ?(Hb AX), ?(Hb AY), ?(Hb AZ) by discriminate; cbn [INR Nat.eqb axis_is orb]; rewrite !(proj2 (Nat.eqb_neq _ 0)) by lia; rewrite ?Rmult_0_l, ?Rplus_0_l, ?Rplus_0_r, Rmult_plus_distr_l, Ropp_mult_distr_l_reverse, Ropp_mult_distr_r_reverse, cos_plus, cos_neg, sin_neg, <- !Rmult_assoc; ring. }
  assert (Vs : forall p, component f 0 (snd p) * sin (phase_at (fun b => if axis_is j b then (- Z.of_nat (k b))%Z else Z.of_nat (k b)) (place s p)) = w (axis_is i) p + w (axis_is j) p * -1).
  { intros p. unfold w, phase_at, part, fourier. destruct i, j; try contradiction; cbn [axis_is]; rewrite ?opp_IZR, <- !INR_IZR_INZ; rewrite ?(Hb AX), ?(Hb AY), ?(Hb AZ) by discriminate; cbn [INR Nat.eqb axis_is orb]; rewrite !(proj2 (Nat.eqb_neq _ 0)) by lia; rewrite ?Rmult_0_l, ?Rplus_0_l, ?Rplus_0_r, Rmult_plus_distr_l, Ropp_mult_distr_l_reverse, Ropp_mult_distr_r_reverse, sin_plus, cos_neg, sin_neg, <- !Rmult_assoc; ring. }
  rewrite (Rsum_ext _ _ _ (fun p _ => Wc p)), (Rsum_ext _ _ _ (fun p _ => Ws p)), (Rsum_ext _ _ _ (fun p _ => Vc p)), (Rsum_ext _ _ _ (fun p _ => Vs p)). rewrite !Rsum_plus, !BondOrderProofs.Rsum_scaled. fold (w (fun _ => false)) (w (axis_is i)) (w (axis_is j)) (w (fun x => axis_is i x || axis_is j x)). split; ring.
Qed.
Lemma pronounced_other k f s j : pronounced k f s -> epsilon * epsilon <= amplitude2 f s (fun b => if axis_is j b then (- Z.of_nat (k b))%Z else Z.of_nat (k b)).
Proof. intros H. apply (pronounced_epsilon k f s _ H). intros b. destruct (axis_is j b); auto. Qed.
Lemma found2 k f s i j : number_of_values f = 1%nat -> ordered_axes i j -> (0 < k i)%nat -> (0 < k j)%nat -> (forall b, b <> i -> b <> j -> k b = 0%nat) -> found k f s (origin2 k (coefficient k f s) i j).
Proof.
  intros Hf Ho Hi Hj Hb. assert (N : i <> j) by (destruct i, j; try contradiction; discriminate). pose proof (fun r => modulation2 k f s r i j Hf Ho Hi Hj Hb) as M. destruct (amplitude_two k f s i j Hf Ho Hi Hj Hb) as [Am1 Am2]. unfold origin2.
  set (A := coefficient k f s (fun _ => false)) in *. set (B := coefficient k f s (axis_is j)) in *. set (C := coefficient k f s (axis_is i)) in *. set (D := coefficient k f s (fun x => axis_is i x || axis_is j x)) in *.
  assert (M' : forall r, modulation k f s r = plane A B C D (ang k r i) (ang k r j)) by (intros r; rewrite M; reflexivity). clear M. pose proof epsilon_pos as Ep.
  destruct (Rltb (A * A + B * B + C * C + D * D) (epsilon * epsilon)) eqn:L; [apply Rltb_true in L|clear L].
  - split; [intros b; destruct b; cbn; lra|]. split; [intros b _; destruct b; reflexivity|]. split.
    + intros r'. rewrite !M', tolerance_epsilon. apply plane_small, L.
    + intros H. exfalso. pose proof (pronounced_epsilon k f s _ H (fun b => or_introl eq_refl)) as H1. pose proof (pronounced_other k f s j H) as H2. rewrite Am1 in H1. rewrite Am2 in H2. lra.
  - cbv zeta. set (a := guardedAtan2 (C + B) (A - D)). set (b := guardedAtan2 (C - B) (A + D)). destruct (plane_range A B C D) as [R1 R2]. fold a b in R1, R2.
    destruct (phase_coordinate (k i) ((a + b) / 2) Hi R1) as (zi & Ei & Ii). destruct (phase_coordinate (k j) ((a - b) / 2) Hj R2) as (zj & Ej & Ij). set (o := vmake _).
    assert (Oi : vget o i = fmod1 ((a + b) / 2 / INR (k i) / 2 / PI + 1)) by (unfold o; rewrite vget_vmake; destruct (axis_is_spec i i); congruence).
    assert (Oj : vget o j = fmod1 ((a - b) / 2 / INR (k j) / 2 / PI + 1)) by (unfold o; rewrite vget_vmake; destruct (axis_is_spec i j); [congruence|]; destruct (axis_is_spec j j); congruence).
    assert (Ob : forall c, c <> i -> c <> j -> vget o c = 0) by (intros c N1 N2; unfold o; rewrite vget_vmake; destruct (axis_is_spec i c); [congruence|]; destruct (axis_is_spec j c); congruence).
    assert (Ai : ang k o i = (a + b) / 2 + 2 * PI * IZR zi) by (unfold ang; rewrite Oi; exact Ei). assert (Aj : ang k o j = (a - b) / 2 + 2 * PI * IZR zj) by (unfold ang; rewrite Oj; exact Ej).
    assert (Mo : modulation k f s o = plane A B C D ((a + b) / 2) ((a - b) / 2)) by (rewrite M', Ai, Aj; apply plane_whole).
    split; [|split; [|split]].
    + intros c. destruct (axis_is_spec i c) as [<- |N1]; [rewrite Oi; exact Ii|]. destruct (axis_is_spec j c) as [<- |N2]; [rewrite Oj; exact Ij|]. rewrite Ob by congruence. lra.
    + intros c Kc. apply Ob; intros ->; lia.
    + intros r'. rewrite Mo, M', tolerance_epsilon. apply plane_near.
    + intros H. pose proof (pronounced_epsilon k f s _ H (fun b => or_introl eq_refl)) as H1. pose proof (pronounced_other k f s j H) as H2. rewrite Am1 in H1. rewrite Am2 in H2.
      destruct (plane_exact A B C D H1 H2) as (r1 & r2 & P1 & P2 & E). fold a b in E.
      assert (Mo2 : 2 * modulation k f s o = r1 + r2) by (rewrite Mo, E, !Rminus_eq_0, ?Rplus_0_r, ?cos_0; ring).
      split; [intros r'; pose proof (E (ang k r' i) (ang k r' j)) as E'; rewrite <- M' in E'; pose proof (COS_bound (ang k r' i - (a + b) / 2 + (ang k r' j - (a - b) / 2))); pose proof (COS_bound (ang k r' i - (a + b) / 2 - (ang k r' j - (a - b) / 2))); nra|].
      intros r' H'. specialize (H' o). pose proof (E (ang k r' i) (ang k r' j)) as E'. rewrite <- M' in E'. pose proof (COS_bound (ang k r' i - (a + b) / 2 + (ang k r' j - (a - b) / 2))) as Cb1. pose proof (COS_bound (ang k r' i - (a + b) / 2 - (ang k r' j - (a - b) / 2))) as Cb2.
      assert (C1 : cos (ang k r' i - (a + b) / 2 + (ang k r' j - (a - b) / 2)) = 1) by (apply Rle_antisym; [lra|]; apply (Rmult_le_reg_l r1); [lra|]; nra). assert (C2 : cos (ang k r' i - (a + b) / 2 - (ang k r' j - (a - b) / 2)) = 1) by (apply Rle_antisym; [lra|]; apply (Rmult_le_reg_l r2); [lra|]; nra).
      apply cos_one in C1, C2. destruct C1 as [m C1], C2 as [n C2].
      exists (fun c => if axis_is i c then (m + n - 2 * zi)%Z else if axis_is j c then (m - n - 2 * zj)%Z else 0%Z). split; [intros c Kc; destruct (axis_is_spec i c); [subst; lia|]; destruct (axis_is_spec j c); [subst; lia|reflexivity]|]. split.
      * replace (_ + _ + _)%Z with (2 * (m - zi - zj))%Z by (destruct i, j; try contradiction; cbn [axis_is]; lia). apply Z.even_spec. eexists. reflexivity.
      * intros c Kc. pose proof PI_RGT_0 as PI0. destruct (axis_is_spec i c) as [<- |N1].
        -- apply (Rmult_eq_reg_l PI); [|lra]. rewrite minus_IZR, plus_IZR, mult_IZR. transitivity (ang k r' i - ang k o i); [unfold ang; ring|]. rewrite Ai. lra.
        -- destruct (axis_is_spec j c) as [<- |N2]; [|rewrite Hb in Kc by congruence; lia]. apply (Rmult_eq_reg_l PI); [|lra]. rewrite !minus_IZR, mult_IZR. transitivity (ang k r' j - ang k o j); [unfold ang; ring|]. rewrite Aj. lra.
Qed.
Definition flat (k : axis -> nat) : Prop := exists a, k a = 0%nat.
Lemma found_flat solve k f s : number_of_values f = 1%nat -> flat k -> (exists a, (0 < k a)%nat) -> exists o, calculateRelativeOriginPos solve k (coefficient k f s) = Some o /\ found k f s o.
Proof.
  intros Hf [z Hz] [p Hp]. unfold calculateRelativeOriginPos, nonzero. cbn [axes filter].
  destruct (0 <? k AX)%nat eqn:X; destruct (0 <? k AY)%nat eqn:Y; destruct (0 <? k AZ)%nat eqn:Z; repeat match goal with H : (0 <? _)%nat = true |- _ => apply Nat.ltb_lt in H | H : (0 <? _)%nat = false |- _ => apply Nat.ltb_ge in H end;
    try (exfalso; destruct z; lia); try (exfalso; destruct p; lia); (eexists; split; [reflexivity|]).
  all: first [apply found2; [exact Hf|exact Logic.I|assumption|assumption|intros [] ? ?; congruence || lia]|apply found1; [exact Hf|assumption|intros [] ?; congruence || lia]].
Qed.
(** Histories of calls. *)
Lemma followed_step k f s previous o : found k f s o -> (forall a, k a = 0%nat -> vget previous a = 0) -> let b := normalizeOriginPos k previous o in
  in_unit b /\ (forall a, k a = 0%nat -> vget b a = 0) /\ near_maximum (2 / 10 ^ 8) k f s b /\ (pronounced k f s -> is_maximum k f s b /\ nearest k f s previous b).
Proof.
  intros (Iu & Z0 & Nm & Pr) Hp b. destruct (normalized k previous o Iu) as (Ib & Rb & Zb & l & Wl & Near). fold b in Ib, Rb, Zb, Near. pose proof (related_modulation k f s o b Rb) as Mb.
  split; [exact Ib|]. split; [intros a Ka; rewrite Zb by exact Ka; apply Z0, Ka|]. split; [intros r; rewrite Mb; apply Nm|]. intros P. destruct (Pr P) as [Mx All]. split; [intros r; rewrite Mb; apply Mx|]. exists l. split; [exact Wl|]. intros r Hr.
  set (r0 := vmake (fun a => if (k a =? 0)%nat then 0 else vget r a)). eapply Rle_trans.
  - apply (Near r0).
    + destruct (All r Hr) as (u & U0 & Ue & U). exists u. split; [exact U0|]. split; [exact Ue|]. intros a Ka. unfold r0. rewrite vget_vmake, (proj2 (Nat.eqb_neq _ 0)) by lia. apply U, Ka.
    + intros a Ka. unfold r0. rewrite vget_vmake, Ka. cbn [Nat.eqb]. symmetry. apply Z0, Ka.
  - assert (Ax : forall a, (vget r0 a - vget previous a) * (vget r0 a - vget previous a) <= (vget r a - vget previous a) * (vget r a - vget previous a)).
    { intros a. unfold r0. rewrite vget_vmake. destruct (k a =? 0)%nat eqn:E; [|lra]. apply Nat.eqb_eq in E. rewrite (Hp a E). nra. }
    pose proof (Ax AX) as A1. pose proof (Ax AY) as A2. pose proof (Ax AZ) as A3. unfold vnorm2, vdot, vsub. cbn [vget vx vy vz] in *. lra.
Qed.
Lemma track_followed solve k f calls : number_of_values f = 1%nat -> flat k -> (exists a, (0 < k a)%nat) -> forall previous, (forall a, k a = 0%nat -> vget previous a = 0) ->
  exists outs, track solve calls (Tracker k f previous) = Some outs /\ followed (best_origin k f) previous calls outs.
Proof.
  intros Hf Hk Hp. induction calls as [|c calls IH]; intros previous P0.
  - exists []. split; [reflexivity|constructor].
  - destruct c as [s|]; cbn [track].
    + unfold calculateOrigin. cbn [tk_k tk_function tk_previous]. destruct (found_flat solve k f s Hf Hk Hp) as (o & -> & Fo). destruct (followed_step k f s previous o Fo P0) as (S1 & S2 & S3 & S4). cbv zeta. destruct (IH _ S2) as (outs & -> & F). eexists. split; [reflexivity|]. constructor; [exact S1| |exact F]. split; [split; [exact S3|apply normalized_copy, Fo]|exact S4].
    + destruct (IH vzero) as (outs & E & F); [intros a _; destruct a; reflexivity|]. exists outs. split; [exact E|constructor; exact F].
Qed.
Lemma tracker_create_spec k f : tracker_create k f = if (existsb (fun a => (0 <? k a)%nat) axes && (number_of_values f =? 1)%nat)%bool then Some (Tracker k f vzero) else None.
Proof.
  unfold tracker_create, nonzero. assert (L : length (calculate_values f mid) = number_of_values f) by (destruct f; reflexivity || idtac).
  rewrite L. cbn [axes filter existsb]. destruct (0 <? k AX)%nat, (0 <? k AY)%nat, (0 <? k AZ)%nat; reflexivity.
Qed.
