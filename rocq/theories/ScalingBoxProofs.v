From Coq Require Import ZArith Reals List Bool Permutation Lra Lia.
From Verif Require Import OptModel TextModel GeomModel GeomProofs BoxModel BoxSpec BoxProofs ScalingModel ScalingSpec ScalingProofs.
Import ListNotations.
Local Open Scope R_scope.

Definition disjoint (d : direction) : Prop := forall i j m n a, nth_error d i = Some m -> nth_error d j = Some n ->
  mask_get m a = true -> mask_get n a = true -> i = j.
Lemma disjoint_tail m d : disjoint (m :: d) -> disjoint d.
Proof. intros D i j p q a P Q H K. assert (S i = S j) by (apply (D (S i) (S j) p q a); assumption). congruence. Qed.

Lemma nodup_groups (gs : list (list axis)) : NoDup (concat gs) -> disjoint (map mask_of gs).
Proof.
  induction gs as [|g gs IH]; cbn [concat map]; intros N.
  - intros i j m n a H. destruct i; discriminate.
  - assert (N2 : NoDup (concat gs)) by (clear - N; induction g; [exact N|inversion N; auto]).
    assert (X : forall a k m, In a g -> nth_error (map mask_of gs) k = Some m -> mask_get m a = true -> False).
    { intros a k m I E G. apply nth_error_In in E. apply in_map_iff in E as (h&<-&E). apply mask_of_spec in G.
      assert (J : In a (concat gs)) by (apply in_concat; exists h; tauto). clear - N I J.
      induction g as [|c g IHg]; [contradiction|]. cbn in N. inversion N as [|? ? N1 N2]; subst. destruct I as [->|I]; [|exact (IHg N2 I)].
      apply N1, in_app_iff. right; exact J. }
    intros i j m n a P Q G H. destruct i as [|i], j as [|j]; cbn [nth_error] in *.
    + reflexivity.
    + injection P as <-. apply mask_of_spec in G. destruct (X _ _ _ G Q H).
    + injection Q as <-. apply mask_of_spec in H. destruct (X _ _ _ H P G).
    + f_equal. exact (IH N2 i j m n a P Q G H).
Qed.
Lemma scaling_disjoint s d : scalingDirection s = Some d -> disjoint d.
Proof.
  intros H. apply scaling_direction_iff in H as [(gs&I&F)|(ps&_&P&F)]; apply consists_groups in F; subst d; apply nodup_groups.
  - cbn in I. repeat destruct I as [I|I]; try contradiction; injection I as _ <-; cbn; repeat constructor; cbn; intuition congruence.
  - assert (N : NoDup (all_axes ps)).
    { eapply Permutation_NoDup; [symmetry; exact P|]. repeat constructor; cbn; intuition congruence. }
    clear P. assert (E : forall p, concat (scaled p) = axes p \/ concat (scaled p) = []).
    { intros [a|[|a l]|l]; cbn; [left; reflexivity|left; reflexivity|left; f_equal; apply app_nil_r|right; reflexivity]. }
    assert (Sub : forall a, In a (concat (groups ps)) -> In a (all_axes ps)).
    { intros a I. apply in_concat in I as (g&I&J). apply in_flat_map in I as (p&I&K). apply scaled_axes in K as [_ ->]. apply in_flat_map. exists p. tauto. }
    clear Sub. induction ps as [|p ps IH]; [constructor|]. cbn [groups all_axes flat_map] in *. fold (groups ps) (all_axes ps) in *.
    rewrite concat_app. assert (N2 : NoDup (all_axes ps)) by (clear - N; induction (axes p); [exact N|inversion N; auto]).
    destruct (E p) as [-> | ->]; [|apply IH, N2].
    assert (Sub : forall a, In a (concat (groups ps)) -> In a (all_axes ps)).
    { intros a I. apply in_concat in I as (g&I&J). apply in_flat_map in I as (q&I&K). apply scaled_axes in K as [_ ->]. apply in_flat_map. exists q. tauto. }
    specialize (IH N2). clear - N IH Sub. induction (axes p) as [|c l IHl]; [exact IH|]. cbn in *. inversion N as [|? ? N1 N3]; subst.
    constructor; [|exact (IHl N3)]. intros I. apply N1. apply in_app_iff in I as [I|I]; apply in_app_iff; [left; exact I|right; apply Sub, I].
Qed.

(** A sampler in which a side depends only on its own height and the step. *)
Section Law.
Variable sampler : factor_sampler.
Variable law : R -> R -> R.
Hypothesis sampled : forall m h u f, sampler m h u = Some f -> forall a, vget f a = if mask_get m a then law (vget h a) u else 1.

Lemma vget_vmul v w a : vget (vmul v w) a = vget v a * vget w a.
Proof. destruct a; reflexivity. Qed.
Lemma sample_all_absent d : forall h acc k steps f a, sample_all sampler d h acc k steps = Some f -> (forall m, In m d -> mask_get m a = false) ->
  vget f a = vget acc a.
Proof.
  induction d as [|m d IH]; intros h acc k steps f a H F; cbn [sample_all] in H; [congruence|].
  destruct (sampler m h (steps k)) as [g|] eqn:G; cbn [obind] in H; [|discriminate].
  rewrite (IH _ _ _ _ _ a H) by (intros n I; apply F; right; exact I). rewrite vget_vmul, (sampled _ _ _ _ G), F by (left; reflexivity). ring.
Qed.
Lemma sample_all_present d : forall h acc k steps f a i m, disjoint d -> sample_all sampler d h acc k steps = Some f ->
  nth_error d i = Some m -> mask_get m a = true -> vget f a = vget acc a * law (vget h a) (steps (k + i)%nat).
Proof.
  induction d as [|n d IH]; intros h acc k steps f a i m D H E G; [destruct i; discriminate|]. cbn [sample_all] in H.
  destruct (sampler n h (steps k)) as [g|] eqn:S; cbn [obind] in H; [|discriminate]. destruct i as [|i]; cbn [nth_error] in E.
  - injection E as <-. rewrite (sample_all_absent _ _ _ _ _ _ a H), vget_vmul, (sampled _ _ _ _ S), G, Nat.add_0_r; [reflexivity|].
    intros p I. apply In_nth_error in I as [j I]. destruct (mask_get p a) eqn:P; [|reflexivity]. exfalso.
    discriminate (D 0%nat (Datatypes.S j) n p a eq_refl I G P).
  - rewrite (IH _ _ _ _ _ a i m (disjoint_tail _ _ D) H E G), vget_vmul, (sampled _ _ _ _ S), Nat.add_succ_r.
    destruct (mask_get n a) eqn:P; [discriminate (D 0%nat (Datatypes.S i) n m a eq_refl E P G)|]. cbn [Nat.add]. ring.
Qed.
Lemma sample_factors d ind h choice steps f : disjoint d -> sampleScalingFactors (Anisotropic sampler d ind) h choice steps = Some f ->
  forall a, (forall u, stepped d ind choice steps a u -> vget f a = law (vget h a) u) /\
            ((forall u, ~ stepped d ind choice steps a u) -> vget f a = 1).
Proof.
  intros D H a. unfold sampleScalingFactors in H. unfold stepped. cbn [an_independent an_direction an_sampler] in H.
  destruct (ind && Nat.ltb 1 (length d)).
  - destruct (nth_error d choice) as [m|] eqn:N; cbn [obind] in H; [|discriminate]. rewrite (sampled _ _ _ _ H). split.
    + intros u (m'&E&G& ->). injection E as <-. rewrite G. reflexivity.
    + intros F. destruct (mask_get m a) eqn:G; [|reflexivity]. exfalso. apply (F (steps 0%nat)). exists m. auto.
  - split.
    + intros u (k&m&E&G& ->). rewrite (sample_all_present _ _ _ _ _ _ a k m D H E G). cbn [Nat.add]. destruct a; cbn [vget vx vy vz]; ring.
    + intros F. rewrite (sample_all_absent _ _ _ _ _ _ a H); [destruct a; reflexivity|].
      intros m I. apply In_nth_error in I as [k I]. destruct (mask_get m a) eqn:G; [|reflexivity]. exfalso. apply (F (steps k)). exists k, m. auto.
Qed.
(** When the sampler succeeds. *)
Hypothesis success : forall m h u, (forall a, mask_get m a = true -> 0 < law (vget h a) u) <-> sampler m h u <> None.
Lemma sample_all_success d : forall h acc k steps,
  (forall i m a, nth_error d i = Some m -> mask_get m a = true -> 0 < law (vget h a) (steps (k + i)%nat)) <-> sample_all sampler d h acc k steps <> None.
Proof.
  induction d as [|n d IH]; intros h acc k steps; cbn [sample_all].
  - split; [congruence|]. intros _ i m a E. destruct i; discriminate.
  - split.
    + intros F. assert (S : sampler n h (steps k) <> None).
      { apply success. intros a G. specialize (F 0%nat n a eq_refl G). rewrite Nat.add_0_r in F. exact F. }
      destruct (sampler n h (steps k)) as [g|]; [|congruence]. cbn [obind]. apply IH. intros i m a E G.
      specialize (F (Datatypes.S i) m a E G). rewrite Nat.add_succ_r in F. exact F.
    + intros H i m a E G. destruct (sampler n h (steps k)) as [g|] eqn:S; cbn [obind] in H; [|congruence]. destruct i as [|i]; cbn [nth_error] in E.
      * injection E as <-. rewrite Nat.add_0_r. apply (proj2 (success n h (steps k))); [congruence|exact G].
      * rewrite Nat.add_succ_r. exact (proj2 (IH h _ (Datatypes.S k) steps) H i m a E G).
Qed.
Lemma sample_success d ind h choice steps : chosen d choice ->
  ((forall a u, stepped d ind choice steps a u -> 0 < law (vget h a) u) <-> sampleScalingFactors (Anisotropic sampler d ind) h choice steps <> None).
Proof.
  intros C. unfold sampleScalingFactors, stepped. cbn [an_independent an_direction an_sampler]. destruct (ind && Nat.ltb 1 (length d)).
  - destruct (nth_error d choice) as [m|] eqn:N; cbn [obind].
    + rewrite <- success. split.
      * intros F a G. apply F. exists m. auto.
      * intros F a u (m'&E&G& ->). injection E as <-. apply F, G.
    + apply nth_error_None in N. unfold chosen in C. lia.
  - rewrite <- sample_all_success. split.
    + intros F i m a E G. apply F. exists i, m. auto.
    + intros F a u (k&m&E&G& ->). apply (F k m a E G).
Qed.

Lemma stepped_dec d ind choice steps a : (exists u, stepped d ind choice steps a u) \/ (forall u, ~ stepped d ind choice steps a u).
Proof.
  unfold stepped. destruct (ind && Nat.ltb 1 (length d)).
  - destruct (nth_error d choice) as [m|] eqn:N; [|right; intros u (m&E&_); congruence]. destruct (mask_get m a) eqn:G.
    + left. exists (steps 0%nat), m. auto.
    + right. intros u (m'&E&G'&_). congruence.
  - destruct (existsb (fun m => mask_get m a) d) eqn:E.
    + left. apply existsb_exists in E as (m&I&G). apply In_nth_error in I as [k I]. exists (steps k), k, m. auto.
    + right. intros u (k&m&N&G&_). apply nth_error_In in N. assert (existsb (fun m => mask_get m a) d = true) by (apply existsb_exists; eauto). congruence.
Qed.

(** The move of the box. *)
Lemma move_box s d ind choice steps b : constructed b -> scalingDirection s = Some d -> chosen d choice ->
  (forall a u, stepped d ind choice steps a u -> 0 < law (box_height b a) u) ->
  exists b', anisotropic_move sampler s ind choice steps b = Some b' /\ constructed b' /\
    forall a, (forall u, stepped d ind choice steps a u ->
                 box_side b' a = vscale (law (box_height b a) u) (box_side b a) /\ box_height b' a = law (box_height b a) u * box_height b a) /\
              ((forall u, ~ stepped d ind choice steps a u) -> box_side b' a = box_side b a /\ box_height b' a = box_height b a).
Proof.
  intros CB S C P. unfold anisotropic_move. rewrite S. unfold make_anisotropic. destruct d as [|m0 d0] eqn:D; [unfold chosen in C; cbn in C; lia|].
  rewrite <- D in *. clear D m0 d0. pose proof (scaling_disjoint _ _ S) as DJ. unfold adapter_update.
  assert (HH : forall a, vget (heights b) a = box_height b a) by (intros []; reflexivity).
  assert (SS : sampleScalingFactors (Anisotropic sampler d ind) (heights b) choice steps <> None).
  { apply sample_success; [exact C|]. intros a u H. rewrite HH. apply P, H. }
  destruct (sampleScalingFactors _ (heights b) choice steps) as [f|] eqn:F; [|congruence]. cbn [obind].
  pose proof (sample_factors _ _ _ _ _ _ DJ F) as FA.
  assert (FP : forall a, 0 < vget f a).
  { intros a. destruct (FA a) as [F1 F2]. destruct (stepped_dec d ind choice steps a) as [[u H]|H]; [|rewrite (F2 H); lra].
    rewrite (F1 u H), HH. apply P, H. }
  destruct (scale_sides_props b f CB (FP AX) (FP AY) (FP AZ)) as (b'&E&CB'&_&SI&HE).
  exists b'. split; [exact E|]. split; [exact CB'|]. intros a. destruct (FA a) as [F1 F2]. split.
  - intros u H. rewrite SI, HE, (F1 u H), HH. split; reflexivity.
  - intros H. rewrite SI, HE, (F2 H). split; [|ring]. destruct (box_side b a). unfold vscale; cbn. f_equal; ring.
Qed.
Lemma move_fails s d ind choice steps b : scalingDirection s = Some d -> chosen d choice ->
  (exists a u, stepped d ind choice steps a u /\ law (box_height b a) u <= 0) -> anisotropic_move sampler s ind choice steps b = None.
Proof.
  intros S C (a&u&H&N). unfold anisotropic_move. rewrite S. unfold make_anisotropic. destruct d as [|m0 d0] eqn:D; [reflexivity|].
  rewrite <- D in *. clear D m0 d0. unfold adapter_update.
  destruct (sampleScalingFactors (Anisotropic sampler d ind) (heights b) choice steps) as [f|] eqn:F; [|reflexivity].
  exfalso. assert (SS : sampleScalingFactors (Anisotropic sampler d ind) (heights b) choice steps <> None) by congruence.
  pose proof (proj2 (sample_success d ind (heights b) choice steps C) SS a u H) as SP. destruct a; cbn in SP; lra.
Qed.
End Law.

Lemma log_sampled m h u f : log_sampler m h u = Some f -> forall a, vget f a = if mask_get m a then exp u else 1.
Proof. unfold log_sampler. intros [= <-] a. destruct a; reflexivity. Qed.
Lemma log_success m h u : (forall a, mask_get m a = true -> 0 < (fun _ v => exp v) (vget h a) u) <-> log_sampler m h u <> None.
Proof. split; [discriminate|]. intros _ a _. apply exp_pos. Qed.
Definition linear_law (h u : R) : R := (h + u) / h.
Lemma linear_sampled m h u f : linear_sampler m h u = Some f -> forall a, vget f a = if mask_get m a then linear_law (vget h a) u else 1.
Proof. unfold linear_sampler. destruct (Rltb _ _ && _ && _); [|discriminate]. intros [= <-] a. destruct a; reflexivity. Qed.
Lemma Rltb_iff x y : Rltb x y = true <-> x < y.
Proof. unfold Rltb. destruct (Rlt_dec x y); split; congruence. Qed.
Lemma linear_success m h u : (forall a, mask_get m a = true -> 0 < linear_law (vget h a) u) <-> linear_sampler m h u <> None.
Proof.
  unfold linear_sampler.
  set (f := fun a => if mask_get m a then linear_law (vget h a) u else 1).
  assert (A : (forall a, mask_get m a = true -> 0 < linear_law (vget h a) u) <-> (forall a, 0 < f a)).
  { split; intros F a; specialize (F a); unfold f in *; destruct (mask_get m a); try lra; auto. }
  rewrite A. fold (linear_law (vget h AX) u) (linear_law (vget h AY) u) (linear_law (vget h AZ) u).
  change (forall a, 0 < f a) with (forall a, 0 < f a). fold (f AX) (f AY) (f AZ).
  destruct (Rltb 0 (f AX) && Rltb 0 (f AY) && Rltb 0 (f AZ)) eqn:E.
  - split; [discriminate|]. intros _. apply andb_true_iff in E as [E E3]. apply andb_true_iff in E as [E1 E2].
    rewrite Rltb_iff in *. intros []; assumption.
  - split; [|congruence]. intros F. exfalso. rewrite !(proj2 (Rltb_iff _ _)) in E by apply F. discriminate.
Qed.

Lemma log_box s d ind choice steps b : constructed b -> scalingDirection s = Some d -> chosen d choice ->
  exists b', anisotropic_move log_sampler s ind choice steps b = Some b' /\ constructed b' /\
    forall a, (forall u, stepped d ind choice steps a u -> box_side b' a = vscale (exp u) (box_side b a) /\ box_height b' a = exp u * box_height b a) /\
              ((forall u, ~ stepped d ind choice steps a u) -> box_side b' a = box_side b a /\ box_height b' a = box_height b a).
Proof.
  intros CB S C. exact (move_box log_sampler (fun _ v => exp v) log_sampled log_success s d ind choice steps b CB S C (fun a u _ => exp_pos u)).
Qed.
Lemma linear_box s d ind choice steps b : constructed b -> scalingDirection s = Some d -> chosen d choice ->
  (forall a u, stepped d ind choice steps a u -> 0 < box_height b a + u) ->
  exists b', anisotropic_move linear_sampler s ind choice steps b = Some b' /\ constructed b' /\
    forall a, (forall u, stepped d ind choice steps a u ->
                 box_side b' a = vscale (1 + u / box_height b a) (box_side b a) /\ box_height b' a = box_height b a + u) /\
              ((forall u, ~ stepped d ind choice steps a u) -> box_side b' a = box_side b a /\ box_height b' a = box_height b a).
Proof.
  intros CB S C P. assert (HP : forall a, 0 < box_height b a) by (intros a; apply height_pos, constructed_valid, CB).
  destruct (move_box linear_sampler linear_law linear_sampled linear_success s d ind choice steps b CB S C) as (b'&E&CB'&F).
  { intros a u H. unfold linear_law. apply Rdiv_lt_0_compat; [apply P, H|apply HP]. }
  exists b'. split; [exact E|]. split; [exact CB'|]. intros a. destruct (F a) as [F1 F2]. split; [|exact F2].
  intros u H. destruct (F1 u H) as [G1 G2]. specialize (HP a). unfold linear_law in *. split.
  - rewrite G1. f_equal. field. lra.
  - rewrite G2. field. lra.
Qed.
Lemma linear_fails s d ind choice steps b : constructed b -> scalingDirection s = Some d -> chosen d choice ->
  (exists a u, stepped d ind choice steps a u /\ box_height b a + u <= 0) -> anisotropic_move linear_sampler s ind choice steps b = None.
Proof.
  intros CB S C (a&u&H&N). apply (move_fails linear_sampler linear_law linear_success s d ind choice steps b S C). exists a, u. split; [exact H|].
  assert (HP : 0 < box_height b a) by (apply height_pos, constructed_valid, CB). unfold linear_law.
  unfold Rdiv. apply Rinv_0_lt_compat in HP. nra.
Qed.

(** delta_v *)
Lemma Rpower_cube x : 0 < x -> Rpower x (/ 3) * Rpower x (/ 3) * Rpower x (/ 3) = x.
Proof. intros H. rewrite <- !Rpower_plus. replace (/ 3 + / 3 + / 3) with 1 by field. apply Rpower_1, H. Qed.
Lemma real_cbrt_cube x : real_cbrt x * real_cbrt x * real_cbrt x = x.
Proof.
  unfold real_cbrt. destruct (Rltb 0 x) eqn:E.
  - apply Rpower_cube, Rltb_iff, E.
  - destruct (Rltb x 0) eqn:F.
    + apply Rltb_iff in F. assert (P : 0 < - x) by lra. pose proof (Rpower_cube _ P). lra.
    + assert (~ 0 < x) by (intros H; apply Rltb_iff in H; congruence). assert (~ x < 0) by (intros H'; apply Rltb_iff in H'; congruence). lra.
Qed.
Lemma real_cbrt_pos x : 0 < x -> 0 < real_cbrt x.
Proof. intros H. unfold real_cbrt. rewrite (proj2 (Rltb_iff _ _) H). apply exp_pos. Qed.
Lemma real_cbrt_neg x : x < 0 -> real_cbrt x < 0.
Proof.
  intros H. unfold real_cbrt. destruct (Rltb 0 x) eqn:E; [apply Rltb_iff in E; lra|]. rewrite (proj2 (Rltb_iff _ _) H).
  pose proof (exp_pos (/ 3 * ln (- x))). unfold Rpower. lra.
Qed.
Definition height_product (b : box) : R := box_height b AX * box_height b AY * box_height b AZ.
Lemma height_product_pos b : constructed b -> 0 < height_product b.
Proof. intros C. unfold height_product. apply constructed_valid in C. pose proof (height_pos b AX C). pose proof (height_pos b AY C). pose proof (height_pos b AZ C). apply Rmult_lt_0_compat; [apply Rmult_lt_0_compat; assumption|assumption]. Qed.
Lemma delta_general deltaV b : constructed b -> height_product b + deltaV <> 0 ->
  exists b' f, delta_move deltaV b = Some b' /\ constructed b' /\ f * f * f = (height_product b + deltaV) / height_product b /\
    (0 < height_product b + deltaV -> 0 < f) /\ (height_product b + deltaV < 0 -> f < 0) /\
    (forall a, box_side b' a = vscale f (box_side b a)) /\ box_volume b' = box_volume b * Rabs (height_product b + deltaV) / height_product b.
Proof.
  intros C N. pose proof (height_product_pos b C) as P.
  set (q := (deltaV + height_product b) / height_product b).
  assert (Q3 : real_cbrt q * real_cbrt q * real_cbrt q = q) by apply real_cbrt_cube.
  assert (QN : q <> 0). { unfold q. intros E. apply N. apply (f_equal (fun x => x * height_product b)) in E. field_simplify in E; lra. }
  assert (FN : real_cbrt q <> 0) by (intros E; rewrite E in Q3; apply QN; rewrite <- Q3; ring).
  destruct (box_scale_sides_spec b (V3 (real_cbrt q) (real_cbrt q) (real_cbrt q)) (proj1 (constructed_valid b) C) FN FN FN) as (b'&E&V&VO&SI&_).
  cbn [vx vy vz] in VO. exists b', (real_cbrt q). split; [exact E|]. split; [apply constructed_valid, V|].
  split; [rewrite Q3; unfold q; f_equal; ring|]. split; [|split; [|split]].
  - intros H. apply real_cbrt_pos. unfold q. apply Rdiv_lt_0_compat; lra.
  - intros H. apply real_cbrt_neg. unfold q, Rdiv. apply Rinv_0_lt_compat in P. nra.
  - intros a. rewrite SI. destruct a; reflexivity.
  - rewrite VO, Q3. unfold q, Rdiv. rewrite Rabs_mult, (Rabs_pos_eq (/ height_product b)) by (left; apply Rinv_0_lt_compat, P).
    rewrite (Rplus_comm deltaV). ring.
Qed.
Lemma orthogonal_volume b : constructed b -> is_orthogonal b -> height_product b = box_volume b.
Proof.
  intros C (O1&O2&O3). apply constructed_valid in C. pose proof (volume_pos b C) as VP.
  assert (NN : forall v w, vdot v w = 0 -> vnorm (vcross v w) = vnorm v * vnorm w).
  { intros v w O. unfold vnorm. rewrite <- sqrt_mult by apply vnorm2_nonneg. f_equal. pose proof (lagrange v w) as L. unfold Rsqr in L. rewrite O in L. lra. }
  assert (V3 : box_volume b = vnorm (box_side b AX) * vnorm (box_side b AY) * vnorm (box_side b AZ)).
  { assert (S2 : Rsqr (box_volume b) = vnorm2 (box_side b AX) * vnorm2 (box_side b AY) * vnorm2 (box_side b AZ)).
    { unfold box_volume. rewrite <- Rsqr_abs. unfold Rsqr.
      set (x := box_side b AX) in *. set (y := box_side b AY) in *. set (z := box_side b AZ) in *. clearbody x y z.
      assert (Gram : vdot x (vcross y z) * vdot x (vcross y z) =
        vnorm2 x * vnorm2 y * vnorm2 z + 2 * vdot x y * vdot y z * vdot z x - vnorm2 x * (vdot y z * vdot y z) - vnorm2 y * (vdot z x * vdot z x) - vnorm2 z * (vdot x y * vdot x y)).
      { destruct x, y, z. unfold vnorm2, vdot, vcross; cbn. ring. }
      first [ rewrite Gram, O1, O2, O3; ring
            | replace (vdot (vcross x y) z) with (vdot x (vcross y z)) by (destruct x, y, z; unfold vdot, vcross; cbn; ring); rewrite Gram, O1, O2, O3; ring
            | replace (vdot z (vcross x y)) with (vdot x (vcross y z)) by (destruct x, y, z; unfold vdot, vcross; cbn; ring); rewrite Gram, O1, O2, O3; ring ]. }
    apply Rsqr_inj; [lra| |].
    - repeat apply Rmult_le_pos; apply sqrt_pos.
    - rewrite S2, !Rsqr_mult. unfold vnorm. rewrite !Rsqr_sqrt by apply vnorm2_nonneg. reflexivity. }
  unfold height_product, box_height, box_face. rewrite (NN _ _ O1), (NN _ _ O2), (NN _ _ O3).
  set (x := vnorm (box_side b AX)) in *. set (y := vnorm (box_side b AY)) in *. set (z := vnorm (box_side b AZ)) in *.
  assert (x <> 0 /\ y <> 0 /\ z <> 0) as (X&Y&Z).
  { repeat split; intros E; rewrite E in V3; rewrite ?Rmult_0_l, ?Rmult_0_r, ?Rmult_0_l in V3; lra. }
  clearbody x y z. rewrite V3. field. tauto.
Qed.
Lemma delta_orthogonal deltaV b : constructed b -> is_orthogonal b -> 0 < box_volume b + deltaV ->
  exists b' f, delta_move deltaV b = Some b' /\ constructed b' /\ 0 < f /\ (forall a, box_side b' a = vscale f (box_side b a)) /\ box_volume b' = box_volume b + deltaV.
Proof.
  intros C O P. pose proof (orthogonal_volume b C O) as E. pose proof (height_product_pos b C) as HP.
  destruct (delta_general deltaV b C) as (b'&f&M&C'&_&F&_&S&V); [lra|]. exists b', f. split; [exact M|]. split; [exact C'|].
  split; [apply F; lra|]. split; [exact S|]. rewrite V, E, Rabs_pos_eq by lra. field. lra.
Qed.
Lemma delta_reflected deltaV b : constructed b -> is_orthogonal b -> box_volume b + deltaV < 0 ->
  exists b' f, delta_move deltaV b = Some b' /\ f < 0 /\ (forall a, box_side b' a = vscale f (box_side b a)) /\ box_volume b' = - (box_volume b + deltaV).
Proof.
  intros C O P. pose proof (orthogonal_volume b C O) as E. pose proof (height_product_pos b C) as HP.
  destruct (delta_general deltaV b C) as (b'&f&M&C'&_&_&F&S&V); [lra|]. exists b', f. split; [exact M|].
  split; [apply F; lra|]. split; [exact S|]. rewrite V, E, Rabs_left by lra. field. lra.
Qed.
(** delta_triclinic *)
Lemma triclinic_sides together choice steps b b' : triclinic_update together choice steps b = Some b' ->
  constructed b' /\ forall a, (together = true \/ a = choice -> box_side b' a = vadd (box_side b a) (V3 (steps AX a) (steps AY a) (steps AZ a))) /\
                              (together = false /\ a <> choice -> box_side b' a = box_side b a).
Proof.
  unfold triclinic_update. set (m := mmake _). intros H. assert (V : valid_box b' /\ dims b' = m).
  { unfold box_of_matrix in H. destruct (minverse m) as [i|] eqn:I; [|discriminate]. injection H as <-. split; [exact I|reflexivity]. }
  destruct V as [V D]. split; [apply constructed_valid, V|]. intros a. rewrite !side_col, D. unfold m. clear.
  split; intros Q; destruct together, a, choice; try (destruct Q; congruence); cbn; unfold mcol, vadd, vmake; cbn; f_equal; ring.
Qed.
Lemma triclinic_fails together choice steps b :
  let moved a := if together || (if axis_dec a choice then true else false) then vadd (box_side b a) (V3 (steps AX a) (steps AY a) (steps AZ a)) else box_side b a in
  triclinic_update together choice steps b = None <-> vdot (moved AX) (vcross (moved AY) (moved AZ)) = 0.
Proof.
  intros moved. unfold triclinic_update. set (m := mmake _).
  assert (D : mdet m = vdot (moved AX) (vcross (moved AY) (moved AZ))).
  { unfold moved. rewrite !side_col. unfold m, mdet, vdot, vcross, vadd, mcol, vmake. destruct together, choice; cbn; ring. }
  rewrite <- D. unfold box_of_matrix. split.
  - intros H. destruct (Req_dec (mdet m) 0) as [E|E]; [exact E|]. destruct (minverse_det m E) as [i I]. rewrite I in H. discriminate.
  - intros E. destruct (minverse m) as [i|] eqn:I; [|reflexivity]. exfalso.
    assert (V : valid_box (Box m i)) by exact I. exact (valid_det _ V E).
Qed.
(** Witnesses. *)
Lemma box_exists s0 s1 s2 : vdot s0 (vcross s1 s2) <> 0 -> exists b, box_of_sides s0 s1 s2 = Some b.
Proof.
  intros N. unfold box_of_sides, box_of_matrix.
  destruct (minverse_det (matrix_of_sides s0 s1 s2)) as [i I].
  - intros E. apply N. rewrite <- E. unfold mdet, matrix_of_sides, vdot, vcross; cbn; ring.
  - rewrite I. eauto.
Qed.
Lemma sheared_box : exists b, constructed b /\ box_volume b = 1 /\ height_product b = / sqrt 2.
Proof.
  destruct (box_exists (V3 1 0 0) (V3 1 1 0) (V3 0 0 1)) as [b E]; [unfold vdot, vcross; cbn; lra|]. exists b.
  destruct (box_sides_given _ _ _ _ E) as (S0&S1&S2).
  assert (V : box_volume b = 1). { unfold box_volume. rewrite S0, S1, S2. unfold vdot, vcross; cbn. transitivity (Rabs 1); [f_equal; ring|apply Rabs_R1]. }
  split; [exists (V3 1 0 0), (V3 1 1 0), (V3 0 0 1); exact E|]. split; [exact V|].
  unfold height_product, box_height, box_face. rewrite V, S0, S1, S2.
  assert (N1 : vnorm (vcross (V3 1 1 0) (V3 0 0 1)) = sqrt 2) by (unfold vnorm, vnorm2, vdot, vcross; cbn; f_equal; ring).
  assert (N2 : vnorm (vcross (V3 0 0 1) (V3 1 0 0)) = 1) by (unfold vnorm, vnorm2, vdot, vcross; cbn; transitivity (sqrt 1); [f_equal; ring|apply sqrt_1]).
  assert (N3 : vnorm (vcross (V3 1 0 0) (V3 1 1 0)) = 1) by (unfold vnorm, vnorm2, vdot, vcross; cbn; transitivity (sqrt 1); [f_equal; ring|apply sqrt_1]).
  rewrite N1, N2, N3. assert (0 < sqrt 2) by (apply sqrt_lt_R0; lra). field. lra.
Qed.
Lemma delta_triclinic_refuted : exists b deltaV b', constructed b /\ 0 < box_volume b + deltaV /\ delta_move deltaV b = Some b' /\ box_volume b' <> box_volume b + deltaV.
Proof.
  destruct sheared_box as (b&C&V&P). assert (S0 : 0 < sqrt 2) by (apply sqrt_lt_R0; lra).
  pose proof (Rinv_0_lt_compat _ S0) as S1.
  destruct (delta_general 1 b C) as (b'&f&M&C'&_&_&_&_&VO); [rewrite P; lra|]. exists b, 1, b'.
  split; [exact C|]. split; [lra|]. split; [exact M|]. rewrite VO, V, P, Rabs_pos_eq by lra.
  intros E. assert (sqrt 2 = 1) as E2. { field_simplify in E; lra. }
  apply (f_equal (fun x => x * x)) in E2. rewrite sqrt_sqrt in E2; lra.
Qed.
Lemma cuboid a b c : a * b * c <> 0 -> exists x, constructed x /\ is_orthogonal x /\ box_volume x = Rabs (a * b * c) /\
  box_side x AX = V3 a 0 0 /\ box_side x AY = V3 0 b 0 /\ box_side x AZ = V3 0 0 c.
Proof.
  intros N. destruct (box_exists (V3 a 0 0) (V3 0 b 0) (V3 0 0 c)) as [x E].
  { unfold vdot, vcross; cbn. intros H. apply N. rewrite <- H. ring. }
  destruct (box_sides_given _ _ _ _ E) as (S0&S1&S2). exists x. split; [exists (V3 a 0 0), (V3 0 b 0), (V3 0 0 c); exact E|].
  split; [unfold is_orthogonal; rewrite S0, S1, S2; unfold vdot; cbn; repeat split; ring|]. split; [|tauto].
  unfold box_volume. rewrite S0, S1, S2. f_equal. unfold vdot, vcross; cbn. ring.
Qed.
Lemma delta_reflected_refuted : exists b deltaV b', constructed b /\ is_orthogonal b /\ delta_move deltaV b = Some b' /\
  (forall a, box_side b' a = vscale (-1) (box_side b a)) /\ box_volume b' = box_volume b.
Proof.
  destruct (cuboid 2 3 4) as (b&C&O&V&_); [lra|]. rewrite Rabs_pos_eq in V by lra.
  destruct (delta_general (-48) b C) as (b'&f&M&_&F&_&_&S&VO); [rewrite (orthogonal_volume b C O), V; lra|].
  rewrite (orthogonal_volume b C O), V in *. exists b, (-48), b'. split; [exact C|]. split; [exact O|]. split; [exact M|].
  assert (f = -1). { assert (Q : (f + 1) * (f * f - f + 1) = 0) by (replace ((2 * 3 * 4 + -48) / (2 * 3 * 4)) with (-1) in F by field; nra).
    apply Rmult_integral in Q as [Q|Q]; [lra|]. pose proof (Rle_0_sqr (f - / 2)) as T. unfold Rsqr in T. lra. }
  subst f. split; [exact S|]. rewrite VO, Rabs_left by lra. lra.
Qed.
Lemma bracketed_refuted : exists s d, scalingDirection s = Some d /\ forall sampler ind, make_anisotropic sampler d ind = None.
Proof. exists [91; 120; 121; 122; 93]%Z, []. split; [reflexivity|]. reflexivity. Qed.
