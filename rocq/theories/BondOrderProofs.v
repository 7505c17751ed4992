From Coq Require Import Reals ZArith List Bool Lia Lra Permutation Sorted.
From Verif Require Import GeomModel GeomProofs RFloorModel RotModel HistModel HistProofs PackSpec PackSumProofs BondModel BondSpec BondProofs.
Import ListNotations.
Local Open Scope nat_scope.

(** Sums of complex numbers. *)
Lemma fold_cadd {A} (f : A -> R * R) l : forall z, fold_left (fun p x => cadd p (f x)) l z = ((fst z + Rsum (fun x => fst (f x)) l)%R, (snd z + Rsum (fun x => snd (f x)) l)%R).
Proof. induction l as [|a l IH]; intros z; cbn [fold_left Rsum fold_right]; [destruct z; cbn; f_equal; ring|]. rewrite IH. unfold cadd. cbn [fst snd]. fold (Rsum (fun x => fst (f x)) l). fold (Rsum (fun x => snd (f x)) l). f_equal; ring. Qed.
Lemma cabs_pos z : (0 <= cabs z)%R. Proof. apply sqrt_pos. Qed.
Lemma cabs_vec z : cabs z = vnorm (V3 (fst z) (snd z) 0). Proof. unfold cabs, vnorm, vnorm2, vdot. cbn. f_equal. ring. Qed.
Lemma cabs_add a b : (cabs (cadd a b) <= cabs a + cabs b)%R.
Proof. rewrite !cabs_vec. eapply Rle_trans; [|apply vnorm_triangle]. unfold vadd, cadd. cbn. rewrite Rplus_0_l. apply Rle_refl. Qed.
Lemma cabs_sum {A} (f : A -> R * R) l : (cabs (Rsum (fun x => fst (f x)) l, Rsum (fun x => snd (f x)) l) <= Rsum (fun x => cabs (f x)) l)%R.
Proof.
  induction l as [|a l IH]; [unfold Rsum; cbn; unfold cabs; cbn; replace (0 * 0 + 0 * 0)%R with 0%R by ring; rewrite sqrt_0; lra|]. cbn [Rsum fold_right]. fold (Rsum (fun x => fst (f x)) l). fold (Rsum (fun x => snd (f x)) l). fold (Rsum (fun x => cabs (f x)) l).
  replace (fst (f a) + Rsum (fun x => fst (f x)) l, snd (f a) + Rsum (fun x => snd (f x)) l)%R with (cadd (f a) (Rsum (fun x => fst (f x)) l, Rsum (fun x => snd (f x)) l)) by reflexivity. eapply Rle_trans; [apply cabs_add|]. lra.
Qed.
Lemma Rsum_const {A} c (l : list A) : Rsum (fun _ => c) l = (INR (length l) * c)%R.
Proof. induction l as [|a l IH]; [cbn; ring|]. cbn [Rsum fold_right length]. fold (Rsum (fun _ : A => c) l). rewrite IH, S_INR. ring. Qed.
Lemma Rsum_le {A} (f g : A -> R) l : (forall x, In x l -> (f x <= g x)%R) -> (Rsum f l <= Rsum g l)%R.
Proof. induction l as [|a l IH]; intros H; [cbn; lra|]. cbn [Rsum fold_right]. fold (Rsum f l). fold (Rsum g l). pose proof (H a (or_introl eq_refl)). assert (forall x, In x l -> (f x <= g x)%R) by (intros x Hx; apply H; right; exact Hx). specialize (IH H1). lra. Qed.
Lemma Rsum_nonneg {A} (f : A -> R) l : (forall x, In x l -> (0 <= f x)%R) -> (0 <= Rsum f l)%R.
Proof. intros H. replace 0%R with (Rsum (fun _ : A => 0%R) l) by (rewrite Rsum_const; ring). apply Rsum_le. exact H. Qed.
Lemma Rsum_scaled {A} (f : A -> R) c l : Rsum (fun x => (f x * c)%R) l = (Rsum f l * c)%R.
Proof. induction l as [|a l IH]; [cbn; ring|]. cbn [Rsum fold_right]. fold (Rsum (fun x => (f x * c)%R) l). fold (Rsum f l). rewrite IH. ring. Qed.
Lemma cabs_unit a : cabs (cos a, sin a) = 1%R.
Proof. unfold cabs. cbn. pose proof (sin2_cos2 a) as H. unfold Rsqr in H. replace (cos a * cos a + sin a * sin a)%R with 1%R by lra. apply sqrt_1. Qed.
Lemma cabs_div z r : (0 < r)%R -> cabs (cdivr z r) = (cabs z / r)%R.
Proof.
  intros H. unfold cabs, cdivr. cbn [fst snd]. assert (I : (0 < / r)%R) by (apply Rinv_0_lt_compat; exact H). replace (fst z / r * (fst z / r) + snd z / r * (snd z / r))%R with ((fst z * fst z + snd z * snd z) * (/ r * / r))%R by (field; lra). rewrite sqrt_mult_alt by nra. rewrite sqrt_square by lra. reflexivity.
Qed.
Lemma cabs_real x : (0 <= x)%R -> cabs (x, 0%R) = x. Proof. intros H. unfold cabs. cbn. replace (x * x + 0 * 0)%R with (x * x)%R by ring. apply sqrt_square. exact H. Qed.

Section Order.
  Variable translation : vec -> vec -> vec.
  Variables p1 p2 : vec.
  Variable points : list vec.
  Let ang := angle translation p1 p2 points.
  Let RE := re translation p1 p2 points.
  Let IM := im translation p1 p2 points.
  Let n := length points.
  Lemma local_value rank i l : localPsi translation p1 p2 points rank i l = (Rsum (fun nb => cos (INR rank * ang i (fst nb))) (firstn rank l), Rsum (fun nb => sin (INR rank * ang i (fst nb))) (firstn rank l)).
  Proof. unfold localPsi. rewrite (fold_cadd (fun nb : neighbour => bond translation p1 p2 points rank i (fst nb))). cbn [fst snd]. rewrite !Rplus_0_l. reflexivity. Qed.
  Lemma local_divided rank i l : 1 <= rank -> cdivr (localPsi translation p1 p2 points rank i l) (INR rank) = (RE rank i (map fst (firstn rank l)), IM rank i (map fst (firstn rank l))).
  Proof. intros H. rewrite local_value. unfold cdivr, RE, IM, re, im. cbn [fst snd]. rewrite !Rsum_map. reflexivity. Qed.
  Theorem order_value local rank knn : 1 <= rank -> 1 <= n -> (forall i, i < n -> rank <= length (nth i knn [])) ->
    doCalculateBondOrder translation p1 p2 points local rank knn = Some (mean translation p1 p2 points local rank (fun i => map fst (firstn rank (nth i knn [])))).
  Proof.
    intros Hr Hn H. unfold doCalculateBondOrder. fold n. rewrite (proj2 (Nat.eqb_neq n 0)) by lia. f_equal. unfold Rdiv at 1. assert (Pr : (0 < INR rank)%R) by (apply lt_0_INR; lia).
    set (body := fun i => if local then ((cabs (localPsi translation p1 p2 points rank i (nth i knn [])) / INR rank)%R, 0%R) else cdivr (localPsi translation p1 p2 points rank i (nth i knn [])) (INR rank)).
    assert (E : forall s z, (forall i, In i s -> i < n) -> fold_left (fun psi i => let neighbours := nth i knn [] in if length neighbours <? rank then psi else let lp := localPsi translation p1 p2 points rank i neighbours in cadd psi (if local then ((cabs lp / INR rank)%R, 0%R) else cdivr lp (INR rank))) s z = fold_left (fun psi i => cadd psi (body i)) s z).
    { induction s as [|i s IH]; intros z Hs; [reflexivity|]. cbn [fold_left]. cbn zeta. rewrite (proj2 (Nat.ltb_ge _ _)) by (apply H, Hs; left; reflexivity). rewrite IH by (intros j Hj; apply Hs; right; exact Hj). reflexivity. }
    rewrite E by (intros i I; apply in_seq in I; lia). rewrite fold_cadd. cbn [fst snd]. rewrite !Rplus_0_l. unfold mean, body. fold RE IM n. destruct local.
    - cbn [fst snd]. rewrite (Rsum_const 0%R). rewrite Rmult_0_r. rewrite cabs_real by (apply Rsum_nonneg; intros i _; apply Rmult_le_pos; [apply cabs_pos|apply Rlt_le, Rinv_0_lt_compat; exact Pr]). unfold Rdiv at 2. f_equal. apply Rsum_ext. intros i _. rewrite <- cabs_div by exact Pr. rewrite local_divided by exact Hr. reflexivity.
    - unfold Rdiv. f_equal. unfold cabs. cbn [fst snd]. f_equal. f_equal; f_equal; apply Rsum_ext; intros i _; rewrite local_divided by exact Hr; reflexivity.
  Qed.
  Lemma unit_bound rank i l : 1 <= rank -> length l = rank -> (sqrt (RE rank i l * RE rank i l + IM rank i l * IM rank i l) <= 1)%R.
  Proof.
    intros H L. assert (Pr : (0 < INR rank)%R) by (apply lt_0_INR; lia). change (cabs (RE rank i l, IM rank i l) <= 1)%R. replace (RE rank i l, IM rank i l) with (cdivr (Rsum (fun j => fst (cos (INR rank * ang i j), sin (INR rank * ang i j))) l, Rsum (fun j => snd (cos (INR rank * ang i j), sin (INR rank * ang i j))) l) (INR rank)) by reflexivity.
    rewrite cabs_div by exact Pr. apply (Rmult_le_reg_r (INR rank)); [exact Pr|]. unfold Rdiv. rewrite Rmult_assoc, Rinv_l by lra. rewrite Rmult_1_r, Rmult_1_l. eapply Rle_trans; [apply (cabs_sum (fun j => (cos (INR rank * ang i j), sin (INR rank * ang i j))))|]. rewrite (Rsum_ext _ (fun _ => 1%R)) by (intros j _; apply cabs_unit). rewrite Rsum_const, L. lra.
  Qed.
  Theorem order_range local rank nb : 1 <= rank -> 1 <= n -> (forall i, i < n -> length (nb i) = rank) -> (0 <= mean translation p1 p2 points local rank nb <= 1)%R.
  Proof.
    intros Hr Hn H. assert (Pn : (0 < INR n)%R) by (apply lt_0_INR; lia). assert (Pi : (0 < / INR n)%R) by (apply Rinv_0_lt_compat; exact Pn).
    assert (B : (Rsum (fun i => sqrt (RE rank i (nb i) * RE rank i (nb i) + IM rank i (nb i) * IM rank i (nb i))) (seq 0 n) <= INR n)%R).
    { eapply Rle_trans; [apply (Rsum_le _ (fun _ => 1%R)); intros i I; apply in_seq in I; apply unit_bound; [exact Hr|apply H; lia]|]. rewrite Rsum_const, seq_length. lra. }
    assert (D : forall x, (x <= INR n)%R -> (x / INR n <= 1)%R) by (intros x Hx; apply (Rmult_le_reg_r (INR n)); [exact Pn|]; unfold Rdiv; rewrite Rmult_assoc, Rinv_l by lra; lra).
    unfold mean. fold RE IM n. destruct local.
    - split; [apply Rmult_le_pos; [apply Rsum_nonneg; intros; apply sqrt_pos|lra]|]. apply D. exact B.
    - split; [apply Rmult_le_pos; [apply sqrt_pos|lra]|]. apply D. eapply Rle_trans; [|exact B]. exact (cabs_sum (fun i => (RE rank i (nb i), IM rank i (nb i))) (seq 0 n)).
  Qed.
  (** Particles all bonds of which have the same phase. *)
  Lemma aligned rank i l : 1 <= rank -> length l = rank -> (exists a, forall j, In j l -> cos (INR rank * ang i j) = cos a /\ sin (INR rank * ang i j) = sin a) -> sqrt (RE rank i l * RE rank i l + IM rank i l * IM rank i l) = 1%R.
  Proof.
    intros H L (a & A). assert (Pr : (0 < INR rank)%R) by (apply lt_0_INR; lia). change (cabs (RE rank i l, IM rank i l) = 1)%R. unfold RE, IM, re, im. fold ang. rewrite (Rsum_ext _ (fun _ => cos a)) by (intros j Ij; apply A; exact Ij). rewrite (Rsum_ext (fun j => sin _) (fun _ => sin a)) by (intros j Ij; apply A; exact Ij). rewrite !Rsum_const, L. replace (INR rank * cos a / INR rank)%R with (cos a) by (field; lra). replace (INR rank * sin a / INR rank)%R with (sin a) by (field; lra). apply cabs_unit.
  Qed.
  Theorem order_aligned rank nb : 1 <= rank -> 1 <= n -> (forall i, i < n -> length (nb i) = rank) -> (forall i, i < n -> exists a, forall j, In j (nb i) -> cos (INR rank * ang i j) = cos a /\ sin (INR rank * ang i j) = sin a) -> mean translation p1 p2 points true rank nb = 1%R.
  Proof.
    intros Hr Hn L H. assert (Pn : (0 < INR n)%R) by (apply lt_0_INR; lia). unfold mean. fold RE IM n. rewrite (Rsum_ext _ (fun _ => 1%R)) by (intros i I; apply in_seq in I; apply aligned; [exact Hr|apply L; lia|apply H; lia]). rewrite Rsum_const, seq_length. field. lra.
  Qed.
End Order.

(** All together. *)
Lemma last_max ranks r : StronglySorted le ranks -> In r ranks -> r <= last ranks 0.
Proof.
  intros S. revert r. induction S as [|a l S IH F]; intros r I; [destruct I|]. destruct l as [|b l]; [destruct I as [->|[]]; cbn; lia|]. change (last (a :: b :: l) 0) with (last (b :: l) 0). destruct I as [->|I]; [|apply IH; exact I]. rewrite Forall_forall in F. transitivity b; [apply F; left; reflexivity|apply IH; left; reflexivity].
Qed.
Theorem calculated translation k tau layering points p1 p2 local ranks : k <> vzero -> length layering = length points -> 1 <= length points -> StronglySorted le ranks -> Forall (fun r => 1 <= r) ranks -> ranks <> [] ->
  exists psis, calculate translation k p1 p2 tau layering points local ranks = Some psis /\
    Forall2 (fun rank psi => exists nb, (forall i, i < length points -> exists l, nearest rank (candidates translation k tau layering points i) l /\ nb i = map fst l) /\ psi = Some (mean translation p1 p2 points local rank nb)) ranks psis.
Proof.
  intros Hk L Hn S F N. assert (Hr : 1 <= last ranks 0) by (destruct ranks as [|r ranks]; [contradiction|]; pose proof (last_max _ r S (or_introl eq_refl)); assert (1 <= r) by exact (Forall_inv F); lia). destruct (knn_nearest translation k tau layering points (last ranks 0) Hk Hr L) as (knn & E & Lk & Hi). unfold calculate. rewrite E. eexists. split; [reflexivity|].
  assert (G : forall l, (forall r, In r l -> In r ranks) -> Forall2 (fun rank psi => exists nb, (forall i, i < length points -> exists l, nearest rank (candidates translation k tau layering points i) l /\ nb i = map fst l) /\ psi = Some (mean translation p1 p2 points local rank nb)) l (map (fun rank => doCalculateBondOrder translation p1 p2 points local rank knn) l)).
  { induction l as [|r l IH]; intros H; cbn [map]; constructor; [|apply IH; intros x Hx; apply H; right; exact Hx]. assert (Ir : In r ranks) by (apply H; left; reflexivity). pose proof (last_max _ _ S Ir) as M. rewrite Forall_forall in F. specialize (F r Ir). exists (fun i => map fst (firstn r (nth i knn []))). split.
    - intros i Hil. exists (firstn r (nth i knn [])). split; [|reflexivity]. apply (nearest_prefix (last ranks 0)); [exact M|apply Hi; exact Hil].
    - apply order_value; [exact F|exact Hn|]. intros i Hil. destruct (Hi i Hil) as (s & _ & _ & ->). rewrite firstn_length, app_length, repeat_length. lia. }
  apply G. auto.
Qed.
(** Particles without neighbours. *)
Theorem isolated translation k tau layering points p1 p2 rank : k <> vzero -> length layering = length points -> 1 <= length points -> 1 <= rank -> (forall i, i < length points -> candidates translation k tau layering points i = []) ->
  calculate translation k p1 p2 tau layering points true [rank] = Some [Some 1%R].
Proof.
  intros Hk L Hn Hr H. destruct (calculated translation k tau layering points p1 p2 true [rank] Hk L Hn) as (psis & E & F); [repeat constructor|repeat constructor; exact Hr|discriminate|]. rewrite E. f_equal. inversion F as [|? psi ? psis' (nb & A & ->) F']; subst. inversion F'; subst. f_equal. f_equal.
  assert (B : forall i, i < length points -> nb i = repeat 0 rank).
  { intros i Hi. destruct (A i Hi) as (l & (s & P & _ & ->) & ->). rewrite H in P by exact Hi. apply Permutation_sym, Permutation_nil in P. subst s. cbn [app]. rewrite firstn_all2 by (rewrite repeat_length; lia). clear. induction rank as [|r IH]; [reflexivity|]. cbn. f_equal. exact IH. }
  apply order_aligned; [exact Hr|exact Hn|intros i Hi; rewrite B by exact Hi; apply repeat_length|]. intros i Hi. rewrite B by exact Hi. exists (INR rank * angle translation p1 p2 points i 0)%R. intros j Ij. apply repeat_spec in Ij. subst j. split; reflexivity.
Qed.
(** Vectors in the plane. *)
Lemma norm_zero v : vnorm v = 0%R <-> v = vzero.
Proof.
  unfold vnorm. split; intros H.
  - apply sqrt_eq_0 in H; [|unfold vnorm2, vdot; nra]. unfold vnorm2, vdot in H. destruct v as [x y z]. cbn in H. unfold vzero. f_equal; nra.
  - subst. unfold vnorm2, vdot, vzero. cbn. replace (0 * 0 + 0 * 0 + 0 * 0)%R with 0%R by ring. apply sqrt_0.
Qed.
Lemma normalized_some v u : normalized v = Some u -> vnorm2 u = 1%R /\ u = vscale (/ vnorm v) v /\ vnorm v <> 0%R.
Proof.
  unfold normalized, Reqb. destruct (Req_EM_T (vnorm v) 0) as [|N]; [discriminate|]. intros E. injection E as <-. split; [|split; [reflexivity|exact N]]. assert (Q : (vnorm v * vnorm v = vnorm2 v)%R) by (apply sqrt_sqrt; unfold vnorm2, vdot; nra). replace (vnorm2 (vscale (/ vnorm v) v)) with (/ vnorm v * / vnorm v * vnorm2 v)%R by (unfold vnorm2, vdot, vscale; cbn; ring). rewrite <- Q. field. exact N.
Qed.
Lemma normalized_none v : normalized v = None <-> v = vzero.
Proof. unfold normalized, Reqb. destruct (Req_EM_T (vnorm v) 0) as [E|N]; split; intros H; try discriminate; try reflexivity; [apply norm_zero; exact E|]. apply norm_zero in H. contradiction. Qed.
Lemma vec_eq a b : vx a = vx b -> vy a = vy b -> vz a = vz b -> a = b. Proof. destruct a, b. cbn. intros -> -> ->. reflexivity. Qed.
Theorem plane_vectors k q1 q2 : planeVectors k = Some (q1, q2) ->
  vnorm2 q1 = 1%R /\ vnorm2 q2 = 1%R /\ vdot q1 q2 = 0%R /\ vdot q1 k = 0%R /\ vdot q2 k = 0%R /\ forall d, (vdot q1 d * vdot q1 d + vdot q2 d * vdot q2 d)%R = in_plane2 k d.
Proof.
  unfold planeVectors. destruct (normalized (vcross k (nonParallel k))) as [a|] eqn:E1; [|discriminate]. destruct (normalized (vcross k a)) as [b|] eqn:E2; [|discriminate]. intros E. injection E as <- <-. destruct (normalized_some _ _ E1) as (A1 & A2 & A3). destruct (normalized_some _ _ E2) as (B1 & B2 & B3).
  assert (Ak : vdot a k = 0%R) by (rewrite A2; unfold vdot, vscale, vcross; cbn; ring). assert (Bk : vdot b k = 0%R) by (rewrite B2; unfold vdot, vscale, vcross; cbn; ring). assert (Ab : vdot a b = 0%R) by (rewrite B2; unfold vdot, vscale, vcross; cbn; ring). split; [exact A1|]. split; [exact B1|]. split; [exact Ab|]. split; [exact Ak|]. split; [exact Bk|]. intros d.
  assert (Nk : vnorm (vcross k a) <> 0%R) by exact B3. assert (Q : (vnorm (vcross k a) * vnorm (vcross k a) = vnorm2 k)%R).
  { replace (vnorm (vcross k a) * vnorm (vcross k a))%R with (vnorm2 (vcross k a)) by (symmetry; apply sqrt_sqrt; unfold vnorm2, vdot; nra). pose proof (lagrange k a) as X. rewrite (vdot_comm k a), Ak, A1 in X. lra. }
  assert (K0 : vnorm2 k <> 0%R) by (rewrite <- Q; nra). assert (G : (vdot (vcross k a) d * vdot (vcross k a) d = vnorm2 d * vnorm2 k - vnorm2 k * (vdot a d * vdot a d) - vdot d k * vdot d k)%R).
  { transitivity (vnorm2 d * (vnorm2 k * vnorm2 a - vdot a k * vdot a k) - vdot d k * (vdot d k * vnorm2 a - vdot a k * vdot a d) + vdot a d * (vdot d k * vdot a k - vnorm2 k * vdot a d))%R; [unfold vnorm2, vdot, vcross; cbn; ring|rewrite A1, Ak; ring]. }
  replace (vdot b d * vdot b d)%R with (vdot (vcross k a) d * vdot (vcross k a) d / vnorm2 k)%R.
  - rewrite G. unfold in_plane2. set (t := (vdot d k / vnorm2 k)%R). replace (vnorm2 (vsub d (vscale t k))) with (vnorm2 d - 2 * t * vdot d k + t * t * vnorm2 k)%R by (unfold vnorm2, vdot, vsub, vscale; cbn; ring). unfold t. field. exact K0.
  - rewrite B2. replace (vdot (vscale (/ vnorm (vcross k a)) (vcross k a)) d) with (/ vnorm (vcross k a) * vdot (vcross k a) d)%R by (unfold vdot, vscale; cbn; ring). rewrite <- Q. field. exact Nk.
Qed.
Theorem no_plane k : planeVectors k = None <-> exists t, (t <= 0)%R /\ (k = V3 t 0 0 \/ k = V3 0 t 0 \/ k = V3 0 0 t).
Proof.
  assert (C : planeVectors k = None <-> vcross k (nonParallel k) = vzero).
  { unfold planeVectors. destruct (normalized (vcross k (nonParallel k))) as [a|] eqn:E1.
    - destruct (normalized_some _ _ E1) as (A1 & A2 & A3). assert (N : vcross k (nonParallel k) <> vzero) by (intros Z; apply A3, norm_zero; exact Z). destruct (normalized (vcross k a)) eqn:E2; [split; [discriminate|contradiction]|]. exfalso. apply normalized_none in E2. assert (Ak : vdot k a = 0%R) by (rewrite A2; unfold vdot, vscale, vcross; cbn; ring). pose proof (lagrange k a) as X. rewrite Ak, A1, E2 in X. unfold vnorm2 at 1, vzero, vdot in X. cbn in X. assert (Zk : vnorm2 k = 0%R) by lra. apply N. assert (k = vzero) as -> by (apply norm_zero; unfold vnorm; rewrite Zk; apply sqrt_0). unfold vcross, vzero. cbn. apply vec_eq; cbn; ring.
    - apply normalized_none in E1. tauto. }
  rewrite C. unfold nonParallel, Rltb. destruct k as [x y z]. cbn [vx vy vz]. unfold vcross, vzero. destruct (Rlt_dec y x), (Rlt_dec z y), (Rlt_dec z x); cbn [vx vy vz]; split;
    try (intros E; injection E; intros E1 E2 E3; ring_simplify in E1; ring_simplify in E2; ring_simplify in E3; first [exists x; split; [lra|left; f_equal; lra]|exists y; split; [lra|right; left; f_equal; lra]|exists z; split; [lra|right; right; f_equal; lra]]);
    intros (t & Ht & [E|[E|E]]); injection E as -> -> ->; apply vec_eq; cbn; lra.
Qed.
Theorem wave_vector box inverse miller v : mmul inverse box = mid -> vdot (kVectorOf inverse miller) (mvec box v) = (2 * PI * vdot miller v)%R.
Proof.
  intros H. unfold kVectorOf. replace (vdot (vscale (2 * PI) (mvec (mtrans inverse) miller)) (mvec box v)) with (2 * PI * vdot miller (mvec (mmul inverse box) v))%R.
  - rewrite H. unfold vdot, mvec, mid, vmake, mget. cbn. ring.
  - unfold vdot, vscale, mvec, mtrans, mmul, mmake, vmake, mget, vget. cbn. ring.
Qed.
