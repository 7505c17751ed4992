From Coq Require Import Reals ZArith List Bool Lia Lra.
From Verif Require Import GeomModel PackSpec PackSumProofs BondModel BondOrderProofs SmecticModel SmecticSpec.
Import ListNotations.
Local Open Scope Z_scope.

Lemma upto_in a b x : In x (upto a b) <-> a <= x <= b.
Proof.
  unfold upto. rewrite in_map_iff. split.
  - intros (n & <- & I). apply in_seq in I. lia.
  - intros H. exists (Z.to_nat (x - a)). split; [lia|]. apply in_seq. lia.
Qed.
Lemma upto_nodup a b : NoDup (upto a b).
Proof. unfold upto. apply FinFun.Injective_map_NoDup; [intros x y H; lia|apply seq_NoDup]. Qed.
Theorem visited_iff rx ry rz h k l : In (h, k, l) (visited (rx, ry, rz)) <-> (h, k, l) <> (0, 0, 0) /\ 0 <= h <= rx /\ (if h =? 0 then 0 else - ry) <= k <= ry /\ (if (h =? 0) && (k =? 0) then 0 else - rz) <= l <= rz.
Proof.
  unfold visited. rewrite in_flat_map. split.
  - intros (cx & Ix & I). apply upto_in in Ix. apply in_flat_map in I. destruct I as (cy & Iy & I). apply upto_in in Iy. apply in_flat_map in I. destruct I as (cz & Iz & I). apply upto_in in Iz. destruct ((cx =? 0) && (cy =? 0) && (cz =? 0)) eqn:E; [destruct I|]. destruct I as [I|[]]. injection I as -> -> ->. split; [|auto]. intros Z. injection Z as -> -> ->. discriminate.
  - intros (N & Hx & Hy & Hz). exists h. split; [apply upto_in; lia|]. apply in_flat_map. exists k. split; [apply upto_in; lia|]. apply in_flat_map. exists l. split; [apply upto_in; lia|]. destruct ((h =? 0) && (k =? 0) && (l =? 0)) eqn:E; [|left; reflexivity]. apply andb_true_iff in E. destruct E as [E E3]. apply andb_true_iff in E. destruct E as [E1 E2]. apply Z.eqb_eq in E1, E2, E3. subst. contradiction.
Qed.
Lemma nodup_flat {A B} (f : A -> list B) (g : B -> A) l : NoDup l -> (forall a, In a l -> NoDup (f a)) -> (forall a b, In a l -> In b (f a) -> g b = a) -> NoDup (flat_map f l).
Proof.
  intros N. induction N as [|a l H N IH]; intros F G; cbn [flat_map]; [constructor|].
  assert (X : forall l1 l2 : list B, NoDup l1 -> NoDup l2 -> (forall b, In b l1 -> ~ In b l2) -> NoDup (l1 ++ l2)).
  { clear. induction l1 as [|b l1 IH]; intros l2 N1 N2 D; [exact N2|]. inversion N1; subst. cbn. constructor; [rewrite in_app_iff; intros [I|I]; [contradiction|apply (D b); [left; reflexivity|exact I]]|]. apply IH; auto. intros c Ic. apply D. right. exact Ic. }
  apply X; [apply F; left; reflexivity|apply IH; intros; [apply F; right; assumption|eapply G; [right; eassumption|assumption]]|]. intros b I1 I2. apply in_flat_map in I2. destruct I2 as (a' & Ia & I2). apply H. rewrite <- (G a b (or_introl eq_refl) I1), (G a' b (or_intror Ia) I2). exact Ia.
Qed.
Theorem visited_nodup r : NoDup (visited r).
Proof.
  destruct r as [[rx ry] rz]. unfold visited. apply (nodup_flat _ (fun t => fst (fst t))); [apply upto_nodup| |].
  - intros cx _. apply (nodup_flat _ (fun t => snd (fst t))); [apply upto_nodup| |].
    + intros cy _. apply (nodup_flat _ (fun t => snd t)); [apply upto_nodup| |].
      * intros cz _. destruct (_ && _); repeat constructor. intros [].
      * intros cz b _ I. destruct (_ && _) in I; [destruct I|]. destruct I as [<-|[]]. reflexivity.
    + intros cy b _ I. apply in_flat_map in I. destruct I as (cz & _ & I). destruct (_ && _) in I; [destruct I|]. destruct I as [<-|[]]. reflexivity.
  - intros cx b _ I. apply in_flat_map in I. destruct I as (cy & _ & I). apply in_flat_map in I. destruct I as (cz & _ & I). destruct (_ && _) in I; [destruct I|]. destruct I as [<-|[]]. reflexivity.
Qed.
Theorem one_of_two r n : within r n -> n <> (0, 0, 0) -> (In n (visited r) /\ ~ In (opposite n) (visited r)) \/ (~ In n (visited r) /\ In (opposite n) (visited r)).
Proof.
  destruct r as [[rx ry] rz], n as [[h k] l]. cbn [within opposite]. intros W N. rewrite !visited_iff.
  assert (N' : (- h, - k, - l) <> (0, 0, 0)) by (intros Z; apply N; injection Z as E1 E2 E3; repeat f_equal; lia). destruct (Z.eqb_spec h 0) as [->|Hh].
  - rewrite Z.opp_0, Z.eqb_refl. cbn [andb]. destruct (Z.eqb_spec k 0) as [->|Hk].
    + rewrite Z.opp_0, Z.eqb_refl. assert (l <> 0) by (intros ->; apply N; reflexivity). destruct (Z_lt_le_dec 0 l); [left|right]; (split; [|intros H || idtac]); repeat split; try assumption; try lia; intros H'; lia.
    + rewrite (proj2 (Z.eqb_neq (- k) 0)) by lia. destruct (Z_lt_le_dec 0 k); [left|right]; (split; [|intros H || idtac]); repeat split; try assumption; try lia; intros H'; lia.
  - rewrite (proj2 (Z.eqb_neq (- h) 0)) by lia. cbn [andb]. destruct (Z_lt_le_dec 0 h); [left|right]; (split; [|intros H || idtac]); repeat split; try assumption; try lia; intros H'; lia.
Qed.
Theorem visited_within r n : In n (visited r) -> within r n /\ n <> (0, 0, 0).
Proof.
  destruct r as [[rx ry] rz], n as [[h k] l]. rewrite visited_iff. intros (N & H1 & H2 & H3). split; [|exact N]. cbn. destruct (h =? 0), (k =? 0); cbn [andb] in H3; lia.
Qed.
(** Values. *)
Lemma phase_dot inverse n p : vdot (kTau inverse n) p = phase inverse n p.
Proof. destruct n as [[h k] l]. unfold kTau, phase, vdot, mvec, mtrans, mmake, vmake, vget, mget. cbn. ring. Qed.
Theorem tau_value inverse volume points values n : length points = length values -> (0 < volume)%R -> exists tau, calculateTau inverse volume points values n = Some (tau, kTau inverse n) /\ cabs tau = order inverse volume points values n.
Proof.
  intros L V. unfold calculateTau. rewrite L, Nat.eqb_refl. cbn [negb]. eexists. split; [reflexivity|]. rewrite cabs_div by exact V. unfold order. rewrite (fold_cadd (fun x : vec * R => ((snd x * cos (vdot (kTau inverse n) (fst x)))%R, (snd x * sin (vdot (kTau inverse n) (fst x)))%R))). cbn [fst snd]. rewrite !Rplus_0_l. unfold cabs. cbn [fst snd].
  rewrite (Rsum_ext _ (fun x => (snd x * cos (phase inverse n (fst x)))%R)) by (intros x _; rewrite phase_dot; reflexivity). rewrite (Rsum_ext (fun x => (snd x * sin _)%R) (fun x => (snd x * sin (phase inverse n (fst x)))%R)) by (intros x _; rewrite phase_dot; reflexivity). reflexivity.
Qed.
Lemma phase_opposite inverse n p : phase inverse (opposite n) p = (- phase inverse n p)%R.
Proof. destruct n as [[h k] l]. unfold phase, opposite. rewrite !opp_IZR. ring. Qed.
Lemma Rsum_opp {A} (f : A -> R) l : Rsum (fun x => (- f x)%R) l = (- Rsum f l)%R.
Proof. induction l as [|a l IH]; [cbn; ring|]. cbn [Rsum fold_right]. fold (Rsum (fun x => (- f x)%R) l). fold (Rsum f l). rewrite IH. ring. Qed.
Theorem order_opposite inverse norm points values n : order inverse norm points values (opposite n) = order inverse norm points values n.
Proof.
  unfold order. rewrite (Rsum_ext (fun x => (snd x * cos _)%R) (fun x => (snd x * cos (phase inverse n (fst x)))%R)) by (intros x _; rewrite phase_opposite, cos_neg; reflexivity). rewrite (Rsum_ext (fun x => (snd x * sin _)%R) (fun x => (- (snd x * sin (phase inverse n (fst x))))%R)) by (intros x _; rewrite phase_opposite, sin_neg; ring). rewrite Rsum_opp. f_equal. f_equal. ring.
Qed.
Lemma order_pos inverse norm points values n : (0 < norm)%R -> (0 <= order inverse norm points values n)%R. Proof. intros H. unfold order. cbn zeta. apply Rmult_le_pos; [apply sqrt_pos|apply Rlt_le, Rinv_0_lt_compat; exact H]. Qed.
(** The greatest one. *)
Section Greatest.
  Variables (inverse : mat) (volume : R) (points : list vec) (values : list R).
  Hypothesis L : length points = length values.
  Hypothesis V : (0 < volume)%R.
  Let o := order inverse volume points values.
  Lemma visits l : forall s, exists s', fold_left (visit inverse volume points values) l (Some s) = Some s' /\
    (cabs (s_tau s) <= cabs (s_tau s'))%R /\ (forall n, In n l -> (o n <= cabs (s_tau s'))%R) /\ (s' = s \/ exists n, In n l /\ s_hkl s' = n /\ s_k s' = kTau inverse n /\ cabs (s_tau s') = o n /\ calculateTau inverse volume points values n = Some (s_tau s', s_k s') /\ (cabs (s_tau s) < o n)%R).
  Proof.
    induction l as [|n l IH]; intros s; cbn [fold_left]; [exists s; repeat split; [lra|intros ? []|left; reflexivity]|]. destruct (tau_value inverse volume points values n L V) as (tau & E & A). fold o in A. assert (Ev : visit inverse volume points values (Some s) n = Some (if Rltb (cabs (s_tau s)) (cabs tau) then State tau n (kTau inverse n) else s)) by (unfold visit; rewrite E; destruct (Rltb _ _); reflexivity). rewrite Ev. unfold Rltb in *. destruct (Rlt_dec (cabs (s_tau s)) (cabs tau)) as [Lt|Ge].
    - destruct (IH (State tau n (kTau inverse n))) as (s' & E' & M & G & D). exists s'. cbn [s_tau] in *. split; [exact E'|]. split; [lra|]. split; [intros m [<-|I]; [rewrite <- A; exact M|apply G; exact I]|]. right. destruct D as [->|(m & I & D1 & D2 & D3 & D4 & D5)].
      + exists n. cbn [s_hkl s_k s_tau]. split; [left; reflexivity|]. repeat split; auto. rewrite <- A. exact Lt.
      + exists m. split; [right; exact I|]. repeat split; auto. lra.
    - destruct (IH s) as (s' & E' & M & G & D). exists s'. split; [exact E'|]. split; [exact M|]. split; [intros m [<-|I]; [rewrite <- A; lra|apply G; exact I]|]. destruct D as [->|(m & I & D)]; [left; reflexivity|]. right. exists m. split; [right; exact I|exact D].
  Qed.
  Theorem greatest r before : exists s, calculate r inverse volume points values before = Some s /\
    (forall n, within r n -> n <> (0, 0, 0) -> (o n <= cabs (s_tau s))%R) /\
    ((within r (s_hkl s) /\ s_hkl s <> (0, 0, 0) /\ cabs (s_tau s) = o (s_hkl s) /\ s_k s = kTau inverse (s_hkl s) /\ (0 < cabs (s_tau s))%R) \/
     (s_hkl s = (0, 0, 0) /\ s_tau s = (0%R, 0%R) /\ s_k s = s_k before /\ forall n, within r n -> n <> (0, 0, 0) -> o n = 0%R)).
  Proof.
    unfold calculate. destruct (visits (visited r) (State (0%R, 0%R) (0, 0, 0) (s_k before))) as (s & E & M & G & D). exists s. split; [exact E|]. assert (G' : forall n, within r n -> n <> (0, 0, 0) -> (o n <= cabs (s_tau s))%R).
    { intros n W N. destruct (one_of_two r n W N) as [[I _]|[_ I]]; [apply G; exact I|]. unfold o. rewrite <- order_opposite. apply G. exact I. }
    split; [exact G'|]. destruct D as [->|(n & I & D1 & D2 & D3 & _ & D5)].
    - right. cbn [s_hkl s_tau s_k] in *. repeat split; auto. intros n W N. specialize (G' n W N). rewrite cabs_real in G' by lra. apply Rle_antisym; [exact G'|apply order_pos; exact V].
    - left. destruct (visited_within r n I) as [W N]. rewrite D1. repeat split; auto. rewrite D3. cbn [s_tau] in D5. rewrite cabs_real in D5 by lra. exact D5.
  Qed.
End Greatest.
(** Periodic images. *)
Lemma cos_periods x (m : Z) : cos (x + 2 * PI * IZR m) = cos x /\ sin (x + 2 * PI * IZR m) = sin x.
Proof.
  destruct (Z.le_ge_cases 0 m) as [H|H].
  - rewrite <- (Z2Nat.id m H), <- INR_IZR_INZ. replace (x + 2 * PI * INR (Z.to_nat m))%R with (x + 2 * INR (Z.to_nat m) * PI)%R by ring. split; [apply cos_period|apply sin_period].
  - set (y := (x + 2 * PI * IZR m)%R). assert (E : (x = y + 2 * INR (Z.to_nat (- m)) * PI)%R) by (unfold y; rewrite INR_IZR_INZ, Z2Nat.id by lia; rewrite opp_IZR; ring). rewrite E. split; symmetry; [apply cos_period|apply sin_period].
Qed.
Theorem images box inverse norm n shifts points values : mmul inverse box = mid -> length shifts = length points ->
  order inverse norm (map (fun x => vadd (snd x) (mvec box (let '(a, b, c) := fst x in V3 (IZR a) (IZR b) (IZR c)))) (combine shifts points)) values n = order inverse norm points values n.
Proof.
  intros H. assert (P : forall p s, let q := vadd p (mvec box (let '(a, b, c) := s in V3 (IZR a) (IZR b) (IZR c))) in cos (phase inverse n q) = cos (phase inverse n p) /\ sin (phase inverse n q) = sin (phase inverse n p)).
  { intros p [[a b] c]. destruct n as [[h k] l]. assert (E : phase inverse (h, k, l) (vadd p (mvec box (V3 (IZR a) (IZR b) (IZR c)))) = (phase inverse (h, k, l) p + 2 * PI * IZR (h * a + k * b + l * c))%R).
    { unfold phase. assert (M : mvec inverse (vadd p (mvec box (V3 (IZR a) (IZR b) (IZR c)))) = vadd (mvec inverse p) (mvec (mmul inverse box) (V3 (IZR a) (IZR b) (IZR c)))) by (unfold vadd, mvec, mmul, mmake, vmake, mget, vget; cbn; f_equal; ring). rewrite M, H. rewrite !plus_IZR, !mult_IZR. unfold vadd, mvec, mid, vmake, mget, vget. cbn. ring. }
    cbn zeta. rewrite E. apply cos_periods. }
  intros L. unfold order. revert values shifts L. assert (G : forall values shifts, length shifts = length points -> let q := map (fun x => vadd (snd x) (mvec box (let '(a, b, c) := fst x in V3 (IZR a) (IZR b) (IZR c)))) (combine shifts points) in
    Rsum (fun x => (snd x * cos (phase inverse n (fst x)))%R) (combine q values) = Rsum (fun x => (snd x * cos (phase inverse n (fst x)))%R) (combine points values) /\ Rsum (fun x => (snd x * sin (phase inverse n (fst x)))%R) (combine q values) = Rsum (fun x => (snd x * sin (phase inverse n (fst x)))%R) (combine points values)).
  { induction points as [|p points IH]; intros values [|s shifts] L; try discriminate; cbn [combine map]; [split; reflexivity|]. destruct values as [|v values]; [split; reflexivity|]. cbn [combine Rsum fold_right fst snd]. injection L as L. destruct (IH values shifts L) as [E1 E2]. destruct (P p s) as [E3 E4]. unfold Rsum in E1, E2. cbn zeta in E1, E2, E3, E4. rewrite E1, E2, E3, E4. split; reflexivity. }
  intros values shifts L. destruct (G values shifts L) as [E1 E2]. cbn zeta in E1, E2. rewrite E1, E2. reflexivity.
Qed.
(** Bounds and the normalisation. *)
Theorem order_bound inverse norm points values n : (0 < norm)%R -> (order inverse norm points values n <= Rsum (fun x => Rabs (snd x)) (combine points values) / norm)%R.
Proof.
  intros H. unfold order. cbn zeta. apply Rmult_le_compat_r; [apply Rlt_le, Rinv_0_lt_compat; exact H|]. eapply Rle_trans; [apply (cabs_sum (fun x : vec * R => ((snd x * cos (phase inverse n (fst x)))%R, (snd x * sin (phase inverse n (fst x)))%R)))|]. apply Rsum_le. intros x _. unfold cabs. cbn [fst snd]. set (a := phase inverse n (fst x)). pose proof (sin2_cos2 a) as S. unfold Rsqr in S. replace (snd x * cos a * (snd x * cos a) + snd x * sin a * (snd x * sin a))%R with (Rsqr (snd x)).
  - rewrite sqrt_Rsqr_abs. lra.
  - unfold Rsqr. replace (snd x * cos a * (snd x * cos a) + snd x * sin a * (snd x * sin a))%R with (snd x * snd x * (sin a * sin a + cos a * cos a))%R by ring. rewrite S. ring.
Qed.
Theorem order_mean inverse norm points values n : (0 < norm)%R -> points <> [] -> order inverse norm points values n = (order inverse (INR (length points)) points values n * (INR (length points) / norm))%R.
Proof. intros H N. assert (X : (INR (length points) <> 0)%R) by (apply not_0_INR; destruct points; [contradiction|discriminate]). assert (norm <> 0)%R by lra. unfold order. cbn zeta. field. auto. Qed.
Theorem normalisation_refuted : exists box inverse points values s, mmul inverse box = mid /\ (0 < mdet box)%R /\ length points = length values /\ Forall (fun v => v = 1%R) values /\ calculate (1, 0, 0) inverse (mdet box) points values (State (0%R, 0%R) (0, 0, 0) vzero) = Some s /\ cabs (s_tau s) = 8%R.
Proof.
  exists (M33 (/2) 0 0 0 (/2) 0 0 0 (/2)), (M33 2 0 0 0 2 0 0 0 2), [V3 0 0 0], [1%R]. assert (D : (mdet (M33 (/2) 0 0 0 (/2) 0 0 0 (/2)) = / 8)%R) by (unfold mdet; cbn; field). rewrite D. assert (V : (0 < / 8)%R) by lra. destruct (greatest (M33 2 0 0 0 2 0 0 0 2) (/8) [V3 0 0 0] [1%R] eq_refl V (1, 0, 0) (State (0%R, 0%R) (0, 0, 0) vzero)) as (s & E & G & X). exists s.
  assert (O : forall n, order (M33 2 0 0 0 2 0 0 0 2) (/8) [V3 0 0 0] [1%R] n = 8%R).
  { intros [[h k] l]. unfold order, phase. cbn [combine Rsum fold_right fst snd]. unfold mvec, vmake, vget, mget. cbn. replace (2 * PI * _)%R with 0%R by ring. rewrite cos_0, sin_0. replace ((1 * 1 + 0) * (1 * 1 + 0) + (1 * 0 + 0) * (1 * 0 + 0))%R with 1%R by ring. rewrite sqrt_1. field. }
  split; [unfold mmul, mid, mmake, mget; cbn; f_equal; field|]. split; [exact V|]. split; [reflexivity|]. split; [repeat constructor|]. split; [exact E|]. destruct X as [(_ & _ & X & _)|(_ & _ & _ & X)]; [rewrite X; apply O|]. exfalso. specialize (X (1, 0, 0)). rewrite O in X. assert (8 = 0)%R by (apply X; [cbn; lia|discriminate]). lra.
Qed.
Theorem tau_refused inverse volume points values n : length points <> length values -> calculateTau inverse volume points values n = None.
Proof. intros H. unfold calculateTau. rewrite (proj2 (Nat.eqb_neq _ _) H). reflexivity. Qed.
