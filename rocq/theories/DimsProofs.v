From Coq Require Import ZArith Reals List Bool Arith Lia Lra Psatz.
From Verif Require Import GeomModel BoxModel BoxSpec BoxProofs PbcSpec RFloorModel RFloorProofs ScalingModel ScalingBoxProofs LatticeModel DimsModel DimsSpec.
Local Open Scope nat_scope.

Lemma num_all_cells_spec n m : 0 < m -> cells_needed n m (num_all_cells n m).
Proof.
  intros P. unfold num_all_cells, cells_needed. pose proof (Nat.div_mod n m ltac:(lia)) as D. pose proof (Nat.mod_upper_bound n m ltac:(lia)) as U.
  destruct (Nat.eqb_spec (n mod m) 0) as [E|E].
  - split; [lia|]. intros k K. assert (m * (n / m) <= m * k) by nia. nia.
  - split; [nia|]. intros k K. destruct (le_lt_dec (n / m + 1) k); [assumption|]. exfalso. assert (k <= n / m) by lia. assert (m * k <= m * (n / m)) by nia. lia.
Qed.
Lemma cells_needed_unique n m a b : cells_needed n m a -> cells_needed n m b -> a = b.
Proof. intros [A1 A2] [B1 B2]. apply Nat.le_antisymm; auto. Qed.
Lemma max_dim_spec d : first_greatest d (max_dim d).
Proof.
  unfold max_dim, first_greatest. destruct d as [x y z]; cbn [ix iy iz]. destruct (Nat.ltb_spec x y); [destruct (Nat.ltb_spec y z)|destruct (Nat.ltb_spec x z)];
   (split; [intros []; cbn; lia|cbn; lia]).
Qed.
Lemma first_greatest_unique d a a' : first_greatest d a -> first_greatest d a' -> a = a'.
Proof.
  intros [G F] [G' F']. pose proof (G AX). pose proof (G AY). pose proof (G AZ). pose proof (G' AX). pose proof (G' AY). pose proof (G' AZ).
  destruct a, a'; try reflexivity; cbn in *; lia.
Qed.
Definition longer (d : idx3) (a : axis) (n : nat) : idx3 := iset d a (iget d a + n).
Lemma longer_spec d a n : lengthened d a n (longer d a n).
Proof. unfold lengthened, longer. split; [destruct a; reflexivity|]. intros a' N. destruct a, a'; try congruence; reflexivity. Qed.
Lemma lengthened_unique d a n d' : lengthened d a n d' -> d' = longer d a n.
Proof.
  intros [E F]. pose proof (longer_spec d a n) as [E' F']. assert (G : forall c, iget d' c = iget (longer d a n) c).
  { intros c. assert (D : c = a \/ c <> a) by (destruct c, a; (left; reflexivity) || (right; discriminate)). destruct D as [->|D]; [congruence|]. rewrite F, F' by exact D. reflexivity. }
  pose proof (G AX). pose proof (G AY). pose proof (G AZ). destruct d', (longer d a n); cbn in *; congruence.
Qed.
Lemma longer_first d a n : first_greatest d a -> first_greatest (longer d a n) a.
Proof. intros [G F]. pose proof (G AX). pose proof (G AY). pose proof (G AZ). destruct d, a; cbn in *; split; try (intros []; cbn; lia); cbn; lia. Qed.
Lemma longer_step d a n : first_greatest d a -> iset (longer d a n) (max_dim (longer d a n)) (iget (longer d a n) (max_dim (longer d a n)) + 1) = longer d a (S n).
Proof.
  intros F. rewrite (first_greatest_unique _ _ _ (max_dim_spec _) (longer_first d a n F)).
  unfold longer. destruct d, a; cbn; f_equal; lia.
Qed.
Lemma longer_0 d a : longer d a 0 = d.
Proof. unfold longer. rewrite Nat.add_0_r. destruct d, a; reflexivity. Qed.
Lemma grow_result N d a : first_greatest d a -> forall fuel n d', grow fuel N (longer d a n) = Some d' -> (n = 0 \/ product (longer d a (n - 1)) < N) ->
  exists m, d' = longer d a m /\ N <= product d' /\ (m = 0 \/ product (longer d a (m - 1)) < N).
Proof.
  intros F. induction fuel as [|fuel IH]; intros n d' G H; cbn [grow] in G; destruct (Nat.ltb_spec (product (longer d a n)) N) as [L|L].
  - discriminate.
  - injection G as <-. exists n. auto.
  - rewrite longer_step in G by exact F. apply IH in G; [exact G|]. right. replace (S n - 1) with n by lia. exact L.
  - injection G as <-. exists n. auto.
Qed.
Lemma grow_mono N fuel : forall fuel' d r, grow fuel N d = Some r -> fuel <= fuel' -> grow fuel' N d = Some r.
Proof.
  induction fuel as [|fuel IH]; intros fuel' d r H L; cbn [grow] in H.
  - destruct (Nat.ltb (product d) N) eqn:E; [discriminate|]. destruct fuel'; cbn [grow]; rewrite E; exact H.
  - destruct (Nat.ltb (product d) N) eqn:E.
    + destruct fuel' as [|fuel']; [lia|]. cbn [grow]. rewrite E. apply IH; [exact H|lia].
    + destruct fuel'; cbn [grow]; rewrite E; exact H.
Qed.
Lemma product_longer d a n : first_greatest d a -> 0 < ix d -> 0 < iy d -> 0 < iz d -> n <= product (longer d a n).
Proof. intros _ X Y Z. unfold product, longer. destruct d as [x y z], a; cbn in *; [assert (1 <= y * z) by nia|assert (1 <= x * z) by nia|assert (1 <= x * y) by nia]; nia. Qed.
Lemma grow_terminates N d : 0 < ix d -> 0 < iy d -> 0 < iz d -> grow N N d <> None.
Proof.
  intros X Y Z. pose proof (max_dim_spec d) as F. set (a := max_dim d) in *. clearbody a.
  assert (G : forall fuel n, N <= fuel + n -> grow fuel N (longer d a n) <> None).
  { induction fuel as [|fuel IH]; intros n L; cbn [grow]; destruct (Nat.ltb_spec (product (longer d a n)) N) as [H|H]; try discriminate.
    - pose proof (product_longer d a n F X Y Z). lia.
    - rewrite longer_step by exact F. apply IH. lia. }
  specialize (G N 0 ltac:(lia)). rewrite longer_0 in G. exact G.
Qed.
Lemma grow_never N d : 0 < N -> (exists a, iget d a = 0) -> (exists a, 0 < iget d a) -> forall fuel, grow fuel N d = None.
Proof.
  intros P [z Z] [p Q] fuel. pose proof (max_dim_spec d) as F. set (a := max_dim d) in *. clearbody a.
  assert (A : z <> a) by (intros ->; destruct F as [F _]; specialize (F p); lia).
  assert (Pr : forall n, product (longer d a n) = 0) by (intros n; unfold product, longer; destruct d as [x y w], a, z; try congruence; cbn in *; nia).
  assert (G : forall fuel n, grow fuel N (longer d a n) = None).
  { induction fuel0 as [|f IH]; intros n; cbn [grow]; rewrite Pr, (proj2 (Nat.ltb_lt _ _) P); [reflexivity|]. rewrite longer_step by exact F. apply IH. }
  specialize (G fuel 0). rewrite longer_0 in G. exact G.
Qed.
Lemma rounded_nearest x : (0 <= x)%R -> nearest x (Z.to_nat (Rround x)).
Proof.
  intros H. unfold nearest.
  assert (E : Rround x = Rfl (x + / 2)%R) by (unfold Rround; destruct (Rle_dec 0 x); [f_equal; lra|lra]).
  rewrite E. pose proof (Rfl_spec (x + / 2)) as S. assert (P : (0 <= Rfl (x + / 2))%Z) by (apply Rfl_le; cbn; lra).
  rewrite INR_IZR_INZ, Z2Nat.id by exact P. lra.
Qed.
Lemma nearest_unique x n m : nearest x n -> nearest x m -> n = m.
Proof.
  unfold nearest. intros [A1 A2] [B1 B2]. assert (INR n < INR m + 1)%R by lra. assert (INR m < INR n + 1)%R by lra. rewrite <- S_INR in *. apply INR_lt in H, H0. lia.
Qed.
Lemma cube_inj x y : (0 < x -> 0 < y -> x * x * x = y * y * y -> x = y)%R.
Proof.
  intros X Y E. assert (Q : ((x - y) * (x * x + x * y + y * y) = 0)%R) by lra. apply Rmult_integral in Q as [Q|Q]; [lra|]. exfalso.
  pose proof (Rmult_lt_0_compat _ _ X X). pose proof (Rmult_lt_0_compat _ _ X Y). pose proof (Rmult_lt_0_compat _ _ Y Y). lra.
Qed.
Lemma target_side b N : constructed b -> 0 < N -> cube_side b N (real_cbrt (box_height b AX * box_height b AY * box_height b AZ / INR N)).
Proof.
  intros C P. pose proof (height_product_pos b C) as HP. unfold height_product in HP. apply lt_0_INR in P. split.
  - apply real_cbrt_pos. apply Rdiv_lt_0_compat; assumption.
  - rewrite real_cbrt_cube. field. lra.
Qed.
Lemma cube_side_unique b N t t' : 0 < N -> cube_side b N t -> cube_side b N t' -> t = t'.
Proof. intros P [T E] [T' E']. apply lt_0_INR in P. apply cube_inj; [exact T|exact T'|]. apply (Rmult_eq_reg_r (INR N)); lra. Qed.
Lemma rounded_dims_spec b N t : constructed b -> 0 < N -> cube_side b N t -> forall a, nearest (box_height b a / t)%R (iget (rounded_dims N b) a).
Proof.
  intros C P S a. pose proof (target_side b N C P) as T. pose proof (cube_side_unique b N _ _ P S T) as E. rewrite E. rewrite <- E in T. destruct T as [T _].
  assert (H : (0 <= box_height b a / t)%R). { pose proof (height_pos b a (proj1 (constructed_valid b) C)). left. apply Rdiv_lt_0_compat; assumption. }
  rewrite E in H. unfold rounded_dims. destruct (Nat.eqb_spec N 0); [lia|]. pose proof (rounded_nearest _ H) as R. destruct a; exact R.
Qed.
Lemma dims_result fuel n m b d : constructed b -> 0 < n -> optimize_dims fuel n m b = Some d ->
  exists cells t r a k, cells_needed n m cells /\ cube_side b cells t /\ (forall a, nearest (box_height b a / t)%R (iget r a)) /\
    first_greatest r a /\ lengthened r a k d /\ cells <= cells_in d /\
    (forall j d', j < k -> lengthened r a j d' -> cells_in d' < cells).
Proof.
  intros C P O. unfold optimize_dims in O. destruct (Nat.eqb_spec m 0) as [|M]; [discriminate|].
  pose proof (num_all_cells_spec n m ltac:(lia)) as N. set (cells := num_all_cells n m) in *. clearbody cells.
  assert (CP : 0 < cells) by (destruct N as [N _]; nia).
  set (r := rounded_dims cells b) in *. pose proof (max_dim_spec r) as F. set (a := max_dim r) in *. clearbody a.
  rewrite <- (longer_0 r a) in O. destruct (grow_result cells r a F fuel 0 d O (or_introl eq_refl)) as (k&E&G&L).
  exists cells, (real_cbrt (box_height b AX * box_height b AY * box_height b AZ / INR cells)), r, a, k.
  pose proof (target_side b cells C CP) as T. split; [exact N|]. split; [exact T|]. split; [exact (rounded_dims_spec b cells _ C CP T)|]. split; [exact F|].
  split; [subst d; apply longer_spec|]. split; [exact G|]. intros j d' J H. apply lengthened_unique in H. subst d'.
  destruct L as [L|L]; [lia|]. eapply Nat.le_lt_trans; [|exact L]. unfold cells_in, product, longer. clear - J. destruct r as [x y z], a; cbn; repeat apply Nat.mul_le_mono; lia.
Qed.
Lemma dims_enough fuel n m b d : optimize_dims fuel n m b = Some d -> n <= cells_in d * m.
Proof.
  intros O. unfold optimize_dims in O. destruct (Nat.eqb_spec m 0) as [|M]; [discriminate|].
  pose proof (num_all_cells_spec n m ltac:(lia)) as [N _]. set (cells := num_all_cells n m) in *. clearbody cells.
  set (r := rounded_dims cells b) in *. pose proof (max_dim_spec r) as F. set (a := max_dim r) in *. clearbody a.
  rewrite <- (longer_0 r a) in O. destruct (grow_result cells r a F fuel 0 d O (or_introl eq_refl)) as (k&E&G&L).
  unfold cells_in. unfold product in G. nia.
Qed.
Lemma nearest_zero x n : nearest x n -> (n = 0 <-> (x < / 2)%R) .
Proof.
  unfold nearest. intros [A B]. split.
  - intros ->. cbn in *. lra.
  - intros L. destruct n as [|n]; [reflexivity|]. rewrite S_INR in *. pose proof (pos_INR n). lra.
Qed.
Lemma dims_terminate n m b cells t : constructed b -> 0 < n -> 0 < m -> cells_needed n m cells -> cube_side b cells t ->
  ((forall a, (t <= 2 * box_height b a)%R) -> exists d, terminates_with (fun fuel => optimize_dims fuel n m b) d) /\
  ((exists a, (2 * box_height b a < t)%R) -> forall fuel, optimize_dims fuel n m b = None).
Proof.
  intros C P M N T. pose proof (cells_needed_unique _ _ _ _ N (num_all_cells_spec n m M)) as E.
  assert (CP : 0 < cells) by (destruct N as [N _]; nia). pose proof (rounded_dims_spec b cells t C CP T) as R. destruct T as [TP TE].
  assert (D : forall fuel, optimize_dims fuel n m b = grow fuel cells (rounded_dims cells b)).
  { intros fuel. unfold optimize_dims. destruct (Nat.eqb_spec m 0); [lia|]. rewrite E. reflexivity. }
  assert (Q : forall a, (t <= 2 * box_height b a <-> / 2 <= box_height b a / t)%R).
  { intros a. split; intros H.
    - apply (Rmult_le_reg_r t); [exact TP|]. unfold Rdiv. rewrite Rmult_assoc, Rinv_l by lra. lra.
    - apply (Rmult_le_compat_r t) in H; [|lra]. unfold Rdiv in H. rewrite Rmult_assoc, Rinv_l in H by lra. lra. }
  set (r := rounded_dims cells b) in *. clearbody r. split.
  - intros A. assert (G : grow cells cells r <> None).
    { assert (Z : forall a, 0 < iget r a). { intros a. pose proof (nearest_zero _ _ (R a)) as Z. specialize (A a). apply Q in A. destruct (iget r a); [|lia]. exfalso. assert (F : (box_height b a / t < / 2)%R) by (apply Z; reflexivity). lra. }
      apply grow_terminates; [apply (Z AX)|apply (Z AY)|apply (Z AZ)]. }
    destruct (grow cells cells r) as [d|] eqn:Gr; [|congruence]. exists d, cells. intros fuel L. rewrite D. apply (grow_mono cells cells); assumption.
  - intros [a A] fuel. rewrite D. apply grow_never; [exact CP| |].
    + exists a. apply (nearest_zero _ _ (R a)). destruct (Rlt_le_dec (box_height b a / t) (/ 2)) as [L|L]; [exact L|]. apply Q in L. lra.
    + assert (Big : forall c, (t <= box_height b c)%R -> 0 < iget r c).
      { intros c L. pose proof (nearest_zero _ _ (R c)) as Z. destruct (iget r c); [|lia]. exfalso.
        assert (F : (box_height b c / t < / 2)%R) by (apply Z; reflexivity).
        apply (Rmult_lt_compat_r t) in F; [|exact TP]. unfold Rdiv in F. rewrite Rmult_assoc, Rinv_l in F by lra. lra. }
      destruct (Rlt_le_dec (box_height b AX) t) as [LX|LX]; [|exists AX; apply Big, LX].
      destruct (Rlt_le_dec (box_height b AY) t) as [LY|LY]; [|exists AY; apply Big, LY].
      destruct (Rlt_le_dec (box_height b AZ) t) as [LZ|LZ]; [|exists AZ; apply Big, LZ].
      { exfalso. assert (HP : forall a, (0 < box_height b a)%R) by (intros c; apply height_pos, constructed_valid, C).
        pose proof (HP AX) as HX. pose proof (HP AY) as HY. pose proof (HP AZ) as HZ.
        assert (1 <= INR cells)%R by (apply (le_INR 1); lia).
        assert (A1 : (box_height b AX * box_height b AY < t * t)%R) by (apply Rmult_gt_0_lt_compat; lra).
        assert (A2 : (box_height b AX * box_height b AY * box_height b AZ < t * t * t)%R) by (apply Rmult_gt_0_lt_compat; try lra; apply Rmult_lt_0_compat; lra).
        assert (A3 : (0 < t * t * t)%R) by (repeat apply Rmult_lt_0_compat; lra). nra. }
Qed.
Lemma cuboid_heights x y z : (0 < x -> 0 < y -> 0 < z -> exists b, constructed b /\ box_height b AX = x /\ box_height b AY = y /\ box_height b AZ = z)%R.
Proof.
  intros X Y Z. destruct (cuboid x y z) as (b&C&_&V&SX&SY&SZ).
  { apply Rgt_not_eq. repeat apply Rmult_lt_0_compat; assumption. }
  exists b. split; [exact C|]. rewrite Rabs_pos_eq in V by (left; repeat apply Rmult_lt_0_compat; assumption).
  assert (Q : forall u v : R, (0 < u -> 0 < v -> sqrt (u * v * (u * v)) = u * v)%R) by (intros u v U W; apply sqrt_square; left; apply Rmult_lt_0_compat; assumption).
  unfold box_height, box_face. rewrite V, SX, SY, SZ. unfold vnorm, vnorm2, vdot, vcross; cbn.
  split; [|split].
  - replace (sqrt _) with (y * z)%R; [field; lra|]. transitivity (sqrt (y * z * (y * z))); [symmetry; apply Q; assumption|f_equal; ring].
  - replace (sqrt _) with (z * x)%R; [field; lra|]. transitivity (sqrt (z * x * (z * x))); [symmetry; apply Q; assumption|f_equal; ring].
  - replace (sqrt _) with (x * y)%R; [field; lra|]. transitivity (sqrt (x * y * (x * y))); [symmetry; apply Q; assumption|f_equal; ring].
Qed.
Lemma flat_box_refuted : exists b, constructed b /\ forall fuel, optimize_dims fuel 8 1 b = None.
Proof.
  destruct (cuboid_heights 100 100 (1/10)) as (b&C&X&Y&Z); try lra. exists b. split; [exact C|].
  destruct (dims_terminate 8 1 b 8 5 C) as [_ F]; [lia|lia|split; [lia|intros; lia]|split; [lra|rewrite X, Y, Z; cbn; lra]|].
  apply F. exists AZ. rewrite Z. lra.
Qed.
Lemma cube_example : exists b, constructed b /\ cells_needed 15 2 8 /\ cube_side b 8 5 /\ (forall a, (5 <= 2 * box_height b a)%R).
Proof.
  destruct (cuboid_heights 5 10 20) as (b&C&X&Y&Z); try lra. exists b. split; [exact C|]. split; [split; [lia|intros; lia]|]. split; [split; [lra|rewrite X, Y, Z; cbn; lra]|].
  intros []; rewrite ?X, ?Y, ?Z; lra.
Qed.
