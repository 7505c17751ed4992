From Coq Require Import ZArith Reals List Bool Arith Lra Lia Psatz.
From Verif Require Import GeomModel GeomProofs BoxModel BoxSpec BoxProofs PbcModel LatticeModel LatticeSpec LatticeProofs CellModel CellSpec.
Import ListNotations.
Local Open Scope R_scope.

(** *** Distances on integer coordinates *)
Record crystal := Crystal { cr_n : Z * Z * Z; cr_w : Z * Z * Z; cr_d : Z; cr_mol : list (Z * Z * Z) }.
Definition dx (p : Z * Z * Z) : Z := fst (fst p).
Definition dy (p : Z * Z * Z) : Z := snd (fst p).
Definition dz (p : Z * Z * Z) : Z := snd p.
Definition diff (c : crystal) (m m' : Z * Z * Z) (i j k : Z) : Z * Z * Z :=
  ((dx (cr_n c) * i + (dx m' - dx m), dy (cr_n c) * j + (dy m' - dy m)), dz (cr_n c) * k + (dz m' - dz m))%Z.
Definition form (c : crystal) (p : Z * Z * Z) : Z := (dx (cr_w c) * (dx p * dx p) + dy (cr_w c) * (dy p * dy p) + dz (cr_w c) * (dz p * dz p))%Z.
Definition close3 : list (Z * Z * Z) := flat_map (fun i => flat_map (fun j => map (fun k => (i, j, k)) [-1; 0; 1]%Z) [-1; 0; 1]%Z) [-1; 0; 1]%Z.
Definition candidates (c : crystal) : list (nat * (Z * Z * Z)) := flat_map (fun n => map (fun s => (n, s)) close3) (seq 0 (length (cr_mol c))).
Definition diff_to (c : crystal) (m : Z * Z * Z) (x : nat * (Z * Z * Z)) : Z * Z * Z :=
  diff c m (nth (fst x) (cr_mol c) (0, 0, 0)%Z) (dx (snd x)) (dy (snd x)) (dz (snd x)).
(** Checked by calculation *)
Definition good_coord (n w d : Z) (l : list Z) : bool :=
  Z.ltb 0 n && Z.leb d (w * (n * n)) && Z.ltb 0 w && forallb (fun x => forallb (fun y => Z.ltb (Z.abs (y - x)) n) l) l.
Definition good (c : crystal) : bool :=
  Z.ltb 0 (cr_d c) && good_coord (dx (cr_n c)) (dx (cr_w c)) (cr_d c) (map dx (cr_mol c)) &&
  good_coord (dy (cr_n c)) (dy (cr_w c)) (cr_d c) (map dy (cr_mol c)) && good_coord (dz (cr_n c)) (dz (cr_w c)) (cr_d c) (map dz (cr_mol c)) &&
  forallb (fun n => forallb (fun x => (Nat.eqb (fst x) n && Z.eqb (dx (snd x)) 0 && Z.eqb (dy (snd x)) 0 && Z.eqb (dz (snd x)) 0)
     || Z.leb (cr_d c) (form c (diff_to c (nth n (cr_mol c) (0, 0, 0)%Z) x))) (candidates c)) (seq 0 (length (cr_mol c))).
Definition close_ones (c : crystal) (P : Z * Z * Z -> bool) (n : nat) : list (nat * (Z * Z * Z)) :=
  filter (fun x => let p := diff_to c (nth n (cr_mol c) (0, 0, 0)%Z) x in Z.eqb (form c p) (cr_d c) && P p) (candidates c).
Definition counts_to (c : crystal) (P : Z * Z * Z -> bool) (count : nat) : bool :=
  forallb (fun n => Nat.eqb (length (close_ones c P n)) count) (seq 0 (length (cr_mol c))).

Lemma far_coord n w d l x y i : good_coord n w d l = true -> In x l -> In y l -> (1 < Z.abs i)%Z -> (d < w * ((n * i + (y - x)) * (n * i + (y - x))))%Z.
Proof.
  unfold good_coord. rewrite !andb_true_iff, forallb_forall. intros [[[N D] W] F] X Y I. apply Z.ltb_lt in N, W. apply Z.leb_le in D.
  specialize (F x X). rewrite forallb_forall in F. specialize (F y Y). apply Z.ltb_lt in F.
  assert (A : (n < Z.abs (n * i + (y - x)))%Z) by nia.
  assert (Q : (n * n < (n * i + (y - x)) * (n * i + (y - x)))%Z) by (rewrite <- (Z.abs_square (n * i + (y - x))); nia). nia.
Qed.
Lemma close3_in i j k : In (i, j, k) close3 <-> (Z.abs i <= 1 /\ Z.abs j <= 1 /\ Z.abs k <= 1)%Z.
Proof.
  unfold close3. rewrite in_flat_map. split.
  - intros (a&A&H). apply in_flat_map in H as (b&B&H). apply in_map_iff in H as (c&E&C). injection E as <- <- <-. cbn in A, B, C. lia.
  - intros (A&B&C). exists i. split; [cbn; lia|]. apply in_flat_map. exists j. split; [cbn; lia|]. apply in_map_iff. exists k. split; [reflexivity|cbn; lia].
Qed.
Lemma candidates_in c n i j k : In (n, (i, j, k)) (candidates c) <-> (n < length (cr_mol c))%nat /\ (Z.abs i <= 1 /\ Z.abs j <= 1 /\ Z.abs k <= 1)%Z.
Proof.
  unfold candidates. rewrite in_flat_map. split.
  - intros (a&A&H). apply in_map_iff in H as (s&E&S). injection E as <- ->. apply in_seq in A. apply close3_in in S. lia.
  - intros [N S]. exists n. split; [apply in_seq; lia|]. apply in_map. apply close3_in, S.
Qed.
Lemma candidates_nodup c : NoDup (candidates c).
Proof.
  assert (C : NoDup close3) by (unfold close3; cbn; repeat constructor; cbn; intuition discriminate).
  unfold candidates. generalize (seq_NoDup (length (cr_mol c)) 0). generalize (seq 0 (length (cr_mol c))). induction l as [|n l IH]; intros N; [constructor|].
  inversion N; subst. cbn [flat_map]. apply NoDup_app_rev || idtac.
  assert (A : forall (X Y : list (nat * (Z * Z * Z))), NoDup X -> NoDup Y -> (forall x, In x X -> ~ In x Y) -> NoDup (X ++ Y)).
  { induction X as [|x X IHX]; intros Y NX NY D; [exact NY|]. inversion NX; subst. cbn. constructor; [rewrite in_app_iff; intros [I|I]; [contradiction|exact (D x (or_introl eq_refl) I)]|]. apply IHX; auto. intros y I. apply D. right. exact I. }
  apply A; [apply FinFun.Injective_map_NoDup; [intros x y E; congruence|exact C]|apply IH; assumption|].
  intros x I J. apply in_map_iff in I as (s&<-&_). apply in_flat_map in J as (n'&I'&J). apply in_map_iff in J as (s'&E&_). congruence.
Qed.
Section Good.
Variables (c : crystal) (G : good c = true).
Lemma good_parts : (0 < cr_d c)%Z /\ good_coord (dx (cr_n c)) (dx (cr_w c)) (cr_d c) (map dx (cr_mol c)) = true /\
  good_coord (dy (cr_n c)) (dy (cr_w c)) (cr_d c) (map dy (cr_mol c)) = true /\ good_coord (dz (cr_n c)) (dz (cr_w c)) (cr_d c) (map dz (cr_mol c)) = true /\
  (forall n x, (n < length (cr_mol c))%nat -> In x (candidates c) -> (fst x = n /\ snd x = (0, 0, 0)%Z) \/ (cr_d c <= form c (diff_to c (nth n (cr_mol c) (0, 0, 0)%Z) x))%Z).
Proof.
  unfold good in G. rewrite !andb_true_iff in G. destruct G as ((((A&B)&C)&D)&F). apply Z.ltb_lt in A. repeat split; auto.
  intros n [m ((i, j), k)] N I. rewrite forallb_forall in F. specialize (F n ltac:(apply in_seq; lia)). rewrite forallb_forall in F. specialize (F _ I).
  apply orb_true_iff in F as [F|F]; [left|right; apply Z.leb_le, F]. rewrite !andb_true_iff in F. destruct F as [[[E X] Y] Z0]. cbn in *. apply Nat.eqb_eq in E. apply Z.eqb_eq in X, Y, Z0. subst. auto.
Qed.
Lemma weights_pos : (0 < dx (cr_w c) /\ 0 < dy (cr_w c) /\ 0 < dz (cr_w c))%Z.
Proof.
  destruct good_parts as (_&A&B&C&_). unfold good_coord in A, B, C. rewrite !andb_true_iff in A, B, C.
  destruct A as [[_ A] _], B as [[_ B] _], C as [[_ C] _]. apply Z.ltb_lt in A, B, C. auto.
Qed.
Lemma far_away n m i j k : (n < length (cr_mol c))%nat -> (m < length (cr_mol c))%nat -> ~ (Z.abs i <= 1 /\ Z.abs j <= 1 /\ Z.abs k <= 1)%Z ->
  (cr_d c < form c (diff_to c (nth n (cr_mol c) (0, 0, 0)%Z) (m, (i, j, k))))%Z.
Proof.
  intros N M H. destruct good_parts as (D&A&B&C&_). destruct weights_pos as (WX&WY&WZ).
  pose proof (nth_In (cr_mol c) (0, 0, 0)%Z N) as IN. pose proof (nth_In (cr_mol c) (0, 0, 0)%Z M) as IM.
  set (p := nth n (cr_mol c) (0, 0, 0)%Z) in *. set (q := nth m (cr_mol c) (0, 0, 0)%Z) in *.
  set (X := (dx (cr_n c) * i + (dx q - dx p))%Z). set (Y := (dy (cr_n c) * j + (dy q - dy p))%Z). set (Zc := (dz (cr_n c) * k + (dz q - dz p))%Z).
  change (cr_d c < dx (cr_w c) * (X * X) + dy (cr_w c) * (Y * Y) + dz (cr_w c) * (Zc * Zc))%Z.
  pose proof (Z.square_nonneg X). pose proof (Z.square_nonneg Y). pose proof (Z.square_nonneg Zc).
  assert (0 <= dx (cr_w c) * (X * X) /\ 0 <= dy (cr_w c) * (Y * Y) /\ 0 <= dz (cr_w c) * (Zc * Zc))%Z by (repeat split; apply Z.mul_nonneg_nonneg; lia).
  destruct (Z_le_dec (Z.abs i) 1) as [I|I].
  - destruct (Z_le_dec (Z.abs j) 1) as [J|J].
    + assert (K : (1 < Z.abs k)%Z) by lia. pose proof (far_coord _ _ _ _ (dz p) (dz q) k C (in_map _ _ _ IN) (in_map _ _ _ IM) K) as FC. fold Zc in FC. lia.
    + assert (K : (1 < Z.abs j)%Z) by lia. pose proof (far_coord _ _ _ _ (dy p) (dy q) j B (in_map _ _ _ IN) (in_map _ _ _ IM) K) as FC. fold Y in FC. lia.
  - assert (K : (1 < Z.abs i)%Z) by lia. pose proof (far_coord _ _ _ _ (dx p) (dx q) i A (in_map _ _ _ IN) (in_map _ _ _ IM) K) as FC. fold X in FC. lia.
Qed.
Lemma at_least n m i j k : (n < length (cr_mol c))%nat -> (m < length (cr_mol c))%nat -> ~ (m = n /\ (i, j, k) = (0, 0, 0)%Z) ->
  (cr_d c <= form c (diff_to c (nth n (cr_mol c) (0, 0, 0)%Z) (m, (i, j, k))))%Z.
Proof.
  intros N M H. destruct (Z_le_dec (Z.abs i) 1) as [I|I]; [|apply Z.lt_le_incl, far_away; auto; lia].
  destruct (Z_le_dec (Z.abs j) 1) as [J|J]; [|apply Z.lt_le_incl, far_away; auto; lia]. destruct (Z_le_dec (Z.abs k) 1) as [K|K]; [|apply Z.lt_le_incl, far_away; auto; lia].
  destruct good_parts as (_&_&_&_&F). destruct (F n (m, (i, j, k)) N ltac:(apply candidates_in; auto)) as [Q|Q]; [exfalso; apply H; exact Q|exact Q].
Qed.
Lemma close_in P n m i j k : (n < length (cr_mol c))%nat ->
  (In (m, (i, j, k)) (close_ones c P n) <-> (m < length (cr_mol c))%nat /\ form c (diff_to c (nth n (cr_mol c) (0, 0, 0)%Z) (m, (i, j, k))) = cr_d c /\ P (diff_to c (nth n (cr_mol c) (0, 0, 0)%Z) (m, (i, j, k))) = true).
Proof.
  intros N. unfold close_ones. rewrite filter_In, candidates_in. cbv zeta. rewrite andb_true_iff, Z.eqb_eq. split; [intuition|].
  intros (M&Fm&Pm). split; [split; [exact M|]|auto]. destruct (Z_le_dec (Z.abs i) 1) as [I|I]; [|pose proof (far_away n m i j k N M ltac:(lia)); lia].
  destruct (Z_le_dec (Z.abs j) 1) as [J|J]; [|pose proof (far_away n m i j k N M ltac:(lia)); lia]. destruct (Z_le_dec (Z.abs k) 1) as [K|K]; [auto|pose proof (far_away n m i j k N M ltac:(lia)); lia].
Qed.
End Good.

(** *** Crystals of cuboidal cells *)
Record represents (c : crystal) (b : box) (ms : list shape) (d : R) (e o : vec) : Prop := {
  r_good : good c = true;
  r_d : 0 < d;
  r_length : length ms = length (cr_mol c);
  r_box : dims b = M33 (IZR (dx (cr_n c)) * vx e) 0 0 0 (IZR (dy (cr_n c)) * vy e) 0 0 0 (IZR (dz (cr_n c)) * vz e);
  r_unit : vx e * vx e * IZR (cr_d c) = d * d * IZR (dx (cr_w c)) /\ vy e * vy e * IZR (cr_d c) = d * d * IZR (dy (cr_w c)) /\ vz e * vz e * IZR (cr_d c) = d * d * IZR (dz (cr_w c));
  r_pos : forall n s, nth_error ms n = Some s -> let m := nth n (cr_mol c) (0, 0, 0)%Z in
    IZR (dx (cr_n c)) * vx (sh_pos s) = IZR (dx m) + vx o /\ IZR (dy (cr_n c)) * vy (sh_pos s) = IZR (dy m) + vy o /\ IZR (dz (cr_n c)) * vz (sh_pos s) = IZR (dz m) + vz o }.
Definition site_diff (c : crystal) (p q : site) : Z * Z * Z :=
  diff_to c (nth (molecule p) (cr_mol c) (0, 0, 0)%Z) (molecule q, (cell_x q - cell_x p, cell_y q - cell_y p, cell_z q - cell_z p)%Z).
Section Represented.
Variables (c : crystal) (b : box) (ms : list shape) (d : R) (e o : vec) (H : represents c b ms d e o).
Lemma located_bound p u : located b ms p u -> (molecule p < length (cr_mol c))%nat.
Proof. intros (s&E&_). rewrite <- (r_length _ _ _ _ _ _ H). apply nth_error_Some. congruence. Qed.
Lemma located_vec p u : located b ms p u -> let m := nth (molecule p) (cr_mol c) (0, 0, 0)%Z in
  u = V3 (vx e * (IZR (dx (cr_n c) * cell_x p + dx m) + vx o)) (vy e * (IZR (dy (cr_n c) * cell_y p + dy m) + vy o)) (vz e * (IZR (dz (cr_n c) * cell_z p + dz m) + vz o)).
Proof.
  intros (s&E&->) m. destruct (r_pos _ _ _ _ _ _ H _ _ E) as (X&Y&W). fold m in X, Y, W. unfold relativeToAbsolute. rewrite (r_box _ _ _ _ _ _ H).
  rewrite !plus_IZR, !mult_IZR. apply vec_ext; cbn.
  - replace (vx e * (IZR (dx (cr_n c)) * IZR (cell_x p) + IZR (dx m) + vx o)) with (vx e * (IZR (dx (cr_n c)) * IZR (cell_x p) + (IZR (dx m) + vx o))) by ring. rewrite <- X. ring.
  - replace (vy e * (IZR (dy (cr_n c)) * IZR (cell_y p) + IZR (dy m) + vy o)) with (vy e * (IZR (dy (cr_n c)) * IZR (cell_y p) + (IZR (dy m) + vy o))) by ring. rewrite <- Y. ring.
  - replace (vz e * (IZR (dz (cr_n c)) * IZR (cell_z p) + IZR (dz m) + vz o)) with (vz e * (IZR (dz (cr_n c)) * IZR (cell_z p) + (IZR (dz m) + vz o))) by ring. rewrite <- W. ring.
Qed.
Lemma located_diff p q u v : located b ms p u -> located b ms q v -> let D := site_diff c p q in
  vsub v u = V3 (vx e * IZR (dx D)) (vy e * IZR (dy D)) (vz e * IZR (dz D)).
Proof.
  intros P Q D. rewrite (located_vec p u P), (located_vec q v Q). unfold D, site_diff, diff_to, diff. cbn [fst snd]. cbv [dx dy dz fst snd].
  apply vec_ext; cbn; rewrite ?plus_IZR, ?mult_IZR, ?minus_IZR; ring.
Qed.
Lemma located_norm p q u v : located b ms p u -> located b ms q v -> vnorm2 (vsub v u) * IZR (cr_d c) = d * d * IZR (form c (site_diff c p q)).
Proof.
  intros P Q. rewrite (located_diff p q u v P Q). unfold form. rewrite !plus_IZR, !mult_IZR. destruct (r_unit _ _ _ _ _ _ H) as (X&Y&W). unfold vnorm2, vdot. cbn [vx vy vz].
  set (D := site_diff c p q).
  replace ((vx e * IZR (dx D) * (vx e * IZR (dx D)) + vy e * IZR (dy D) * (vy e * IZR (dy D)) + vz e * IZR (dz D) * (vz e * IZR (dz D))) * IZR (cr_d c))
    with ((vx e * vx e * IZR (cr_d c)) * (IZR (dx D) * IZR (dx D)) + (vy e * vy e * IZR (cr_d c)) * (IZR (dy D) * IZR (dy D)) + (vz e * vz e * IZR (cr_d c)) * (IZR (dz D) * IZR (dz D))) by ring.
  rewrite X, Y, W. ring.
Qed.
Lemma d_pos : 0 < IZR (cr_d c).
Proof. apply IZR_lt. exact (proj1 (good_parts c (r_good _ _ _ _ _ _ H))). Qed.
Lemma norm_le v : d <= vnorm v <-> d * d <= vnorm2 v.
Proof.
  pose proof (r_d _ _ _ _ _ _ H) as D. unfold vnorm. split; intros L.
  - rewrite <- (sqrt_sqrt (vnorm2 v)); [apply Rmult_le_compat; lra|]. unfold vnorm2, vdot. pose proof (Rle_0_sqr (vx v)). pose proof (Rle_0_sqr (vy v)). pose proof (Rle_0_sqr (vz v)). unfold Rsqr in *. lra.
  - rewrite <- (sqrt_square d) by lra. apply sqrt_le_1_alt. exact L.
Qed.
Lemma norm_eq v : vnorm v = d <-> vnorm2 v = d * d.
Proof.
  pose proof (r_d _ _ _ _ _ _ H) as D. unfold vnorm. split; intros L.
  - rewrite <- L. symmetry. apply sqrt_sqrt. unfold vnorm2, vdot. pose proof (Rle_0_sqr (vx v)). pose proof (Rle_0_sqr (vy v)). pose proof (Rle_0_sqr (vz v)). unfold Rsqr in *. lra.
  - rewrite L. apply sqrt_square. lra.
Qed.
Lemma form_le p q u v : located b ms p u -> located b ms q v -> (d <= vnorm (vsub v u) <-> (cr_d c <= form c (site_diff c p q))%Z).
Proof.
  intros P Q. rewrite norm_le. pose proof (located_norm p q u v P Q) as N. pose proof d_pos as DP. pose proof (r_d _ _ _ _ _ _ H) as D. assert (DD : 0 < d * d) by nra. split; intros L.
  - apply le_IZR. apply (Rmult_le_reg_l (d * d)); [exact DD|]. rewrite <- N. apply Rmult_le_compat_r; lra.
  - apply IZR_le in L. apply (Rmult_le_reg_r (IZR (cr_d c))); [exact DP|]. rewrite N. apply Rmult_le_compat_l; lra.
Qed.
Lemma form_eq p q u v : located b ms p u -> located b ms q v -> (vnorm (vsub v u) = d <-> form c (site_diff c p q) = cr_d c).
Proof.
  intros P Q. rewrite norm_eq. pose proof (located_norm p q u v P Q) as N. pose proof d_pos as DP. pose proof (r_d _ _ _ _ _ _ H) as D. assert (DD : 0 < d * d) by nra. split; intros L.
  - rewrite L in N. apply eq_IZR. apply Rmult_eq_reg_l in N; lra.
  - rewrite L in N. apply Rmult_eq_reg_r in N; lra.
Qed.
Lemma apart p q u v : located b ms p u -> located b ms q v -> p <> q -> d <= vnorm (vsub v u).
Proof.
  intros P Q NE. apply (form_le p q u v P Q). unfold site_diff. apply at_least; [exact (r_good _ _ _ _ _ _ H)|exact (located_bound p u P)|exact (located_bound q v Q)|].
  intros [M E]. injection E as X Y W. apply NE. destruct p, q; cbn in *. f_equal; lia || auto.
Qed.
Lemma number_close P count p u : counts_to c P count = true -> located b ms p u ->
  number_of (fun q => exists v, located b ms q v /\ vnorm (vsub v u) = d /\ P (site_diff c p q) = true) count.
Proof.
  intros C L. pose proof (r_good _ _ _ _ _ _ H) as G. pose proof (located_bound p u L) as B. unfold counts_to in C. rewrite forallb_forall in C. specialize (C (molecule p) ltac:(apply in_seq; lia)). apply Nat.eqb_eq in C.
  exists (map (fun x => Site (fst x) (cell_x p + dx (snd x)) (cell_y p + dy (snd x)) (cell_z p + dz (snd x))%Z) (close_ones c P (molecule p))). split; [|split].
  - apply FinFun.Injective_map_NoDup; [|apply NoDup_filter, candidates_nodup]. intros [n ((i, j), k)] [n' ((i', j'), k')] E. cbv [dx dy dz fst snd] in E. injection E as -> X Y W.
    replace i' with i by lia. replace j' with j by lia. replace k' with k by lia. reflexivity.
  - rewrite map_length. exact C.
  - intros q. rewrite in_map_iff. split.
    + intros ([n ((i, j), k)]&<-&I). apply (close_in c G) in I; [|exact B]. destruct I as (N&F&PP). cbv [dx dy dz fst snd].
      destruct (nth_error ms n) as [s|] eqn:E; [|apply nth_error_None in E; rewrite (r_length _ _ _ _ _ _ H) in E; lia].
      set (q := Site n (cell_x p + i) (cell_y p + j) (cell_z p + k)). pose (v := relativeToAbsolute b (vadd (V3 (IZR (cell_x q)) (IZR (cell_y q)) (IZR (cell_z q))) (sh_pos s))).
      assert (LQ : located b ms q v) by (exists s; split; [exact E|reflexivity]).
      assert (SD : site_diff c p q = diff_to c (nth (molecule p) (cr_mol c) (0, 0, 0)%Z) (n, (i, j, k))).
      { unfold site_diff. subst q. cbn [molecule cell_x cell_y cell_z]. f_equal. f_equal. f_equal; [f_equal|]; lia. }
      exists v. split; [exact LQ|]. split; [apply (form_eq p q u v L LQ); rewrite SD; exact F|rewrite SD; exact PP].
    + intros (v&LQ&N&PP). exists (molecule q, (cell_x q - cell_x p, cell_y q - cell_y p, cell_z q - cell_z p)%Z). split.
      * cbv [dx dy dz fst snd]. destruct q as [qm qx qy qz]. cbn [molecule cell_x cell_y cell_z]. f_equal; lia.
      * apply (close_in c G); [exact B|]. split; [exact (located_bound q v LQ)|]. split; [apply (form_eq p q u v L LQ); exact N|exact PP].
Qed.
Lemma neighbours_are n : counts_to c (fun _ => true) n = true -> nearest_neighbours b ms d n.
Proof.
  intros C. split; [exact apart|]. intros p u L. destruct (number_close _ n p u C L) as (l&ND&LE&I). exists l. split; [exact ND|]. split; [exact LE|]. intros q. rewrite I. split; intros (v&A&B); exists v; intuition.
Qed.
Definition along (a : axis) (p : Z * Z * Z) : Z := match a with AX => dx p | AY => dy p | AZ => dz p end.
Lemma above_are a h n : 0 < vget e a -> counts_to c (fun p => Z.eqb (along a p) h) n = true -> neighbours_above b ms d a (vget e a * IZR h) n.
Proof.
  intros PE C p u L. destruct (number_close _ n p u C L) as (l&ND&LE&I). exists l. split; [exact ND|]. split; [exact LE|]. intros q. rewrite I.
  assert (K : forall v, located b ms q v -> (vget v a = vget u a + vget e a * IZR h <-> Z.eqb (along a (site_diff c p q)) h = true)).
  { intros v Q. pose proof (located_diff p q u v L Q) as D. cbv zeta in D. rewrite Z.eqb_eq.
    assert (T : vget v a - vget u a = vget e a * IZR (along a (site_diff c p q))) by (apply (f_equal (fun w => vget w a)) in D; destruct a; cbn in D |- *; exact D).
    split; intros X; [|rewrite X in T; lra]. apply eq_IZR. apply (Rmult_eq_reg_l (vget e a)); lra. }
  split; intros (v&A&B&X); exists v; (split; [exact A|]); (split; [exact B|]); apply (K v A); exact X.
Qed.
End Represented.
