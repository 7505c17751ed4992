From Coq Require Import Reals ZArith List Bool Arith Lia Lra Psatz.
From Coquelicot Require Import Coquelicot.
From Verif Require Import TextModel GeomModel GeomProofs PbcModel SegErrorProofs GeoModel GeoProofs GeoShapesProofs ShapesModel XcModel XcSpec XcPrimProofs XcOpProofs XcMaxProofs XcBuildProofs VolSpec VolProofs BeadsProofs WedgeModel WedgeSpec WedgeProofs WedgePartProofs OptModel.
Import ListNotations.
Open Scope R_scope.

(** *** The hull of two rectangles is the union of the rectangles between them. *)
Definition between_z (p q t : R) : R := (1 - t) * p + t * q.
Definition layer (xb yb xt yt zb zt t : R) : body := fun y => Rabs (vx y) <= between_z xb xt t / 2 /\ Rabs (vy y) <= between_z yb yt t / 2 /\ vz y = between_z zb zt t.
Definition frustum (xb yb xt yt zb zt : R) : body := fun y => exists t, 0 <= t <= 1 /\ layer xb yb xt yt zb zt t y.
Lemma abs_mix a b p q m : Rabs a <= p -> Rabs b <= q -> 0 <= m <= 1 -> Rabs ((1 - m) * a + m * b) <= (1 - m) * p + m * q.
Proof. intros A B M. eapply Rle_trans; [apply Rabs_triang|]. rewrite !Rabs_mult, (Rabs_pos_eq (1 - m)), (Rabs_pos_eq m) by lra. nra. Qed.
Lemma frustum_convex xb yb xt yt zb zt : convex (frustum xb yb xt yt zb zt).
Proof.
  intros x y m (t&T&X1&X2&X3) (t'&T'&Y1&Y2&Y3) M. exists ((1 - m) * t + m * t'). split; [nra|]. unfold layer. cbn [vadd vscale vx vy vz]. split; [|split].
  - pose proof (abs_mix _ _ _ _ m X1 Y1 M) as H. unfold between_z in *. lra.
  - pose proof (abs_mix _ _ _ _ m X2 Y2 M) as H. unfold between_z in *. lra.
  - rewrite X3, Y3. unfold between_z. ring.
Qed.
Lemma abs_le a b : - b <= a <= b <-> Rabs a <= b. Proof. split; [intros; apply Rabs_le; lra|]. intros H. pose proof (Rle_abs a). pose proof (Rle_abs (- a)) as K. rewrite Rabs_Ropp in K. lra. Qed.
Lemma split_width x p q t : 0 <= p -> 0 <= q -> 0 <= t <= 1 -> Rabs x <= between_z p q t / 2 -> exists a b, Rabs a <= p / 2 /\ Rabs b <= q / 2 /\ x = (1 - t) * a + t * b.
Proof.
  intros P Q T H. unfold between_z in H. set (w := (1 - t) * p + t * q) in *. assert (0 <= w) by (unfold w; nra). destruct (Req_dec w 0) as [W|W].
  - exists 0, 0. rewrite Rabs_R0. repeat split; [lra..|]. rewrite W in H. replace (0 / 2) with 0 in H by field. pose proof (Rabs_pos x). assert (E : Rabs x = 0) by lra. destruct (Req_dec x 0) as [->|N]; [ring|]. apply Rabs_no_R0 in N. contradiction.
  - exists (x / w * p), (x / w * q). assert (F : Rabs (x / w) <= 1 / 2). { unfold Rdiv. rewrite Rabs_mult, (Rabs_pos_eq (/ w)) by (apply Rlt_le, Rinv_0_lt_compat; lra). apply Rmult_le_reg_r with w; [lra|]. rewrite Rmult_assoc, Rinv_l by lra. lra. }
    pose proof (Rabs_pos (x / w)). rewrite !Rabs_mult, (Rabs_pos_eq p), (Rabs_pos_eq q) by assumption. split; [nra|]. split; [nra|]. transitivity (x / w * w); [field; exact W|]. unfold w. ring.
Qed.
Lemma frustum_hull xb yb xt yt zb zt y : 0 <= xb -> 0 <= yb -> 0 <= xt -> 0 <= yt ->
  hull [lifted (cuboid_body (xb / 2) (yb / 2) 0) zb; lifted (cuboid_body (xt / 2) (yt / 2) 0) zt] y <-> frustum xb yb xt yt zb zt y.
Proof.
  intros A B C D. split.
  - intros H. apply H; [apply frustum_convex|]. intros b x [<-|[<-|[]]] X; apply lifted_at in X; destruct X as (X1&X2&X3); cbn [vsub vx vy vz] in *; rewrite Rminus_0_r in *; apply (proj1 (abs_le _ _)) in X1; apply (proj1 (abs_le _ _)) in X2.
    + exists 0. unfold layer, between_z. repeat split; lra.
    + exists 1. unfold layer, between_z. repeat split; lra.
  - intros (t&T&H1&H2&H3) c CC I. destruct (split_width _ _ _ _ A C T H1) as (a1&b1&A1&B1&E1). destruct (split_width _ _ _ _ B D T H2) as (a2&b2&A2&B2&E2).
    replace y with (vadd (vscale (1 - t) (V3 a1 a2 zb)) (vscale t (V3 b1 b2 zt))) by (apply vec_ext; cbn; unfold between_z in H3; lra).
    apply CC; [| |exact T].
    + apply (I (lifted (cuboid_body (xb / 2) (yb / 2) 0) zb)); [left; reflexivity|]. apply lifted_at. unfold cuboid_body. cbn [vsub vx vy vz]. apply (proj2 (abs_le _ _)) in A1; apply (proj2 (abs_le _ _)) in A2. lra.
    + apply (I (lifted (cuboid_body (xt / 2) (yt / 2) 0) zt)); [right; left; reflexivity|]. apply lifted_at. unfold cuboid_body. cbn [vsub vx vy vz]. apply (proj2 (abs_le _ _)) in B1; apply (proj2 (abs_le _ _)) in B2. lra.
Qed.
Lemma layer_lift xb yb xt yt zb zt h t y : layer xb yb xt yt zb zt t (vsub y (V3 0 0 h)) <-> layer xb yb xt yt (zb + h) (zt + h) t y.
Proof. unfold layer, between_z. cbn [vsub vx vy vz]. rewrite !Rminus_0_r. split; intros (A&B&C); repeat split; auto; lra. Qed.
Lemma layer_part xb yb xt yt zb zt a b t y : layer (between_z xb xt a) (between_z yb yt a) (between_z xb xt b) (between_z yb yt b) (between_z zb zt a) (between_z zb zt b) t y <-> layer xb yb xt yt zb zt (between_z a b t) y.
Proof.
  unfold layer. assert (E : forall p q, between_z (between_z p q a) (between_z p q b) t = between_z p q (between_z a b t)) by (intros; unfold between_z; ring). rewrite !E. reflexivity.
Qed.
Lemma between_solve a b k : a < b -> a <= k <= b -> exists t, 0 <= t <= 1 /\ k = between_z a b t.
Proof.
  intros L K. exists ((k - a) / (b - a)). unfold between_z. split; [|field; lra]. split; [apply Rdiv_le_0_compat; lra|]. apply Rmult_le_reg_r with (b - a); [lra|]. unfold Rdiv. rewrite Rmult_assoc, Rinv_l by lra. lra.
Qed.

(** *** The geometry *)
Lemma fmin_le a b : fmin a b <= a /\ fmin a b <= b. Proof. unfold fmin. destruct (Rltb b a) eqn:E; [apply Rltb_true in E|apply Rltb_false in E]; lra. Qed.
Lemma fmax_ge a b : a <= fmax a b /\ b <= fmax a b. Proof. unfold fmax. destruct (Rltb a b) eqn:E; [apply Rltb_true in E|apply Rltb_false in E]; lra. Qed.
Lemma fmin_pos a b : 0 <= a -> 0 <= b -> 0 <= fmin a b. Proof. unfold fmin. destruct (Rltb b a); auto. Qed.
Lemma signed_abs n h : signed n h * n = h * Rabs n. Proof. unfold signed. destruct (Rltb n 0) eqn:E; [apply Rltb_true in E; rewrite Rabs_left by lra; ring|apply Rltb_false in E; rewrite Rabs_pos_eq by lra; ring]. Qed.
Lemma signed_width n h : Rabs (signed n h) = Rabs h. Proof. unfold signed. destruct (Rltb n 0); [apply Rabs_Ropp|reflexivity]. Qed.
Lemma sign_bound x n h : Rabs x <= h -> x * n <= h * Rabs n.
Proof. intros H. eapply Rle_trans; [apply Rle_abs|]. rewrite Rabs_mult. apply Rmult_le_compat_r; [apply Rabs_pos|exact H]. Qed.
Lemma polyhedral_made xb yb xt yt len : (exists g, polyhedral_xc xb yb xt yt len = Some g) <-> (0 < xt /\ 0 < yb \/ 0 < yt /\ 0 < xb) /\ 0 < len.
Proof.
  unfold polyhedral_xc. assert (E : ((Rltb 0 xt && Rltb 0 yb || Rltb 0 yt && Rltb 0 xb) && Rltb 0 len)%bool = true <-> (0 < xt /\ 0 < yb \/ 0 < yt /\ 0 < xb) /\ 0 < len) by (rewrite andb_true_iff, orb_true_iff, !andb_true_iff, !Rltb_true; reflexivity).
  destruct (_ && Rltb 0 len)%bool; rewrite <- E; split; [reflexivity|eauto|intros (?&?); discriminate|discriminate].
Qed.
Lemma polyhedral_describes xb yb xt yt len g : 0 <= xb -> 0 <= yb -> 0 <= xt -> 0 <= yt -> polyhedral_xc xb yb xt yt len = Some g -> describes g (polyhedral_body xb yb xt yt len).
Proof.
  intros A B C D G. destruct (proj1 (polyhedral_made xb yb xt yt len)) as (_&L); [eauto|]. revert G. unfold polyhedral_xc. destruct (_ && Rltb 0 len)%bool; [|discriminate]. intros [= <-].
  set (up := V3 (xt / 2) (yt / 2) (len / 2)). set (down := V3 (xb / 2) (yb / 2) (- len / 2)). set (rho := fmin (fmin (fmin xt yt) (fmin xb yb)) len / 2).
  assert (IN : forall y, polyhedral_body xb yb xt yt len y <-> frustum xb yb xt yt (- len / 2) (len / 2) y) by (intros y; apply frustum_hull; assumption).
  assert (RB : 0 <= rho /\ rho <= xt / 2 /\ rho <= yt / 2 /\ rho <= xb / 2 /\ rho <= yb / 2 /\ rho <= len / 2).
  { unfold rho. pose proof (fmin_le (fmin (fmin xt yt) (fmin xb yb)) len). pose proof (fmin_le (fmin xt yt) (fmin xb yb)). pose proof (fmin_le xt yt). pose proof (fmin_le xb yb). pose proof (fmin_pos (fmin (fmin xt yt) (fmin xb yb)) len) as F. assert (0 <= fmin (fmin xt yt) (fmin xb yb)) by (apply fmin_pos; apply fmin_pos; assumption). specialize (F ltac:(assumption) ltac:(lra)). lra. }
  assert (FI : forall y, vnorm y <= rho -> polyhedral_body xb yb xt yt len y).
  { intros y H. apply (proj2 (IN _)). assert (N2 : vnorm2 y <= rho ^ 2) by (apply norm_bound; [lra|exact H]). unfold vnorm2, vdot in N2. assert (Rabs (vx y) <= rho /\ Rabs (vy y) <= rho /\ Rabs (vz y) <= rho) as (X&Y&Z) by (split; [|split]; apply (proj1 (abs_le _ _)); split; nra).
    apply (proj2 (abs_le _ _)) in Z. exists (vz y / len + 1 / 2). assert (T : 0 <= vz y / len + 1 / 2 <= 1). { assert (E : vz y / len = vz y * / len) by reflexivity. assert (I : 0 < / len) by (apply Rinv_0_lt_compat; lra). assert (II : len * / len = 1) by (apply Rinv_r; lra). rewrite E. nra. }
    split; [exact T|]. unfold layer, between_z. split; [|split; [|field; lra]]; nra. }
  assert (ZZ : polyhedral_body xb yb xt yt len vzero) by (apply FI; rewrite vnorm_zero; lra).
  split; [|split; [|split; [|split; [exact ZZ|cbn [xc_insphere]; lra]]]].
  - split; [apply hull_convex|]. split; [exact ZZ|]. intros n N. cbn [xc_support]. eexists. split; [reflexivity|]. unfold polyhedral_support. cbn [vx vy vz up down].
    set (u := V3 (signed (vx n) (xt / 2)) (signed (vy n) (yt / 2)) (len / 2)). set (d := V3 (signed (vx n) (xb / 2)) (signed (vy n) (yb / 2)) (- len / 2)).
    assert (UI : polyhedral_body xb yb xt yt len u) by (apply (proj2 (IN _)); exists 1; unfold layer, between_z, u; cbn [vx vy vz]; rewrite !signed_width, !Rabs_pos_eq by lra; repeat split; lra).
    assert (DI : polyhedral_body xb yb xt yt len d) by (apply (proj2 (IN _)); exists 0; unfold layer, between_z, d; cbn [vx vy vz]; rewrite !signed_width, !Rabs_pos_eq by lra; repeat split; lra).
    assert (MX : forall y, polyhedral_body xb yb xt yt len y -> exists t, 0 <= t <= 1 /\ vdot y n <= (1 - t) * vdot d n + t * vdot u n).
    { intros y Y. apply (proj1 (IN _)) in Y. destruct Y as (t&T&Y1&Y2&Y3). exists t. split; [exact T|]. pose proof (sign_bound _ (vx n) _ Y1) as S1. pose proof (sign_bound _ (vy n) _ Y2) as S2. unfold vdot, u, d. cbn [vx vy vz]. rewrite Y3. pose proof (signed_abs (vx n) (xt / 2)). pose proof (signed_abs (vx n) (xb / 2)). pose proof (signed_abs (vy n) (yt / 2)). pose proof (signed_abs (vy n) (yb / 2)). unfold between_z in *.
      replace ((1 - t) * (signed (vx n) (xb / 2) * vx n + signed (vy n) (yb / 2) * vy n + - len / 2 * vz n) + t * (signed (vx n) (xt / 2) * vx n + signed (vy n) (yt / 2) * vy n + len / 2 * vz n))
        with ((1 - t) * (xb / 2 * Rabs (vx n) + yb / 2 * Rabs (vy n) + - len / 2 * vz n) + t * (xt / 2 * Rabs (vx n) + yt / 2 * Rabs (vy n) + len / 2 * vz n)) by congruence. nra. }
    assert (DD : vdot (vsub u d) n = vdot u n - vdot d n) by (unfold vdot; cbn [vsub vx vy vz]; ring). destruct (Rltb 0 (vdot (vsub u d) n)) eqn:E; [apply Rltb_true in E|apply Rltb_false in E]; rewrite DD in E; (split; [assumption|]); intros y Y; destruct (MX y Y) as (t&T&H); nra.
  - intros y Y. apply (proj1 (IN _)) in Y. destruct Y as (t&T&Y1&Y2&Y3). cbn [xc_circumsphere]. pose proof (fmax_ge (vnorm up) (vnorm down)) as F. set (w := V3 (between_z xb xt t / 2) (between_z yb yt t / 2) (vz y)).
    assert (NW : vnorm y <= vnorm w). { unfold vnorm. apply sqrt_le_1_alt. unfold vnorm2, vdot, w. cbn [vx vy vz]. apply (proj2 (abs_le _ _)) in Y1; apply (proj2 (abs_le _ _)) in Y2. nra. }
    assert (EW : w = vadd (vscale (1 - t) down) (vscale t up)) by (unfold w, up, down; apply vec_ext; cbn [vx vy vz vadd vscale]; rewrite ?Y3; unfold between_z; field).
    pose proof (vnorm_triangle (vscale (1 - t) down) (vscale t up)) as TR. rewrite <- EW, !vnorm_scale, !Rabs_pos_eq in TR by lra. nra.
  - intros y Y. apply FI. cbn [xc_insphere] in Y. fold rho in Y. lra.
Qed.

(** *** The volume *)
Lemma prism_int xb yb xt yt len : 0 < len -> is_RInt (fun z => between_z xb xt (z / len + 1 / 2) * between_z yb yt (z / len + 1 / 2)) (- len / 2) (len / 2) (polyhedral_volume xb yb xt yt len).
Proof.
  intros L. set (a := (xb + xt) / 2). set (b := (yb + yt) / 2). set (p := (xt - xb) / len). set (q := (yt - yb) / len).
  pose (F := fun z => a * b * z + (a * q + b * p) * z ^ 2 / 2 + p * q * z ^ 3 / 3). eapply int_eq.
  - apply (int_on (fun z => (a + p * z) * (b + q * z))); [lra| |].
    + intros z _. unfold between_z, a, b, p, q. field. lra.
    + apply (is_RInt_derive (V := R_CompleteNormedModule) F (fun z => (a + p * z) * (b + q * z))).
      * intros z _. unfold F. auto_derive; [exact I|]. field.
      * intros z _. apply (ex_derive_continuous (V := R_NormedModule)). auto_derive. exact I.
  - change (F (len / 2) - F (- len / 2) = polyhedral_volume xb yb xt yt len). unfold F, polyhedral_volume, a, b, p, q. field. lra.
Qed.
Lemma polyhedral_volume_spec xb yb xt yt len : 0 <= xb -> 0 <= yb -> 0 <= xt -> 0 <= yt -> 0 < len -> volume (polyhedral_body xb yb xt yt len) (polyhedral_volume xb yb xt yt len).
Proof.
  intros A B C D L. assert (IN : forall y, polyhedral_body xb yb xt yt len y <-> frustum xb yb xt yt (- len / 2) (len / 2) y) by (intros y; apply frustum_hull; assumption).
  assert (TZ : forall t, between_z (- len / 2) (len / 2) t / len + 1 / 2 = t) by (intros; unfold between_z; field; lra).
  set (area := fun z => if Rltb z (- len / 2) then 0 else if Rltb (len / 2) z then 0 else between_z xb xt (z / len + 1 / 2) * between_z yb yt (z / len + 1 / 2)).
  exists area, (- len / 2), (len / 2). split; [lra|]. split; [|split].
  - intros y Y. apply (proj1 (IN _)) in Y. destruct Y as (t&T&_&_&->). unfold between_z. nra.
  - intros z. unfold area. destruct (Rltb z (- len / 2)) eqn:E1; [apply Rltb_true in E1|apply Rltb_false in E1].
    { apply sec_empty. intros x y H. apply (proj1 (IN _)) in H. destruct H as (t&T&_&_&H). cbn [vz] in H. unfold between_z in H. nra. }
    destruct (Rltb (len / 2) z) eqn:E2; [apply Rltb_true in E2|apply Rltb_false in E2].
    { apply sec_empty. intros x y H. apply (proj1 (IN _)) in H. destruct H as (t&T&_&_&H). cbn [vz] in H. unfold between_z in H. nra. }
    assert (T : 0 <= z / len + 1 / 2 <= 1). { assert (E : z / len = z * / len) by reflexivity. assert (I : 0 < / len) by (apply Rinv_0_lt_compat; lra). assert (II : len * / len = 1) by (apply Rinv_r; lra). rewrite E. nra. }
    apply sec_rectangle; [unfold between_z; nra..|]. intros x y. rewrite IN. split.
    + intros (t&_&H1&H2&H3). cbn [vx vy vz] in *. rewrite H3, TZ. auto.
    + intros (H1&H2). exists (z / len + 1 / 2). split; [exact T|]. split; [exact H1|]. split; [exact H2|]. cbn [vz]. unfold between_z. field. lra.
  - apply (int_on (fun z => between_z xb xt (z / len + 1 / 2) * between_z yb yt (z / len + 1 / 2))); [lra| |apply prism_int; exact L]. intros z Z. unfold area. rewrite !(proj2 (Rltb_false _ _)) by lra. reflexivity.
Qed.

(** *** The parts *)
Lemma polyhedral_loop_spec xb yb xt yt len N : 0 <= xb -> 0 <= yb -> 0 <= xt -> 0 <= yt -> (0 < xt /\ 0 < yb \/ 0 < yt /\ 0 < xb) -> 0 < len -> (1 <= N)%nat ->
  forall n i, (i + n = N)%nat ->
  exists data bodies, polyhedral_loop n i xt yt len (len / INR N) ((xb - xt) / INR N) ((yb - yt) / INR N) = Some data /\ Forall2 (fun d p => describes (fst d) p) data bodies /\ length data = n /\
    ((1 <= n)%nat -> forall y, (exists j d p, nth_error data j = Some d /\ nth_error bodies j = Some p /\ placed p (snd d) mid y) <-> exists k, 0 <= k <= 1 - INR i / INR N /\ layer xb yb xt yt (- len / 2) (len / 2) k y).
Proof.
  intros A B C D H L NN. assert (NP : 0 < INR N) by (apply (lt_INR 0); lia). induction n as [|n IH]; intros i E.
  - exists [], []. split; [reflexivity|]. split; [constructor|]. split; [reflexivity|]. lia.
  - destruct (IH (S i) ltac:(lia)) as (data&bodies&EL&F&LE&UN). set (a := 1 - INR (S i) / INR N). set (b := 1 - INR i / INR N).
    assert (IA : INR i + 1 <= INR N) by (rewrite <- S_INR; apply le_INR; lia). pose proof (pos_INR i) as IP. assert (ID : 0 < / INR N) by (apply Rinv_0_lt_compat; exact NP). assert (IE : INR N * / INR N = 1) by (apply Rinv_r; lra).
    assert (AB : 0 <= a /\ a < b /\ b <= 1 /\ 0 < b /\ a < 1) by (unfold a, b, Rdiv; rewrite S_INR; repeat split; nra).
    assert (W : forall p q, q + INR (i + 1) * ((p - q) / INR N) = between_z p q a) by (intros; unfold between_z, a; rewrite Nat.add_1_r, !S_INR; field; lra).
    assert (V : forall p q, q + INR i * ((p - q) / INR N) = between_z p q b) by (intros; unfold between_z, b; field; lra).
    assert (DL : 0 < len / INR N) by (apply Rdiv_lt_0_compat; lra).
    assert (MP : forall p q t, 0 <= p -> 0 <= q -> 0 <= t <= 1 -> 0 <= between_z p q t) by (intros; unfold between_z; nra).
    assert (MT : forall p q t, 0 <= p -> 0 < q -> 0 < t <= 1 -> 0 < between_z p q t) by (intros; unfold between_z; nra).
    assert (MB : forall p q t, 0 < p -> 0 <= q -> 0 <= t < 1 -> 0 < between_z p q t) by (intros; unfold between_z; nra).
    destruct (proj2 (polyhedral_made (between_z xb xt a) (between_z yb yt a) (between_z xb xt b) (between_z yb yt b) (len / INR N))) as (g&G).
    { split; [|exact DL]. destruct H as [(H1&H2)|(H1&H2)]; [left|right]; (split; [apply MT|apply MB]); lra. }
    assert (DG : describes g (polyhedral_body (between_z xb xt a) (between_z yb yt a) (between_z xb xt b) (between_z yb yt b) (len / INR N))) by (apply polyhedral_describes; auto; apply MP; lra).
    set (h := len / 2 - (INR i + 1 / 2) * (len / INR N)). exists ((g, V3 0 0 h) :: data), (polyhedral_body (between_z xb xt a) (between_z yb yt a) (between_z xb xt b) (between_z yb yt b) (len / INR N) :: bodies). split; [|split; [|split]].
    + cbn [polyhedral_loop]. rewrite !W, !V, G. cbn [obind]. rewrite EL. reflexivity.
    + constructor; auto.
    + cbn [length]. congruence.
    + intros _ y. rewrite ex_parts. cbn [snd]. rewrite placed_at. unfold polyhedral_body. rewrite frustum_hull by (apply MP; lra). unfold frustum.
      assert (LP : (exists t, 0 <= t <= 1 /\ layer (between_z xb xt a) (between_z yb yt a) (between_z xb xt b) (between_z yb yt b) (- (len / INR N) / 2) (len / INR N / 2) t (vsub y (V3 0 0 h))) <-> exists k, a <= k <= b /\ layer xb yb xt yt (- len / 2) (len / 2) k y).
      { assert (Z1 : - (len / INR N) / 2 + h = between_z (- len / 2) (len / 2) a) by (unfold h, between_z, a; rewrite S_INR; field; lra). assert (Z2 : len / INR N / 2 + h = between_z (- len / 2) (len / 2) b) by (unfold h, between_z, b; field; lra).
        split.
        - intros (t&T&X). apply layer_lift in X. rewrite Z1, Z2 in X. apply layer_part in X. exists (between_z a b t). split; [unfold between_z; nra|exact X].
        - intros (k&K&X). destruct (between_solve a b k ltac:(lra) K) as (t&T&->). exists t. split; [exact T|]. apply layer_lift. rewrite Z1, Z2. apply layer_part. exact X. }
      rewrite LP. clear LP. fold b. destruct n as [|n].
      * assert (data = []) as -> by (destruct data; [reflexivity|discriminate LE]). assert (AZ : a = 0). { unfold a. replace (S i) with N by lia. field. lra. } rewrite AZ. split; [intros [X|([|j]&?&?&X&_)]; [exact X|discriminate..]|intros X; left; exact X].
      * rewrite UN by lia. fold a. split.
        -- intros [(k&K&X)|(k&K&X)]; exists k; (split; [lra|exact X]).
        -- intros (k&K&X). destruct (Rle_or_lt a k); [left|right]; exists k; (split; [lra|exact X]).
Qed.
