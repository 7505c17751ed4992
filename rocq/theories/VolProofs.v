From Coq Require Import Reals List Bool Arith Lia Lra Psatz.
From Coquelicot Require Import Coquelicot.
From Verif Require Import GeomModel GeomProofs SegErrorProofs ShapesModel XcSpec XcPrimProofs VolSpec.
Import ListNotations.
Open Scope R_scope.

(** Integrals of functions which vanish far away *)
Definition whole (h : R -> R) (v : R) : Prop :=
  exists B, 0 <= B /\ (forall z, B <= Rabs z -> h z = 0) /\ forall a c, a <= - B -> B <= c -> is_RInt h a c v.
Lemma int_eq (h : R -> R) a c (v w : R) : is_RInt h a c v -> v = w -> is_RInt h a c w. Proof. intros H <-. exact H. Qed.
Lemma int_zero h a c : a <= c -> (forall z, a < z < c -> h z = 0) -> is_RInt h a c 0.
Proof.
  intros L H. apply is_RInt_ext with (f := fun _ => 0).
  - intros x. rewrite Rmin_left, Rmax_right by lra. intros X. symmetry. apply H. lra.
  - pose proof (is_RInt_const a c (0 : R)) as I. apply (int_eq _ _ _ _ _ I). apply Rmult_0_r.
Qed.
Lemma int_join (h : R -> R) a b c (v w : R) : is_RInt h a b v -> is_RInt h b c w -> is_RInt h a c (v + w). Proof. intros H K. exact (is_RInt_Chasles h a b c v w H K). Qed.
Lemma whole_piece h a c v : a <= c -> (forall z, z < a \/ c < z -> h z = 0) -> is_RInt h a c v -> whole h v.
Proof.
  intros L Z I. exists (Rmax (Rabs a) (Rabs c) + 1). pose proof (Rmax_l (Rabs a) (Rabs c)). pose proof (Rmax_r (Rabs a) (Rabs c)). pose proof (Rabs_pos a). split; [lra|]. split.
  - intros z Q. apply Z. destruct (Rle_or_lt 0 z) as [P|P].
    + right. rewrite (Rabs_pos_eq z) in Q by lra. pose proof (Rle_abs c). lra.
    + left. rewrite (Rabs_left z) in Q by lra. pose proof (Rle_abs (- a)). rewrite (Rabs_Ropp a) in *. lra.
  - intros a' c' LA LC. pose proof (Rle_abs (- a)) as A1. rewrite Rabs_Ropp in A1. pose proof (Rle_abs c) as C1.
    apply int_eq with (0 + v + 0); [|ring]. apply int_join with c; [apply int_join with a; [|exact I]|].
    + apply int_zero; [lra|]. intros z Q. apply Z. left. lra.
    + apply int_zero; [lra|]. intros z Q. apply Z. right. lra.
Qed.
Lemma whole_ext h k v : (forall z, h z = k z) -> whole h v -> whole k v.
Proof.
  intros E (B&P&Z&I). exists B. split; [exact P|]. split; [intros z Q; rewrite <- E; auto|]. intros a c A C. apply is_RInt_ext with (f := h); [intros; apply E|auto].
Qed.
Lemma whole_eq h v w : whole h v -> v = w -> whole h w. Proof. intros H <-. exact H. Qed.
Lemma whole_plus h k v w : whole h v -> whole k w -> whole (fun z => h z + k z) (v + w).
Proof.
  intros (B&P&Z&I) (B'&P'&Z'&I'). pose proof (Rmax_l B B'). pose proof (Rmax_r B B'). exists (Rmax B B'). split; [lra|]. split; [intros z Q; rewrite Z, Z' by lra; ring|].
  intros a c A C. apply (is_RInt_plus h k a c v w); [apply I|apply I']; lra.
Qed.
Lemma whole_scal k h v : whole h v -> whole (fun z => k * h z) (k * v).
Proof. intros (B&P&Z&I). exists B. split; [exact P|]. split; [intros z Q; rewrite Z by exact Q; ring|]. intros a c A C. apply (is_RInt_scal h a c k v). auto. Qed.
Lemma whole_minus h k v w : whole h v -> whole k w -> whole (fun z => h z - k z) (v - w).
Proof.
  intros H K. apply whole_eq with (v + (-1) * w); [|ring]. apply whole_ext with (fun z => h z + (-1) * k z); [intros; ring|]. apply whole_plus; [exact H|]. apply whole_scal. exact K.
Qed.
Lemma whole_unique h v w : whole h v -> whole h w -> v = w.
Proof.
  intros (B&P&Z&I) (B'&P'&Z'&I'). pose proof (Rmax_l B B'). pose proof (Rmax_r B B'). set (M := Rmax B B') in *.
  rewrite <- (is_RInt_unique _ _ _ _ (I (- M) M ltac:(lra) ltac:(lra))). apply is_RInt_unique. apply I'; lra.
Qed.
Lemma whole_zero h : (forall z, h z = 0) -> whole h 0.
Proof. intros H. apply (whole_piece h 0 0); [lra|auto|]. apply int_zero; [lra|auto]. Qed.
Lemma whole_le h k v w : (forall z, h z <= k z) -> whole h v -> whole k w -> v <= w.
Proof.
  intros L (B&P&Z&I) (B'&P'&Z'&I'). pose proof (Rmax_l B B'). pose proof (Rmax_r B B'). set (M := Rmax B B') in *.
  apply (is_RInt_le h k (- M) M); [lra|apply I; lra|apply I'; lra|]. intros; apply L.
Qed.

(** The area is determined by the body, and so is the volume. *)
Lemma pow2_zero x : x ^ 2 <= 0 -> x = 0. Proof. intros. nra. Qed.
Lemma area_unique b z s t : section_area b z s -> section_area b z t -> s = t.
Proof.
  assert (DD : forall r r', 0 <= r -> 0 <= r' -> (forall x y, x ^ 2 + y ^ 2 <= r ^ 2 <-> x ^ 2 + y ^ 2 <= r' ^ 2) -> r ^ 2 = r' ^ 2).
  { intros r r' P P' H. pose proof (proj1 (H r 0) ltac:(lra)). pose proof (proj2 (H r' 0) ltac:(lra)). lra. }
  assert (RR : forall p q p' q', 0 <= p -> 0 <= q -> 0 <= p' -> 0 <= q' -> (forall x y, (Rabs x <= p / 2 /\ Rabs y <= q / 2) <-> (Rabs x <= p' / 2 /\ Rabs y <= q' / 2)) -> p * q = p' * q').
  { intros p q p' q' P Q P' Q' H. pose proof (proj1 (H (p / 2) (q / 2))) as A. pose proof (proj2 (H (p' / 2) (q' / 2))) as C. rewrite !Rabs_pos_eq in A, C by lra. assert (p = p') by lra. assert (q = q') by lra. subst. reflexivity. }
  assert (DR : forall r p q, 0 <= r -> 0 <= p -> 0 <= q -> (forall x y, x ^ 2 + y ^ 2 <= r ^ 2 <-> (Rabs x <= p / 2 /\ Rabs y <= q / 2)) -> PI * r ^ 2 = p * q).
  { intros r p q N P Q H. pose proof (proj1 (H r 0) ltac:(lra)) as A. pose proof (proj1 (H 0 r) ltac:(lra)) as C. rewrite Rabs_pos_eq in A by lra. rewrite (Rabs_pos_eq r) in C by lra.
    pose proof (proj2 (H r r)) as D. rewrite !Rabs_pos_eq in D by lra. assert (r = 0) by (specialize (D ltac:(lra)); nra). subst r.
    pose proof (proj2 (H (p / 2) (q / 2))) as E. rewrite !Rabs_pos_eq in E by lra. specialize (E ltac:(lra)). assert (p / 2 = 0) by nra. assert (q / 2 = 0) by nra. replace p with 0 by lra. ring. }
  intros [E|r N D|p q P Q D] [E'|r' N' D'|p' q' P' Q' D'].
  - reflexivity.
  - exfalso. apply (E 0 0). apply D'. nra.
  - exfalso. apply (E 0 0). apply D'. rewrite Rabs_R0. lra.
  - exfalso. apply (E' 0 0). apply D. nra.
  - f_equal. apply DD; auto. intros x y. rewrite <- D, <- D'. reflexivity.
  - apply DR; auto. intros x y. rewrite <- D, <- D'. reflexivity.
  - exfalso. apply (E' 0 0). apply D. rewrite Rabs_R0. lra.
  - symmetry. apply DR; auto. intros x y. rewrite <- D, <- D'. reflexivity.
  - apply RR; auto. intros x y. rewrite <- D, <- D'. reflexivity.
Qed.
Lemma volume_whole b v area : (forall z, section_area b z (area z)) -> volume b v -> whole area v.
Proof.
  intros S (area'&a&c&L&H&S'&I). assert (E : forall z, area' z = area z) by (intros z; apply (area_unique b z); auto).
  apply (whole_ext area'); [exact E|]. apply whole_piece with (a - 1) (c + 1); [lra| |].
  - intros z Z. apply (area_unique b z); [apply S'|]. apply sec_empty. intros x y B. apply H in B. cbn in B. lra.
  - assert (Z : forall z, z < a \/ c < z -> area' z = 0) by (intros z Z; apply (area_unique b z); [apply S'|]; apply sec_empty; intros x y B; apply H in B; cbn in B; lra).
    apply int_eq with (0 + v + 0); [|ring]. apply int_join with c; [apply int_join with a; [|exact I]|]; (apply int_zero; [lra|]; intros z Q; apply Z; lra).
Qed.
Lemma whole_volume (b : body) v area M : (forall y, b y -> Rabs (vz y) <= M) -> (forall z, section_area b z (area z)) -> whole area v -> volume b v.
Proof.
  intros H S (B&P&Z&I). pose proof (Rmax_l B M). pose proof (Rmax_r B M). exists area, (- Rmax B M), (Rmax B M). split; [lra|]. split; [|split; [exact S|apply I; lra]].
  intros y Y. apply H in Y. pose proof (Rle_abs (vz y)). pose proof (Rle_abs (- vz y)) as W. rewrite Rabs_Ropp in W. lra.
Qed.
Lemma volume_unique b v w : volume b v -> volume b w -> v = w.
Proof. intros V W. assert (exists area, forall z, section_area b z (area z)) as (area&S) by (destruct V as (area&_&_&_&_&S&_); exists area; exact S). apply (whole_unique area); apply (volume_whole b); assumption. Qed.

(** Balls on the axis: squared radii of cross-sections *)
Definition zball := (R * R)%type.
Definition sq (a : zball) (z : R) : R := snd a ^ 2 - (z - fst a) ^ 2.
Definition cut (a : zball) (z : R) : R := Rmax 0 (sq a z).
Definition prim (a : zball) (z : R) : R := snd a ^ 2 * z - (z - fst a) ^ 3 / 3.
Lemma sq_int a x y : is_RInt (sq a) x y (prim a y - prim a x).
Proof.
  destruct a as [z0 r]. apply (is_RInt_derive (V := R_CompleteNormedModule) (prim (z0, r)) (sq (z0, r))).
  - intros z _. unfold prim, sq. cbn [fst snd]. auto_derive; [exact I|]. field.
  - intros z _. apply (ex_derive_continuous (V := R_NormedModule)). unfold sq. cbn [fst snd]. auto_derive. exact I.
Qed.
Lemma sq_pos a z : 0 < snd a -> fst a - snd a <= z <= fst a + snd a -> 0 <= sq a z. Proof. intros P H. unfold sq. nra. Qed.
Lemma sq_neg a z : 0 < snd a -> z <= fst a - snd a \/ fst a + snd a <= z -> sq a z <= 0. Proof. intros P H. unfold sq. destruct H; nra. Qed.
Lemma cut_in a z : 0 < snd a -> fst a - snd a <= z <= fst a + snd a -> cut a z = sq a z. Proof. intros P H. unfold cut. apply Rmax_right. apply sq_pos; assumption. Qed.
Lemma cut_out a z : 0 < snd a -> z <= fst a - snd a \/ fst a + snd a <= z -> cut a z = 0. Proof. intros P H. unfold cut. apply Rmax_left. apply sq_neg; assumption. Qed.
Lemma cut_pos a z : 0 <= cut a z. Proof. apply Rmax_l. Qed.
Lemma int_on (h k : R -> R) x y v : x <= y -> (forall z, x < z < y -> h z = k z) -> is_RInt h x y v -> is_RInt k x y v.
Proof. intros L E. apply is_RInt_ext. intros z. rewrite Rmin_left, Rmax_right by lra. apply E. Qed.
Lemma ball_int a : 0 < snd a -> whole (cut a) (4 / 3 * snd a ^ 3).
Proof.
  intros P. apply whole_piece with (fst a - snd a) (fst a + snd a); [lra| |].
  - intros z H. apply cut_out; [assumption|lra].
  - apply (int_on (sq a)); [lra|intros z H; symmetry; apply cut_in; lra|]. apply (int_eq _ _ _ _ _ (sq_int a _ _)). unfold prim. field.
Qed.
(** The plane in which the boundaries of two balls meet *)
Definition plane (a b : zball) : R := ((fst b ^ 2 - snd b ^ 2) - (fst a ^ 2 - snd a ^ 2)) / (2 * (fst b - fst a)).
Lemma plane_spec a b z : fst a < fst b -> (z <= plane a b -> sq b z <= sq a z) /\ (plane a b <= z -> sq a z <= sq b z).
Proof.
  intros L. assert (E : sq b z - sq a z = 2 * (fst b - fst a) * (z - plane a b)) by (unfold sq, plane; field; lra). split; intros H; nra.
Qed.
Lemma cut_mono a b z : sq a z <= sq b z -> cut a z <= cut b z. Proof. intros H. unfold cut. apply Rle_max_compat_l. exact H. Qed.
Definition lens (a b : zball) : R := let r1 := snd a in let r2 := snd b in let d := fst b - fst a in / 12 / d * (r1 + r2 - d) ^ 2 * (d * d + 2 * d * (r1 + r2) - 3 * (r1 - r2) ^ 2).
Lemma lens_int a b : 0 < snd a -> 0 < snd b -> 0 < fst b - fst a -> Rabs (snd a - snd b) <= fst b - fst a <= snd a + snd b -> whole (fun z => Rmin (cut a z) (cut b z)) (lens a b).
Proof.
  intros P Q L (H1&H2). assert (H3 : snd a - snd b <= fst b - fst a /\ snd b - snd a <= fst b - fst a) by (pose proof (Rle_abs (snd a - snd b)); pose proof (Rle_abs (- (snd a - snd b))) as W; rewrite Rabs_Ropp in W; lra). clear H1.
  set (t := plane a b). assert (T : 2 * (fst b - fst a) * t = (fst b ^ 2 - snd b ^ 2) - (fst a ^ 2 - snd a ^ 2)) by (unfold t, plane; field; lra).
  assert (T1 : fst b - snd b <= t) by nra. assert (T2 : t <= fst a + snd a) by nra.
  apply whole_piece with (fst b - snd b) (fst a + snd a); [lra| |].
  - intros z [H|H]; [rewrite (cut_out b) by lra; apply Rmin_right; apply cut_pos|rewrite (cut_out a) by lra; apply Rmin_left; apply cut_pos].
  - apply int_eq with ((prim b t - prim b (fst b - snd b)) + (prim a (fst a + snd a) - prim a t)).
    + apply int_join with t.
      * apply (int_on (sq b)); [exact T1| |apply sq_int]. intros z Z. symmetry. assert (fst b - snd b <= z <= fst b + snd b) by lra. rewrite (cut_in b) by lra. apply Rmin_right. rewrite <- (cut_in b) by lra. apply cut_mono. apply (plane_spec a b z); [lra|]. fold t. lra.
      * apply (int_on (sq a)); [exact T2| |apply sq_int]. intros z Z. symmetry. rewrite (cut_in a) by lra. apply Rmin_left. rewrite <- (cut_in a) by lra. apply cut_mono. apply (plane_spec a b z); [lra|]. fold t. lra.
    + unfold prim, lens, t, plane. field. lra.
Qed.
Lemma no_lens_int a b : 0 < snd a -> 0 < snd b -> snd a + snd b <= fst b - fst a -> whole (fun z => Rmin (cut a z) (cut b z)) 0.
Proof.
  intros P Q L. apply whole_zero. intros z. destruct (Rle_or_lt z (fst a + snd a)) as [H|H]; [rewrite (cut_out b) by lra; apply Rmin_right; apply cut_pos|rewrite (cut_out a) by lra; apply Rmin_left; apply cut_pos].
Qed.

(** The union of balls *)
Definition env (l : list zball) (z : R) : R := fold_right (fun a m => Rmax (cut a z) m) 0 l.
Lemma env_pos l z : 0 <= env l z. Proof. induction l as [|a l IH]; cbn [env fold_right]; [lra|]. eapply Rle_trans; [exact IH|apply Rmax_r]. Qed.
Lemma env_ge l a z : In a l -> cut a z <= env l z.
Proof. induction l as [|b l IH]; intros []; cbn [env fold_right]; [subst; apply Rmax_l|]. eapply Rle_trans; [apply IH; assumption|apply Rmax_r]. Qed.
Lemma env_le l z m : 0 <= m -> (forall a, In a l -> cut a z <= m) -> env l z <= m.
Proof. intros P. induction l as [|b l IH]; intros H; cbn [env fold_right]; [exact P|]. apply Rmax_lub; [apply H; left; reflexivity|apply IH; intros a A; apply H; right; exact A]. Qed.
Lemma env_one l z : env l z = 0 \/ exists a, In a l /\ env l z = sq a z.
Proof.
  induction l as [|b l IH]; [left; reflexivity|]. cbn [env fold_right]. fold (env l z). destruct (Rle_or_lt (cut b z) (env l z)) as [H|H]; [rewrite Rmax_right by exact H|rewrite Rmax_left by lra].
  - destruct IH as [E|(a&A&E)]; [left; exact E|right; exists a; split; [right; exact A|exact E]].
  - unfold cut, Rmax. destruct (Rle_dec 0 (sq b z)); [right; exists b; split; [left; reflexivity|reflexivity]|left; reflexivity].
Qed.
Lemma env_same l l' : (forall a, In a l <-> In a l') -> forall z, env l z = env l' z.
Proof. intros H z. apply Rle_antisym; apply env_le; try apply env_pos; intros a A; apply env_ge; apply H; exact A. Qed.
Lemma env_add a b l v w x : In b l -> (forall z, Rmin (cut a z) (env l z) <= cut b z) -> whole (cut a) v -> whole (env l) w -> whole (fun z => Rmin (cut a z) (cut b z)) x -> whole (env (a :: l)) (v + w - x).
Proof.
  intros B H V W X. apply whole_ext with (fun z => (cut a z + env l z) - Rmin (cut a z) (cut b z)); [|apply whole_minus; [apply whole_plus; assumption|exact X]].
  intros z. cbn [env fold_right]. fold (env l z). specialize (H z). pose proof (env_ge l b z B) as G. unfold Rmin, Rmax in *. destruct (Rle_dec (cut a z) (env l z)), (Rle_dec (cut a z) (cut b z)); lra.
Qed.
(** Successive balls, the boundaries of which meet in successive planes *)
Definition reaches (a b : zball) : Prop := 0 < fst b - fst a /\ Rabs (snd a - snd b) <= fst b - fst a.
Inductive chain : R -> zball -> list zball -> Prop :=
| ch_one : forall t a, 0 < snd a -> chain t a []
| ch_cons : forall t a b l, 0 < snd a -> reaches a b -> t <= plane a b -> chain (plane a b) b l -> chain t a (b :: l).
Lemma chain_radius t a l : chain t a l -> 0 < snd a. Proof. destruct 1; assumption. Qed.
Lemma chain_below t a l : chain t a l -> forall z b, z <= t -> In b l -> sq b z <= sq a z.
Proof.
  induction 1 as [t a P|t a b l P (L&_) T C IH]; intros z c Z I; [destruct I|]. assert (S : sq b z <= sq a z) by (apply (plane_spec a b z); lra). destruct I as [<-|I]; [exact S|]. eapply Rle_trans; [apply (IH z c); [lra|exact I]|exact S].
Qed.
Lemma chain_less t t' a l : chain t a l -> t' <= t -> chain t' a l.
Proof. intros [? ? P|? ? b l' P R T C] L; constructor; auto. lra. Qed.
Definition meet (a b : zball) : R := if Rltb (fst b - fst a) (snd a + snd b) then lens a b else 0.
Fixpoint chain_sum (a : zball) (l : list zball) : R := 4 / 3 * snd a ^ 3 + match l with [] => 0 | b :: l' => chain_sum b l' - meet a b end.
Lemma meet_int a b : 0 < snd a -> 0 < snd b -> reaches a b -> whole (fun z => Rmin (cut a z) (cut b z)) (meet a b).
Proof.
  intros P Q (L&H). unfold meet. destruct (Rltb _ _) eqn:E; [apply Rltb_true in E; apply lens_int; auto; lra|apply Rltb_false in E; apply no_lens_int; auto; lra].
Qed.
Lemma chain_int t a l : chain t a l -> whole (env (a :: l)) (chain_sum a l).
Proof.
  induction 1 as [t a P|t a b l P R T C IH].
  - cbn [chain_sum]. apply whole_ext with (cut a); [intros z; cbn; symmetry; apply Rmax_left; apply cut_pos|]. apply whole_eq with (4 / 3 * snd a ^ 3); [apply ball_int; exact P|ring].
  - cbn [chain_sum]. apply whole_eq with (4 / 3 * snd a ^ 3 + chain_sum b l - meet a b); [|ring]. apply env_add with b; [left; reflexivity| |apply ball_int; exact P|exact IH|apply meet_int; [exact P|apply (chain_radius _ _ _ C)|exact R]].
    intros z. destruct (Rle_or_lt z (plane a b)) as [Z|Z].
    + eapply Rle_trans; [apply Rmin_r|]. apply env_le; [apply cut_pos|]. intros c [<-|I]; [lra|]. apply cut_mono. apply (chain_below _ _ _ C); assumption.
    + eapply Rle_trans; [apply Rmin_l|]. apply cut_mono. apply (plane_spec a b z); [destruct R; lra|lra].
Qed.

(** Beads on the axis *)
Definition zb (d : bead) : zball := (vz (bd_pos d), bd_radius d).
Definition on_axis (data : list bead) : Prop := forall d, In d data -> vx (bd_pos d) = 0 /\ vy (bd_pos d) = 0 /\ 0 < bd_radius d.
Lemma bead_in d x y z : vx (bd_pos d) = 0 -> vy (bd_pos d) = 0 -> 0 < bd_radius d -> in_ball (bd_pos d) (bd_radius d) (V3 x y z) <-> x ^ 2 + y ^ 2 <= sq (zb d) z.
Proof.
  intros X Y P. unfold in_ball. rewrite norm_bound by lra. unfold vnorm2, vdot, vsub, sq, zb. cbn [vx vy vz fst snd]. rewrite X, Y. split; intros; nra.
Qed.
Lemma classic_ex data z : (exists d, In d data /\ 0 <= sq (zb d) z) \/ ~ exists d, In d data /\ 0 <= sq (zb d) z.
Proof.
  induction data as [|d data IH]; [right; intros (d&[]&_)|]. destruct (Rle_or_lt 0 (sq (zb d) z)) as [H|H]; [left; exists d; split; [left; reflexivity|exact H]|]. destruct IH as [(e&E&K)|N]; [left; exists e; split; [right; exact E|exact K]|right].
  intros (e&[<-|E]&K); [lra|apply N; exists e; auto].
Qed.
Lemma beads_section data z : on_axis data -> section_area (beads_body data) z (PI * env (map zb data) z).
Proof.
  intros A. assert (M : forall x y, beads_body data (V3 x y z) <-> exists d, In d data /\ x ^ 2 + y ^ 2 <= sq (zb d) z).
  { intros x y. split; intros (d&D&H); exists d; (split; [exact D|]); destruct (A d D) as (X&Y&P); apply (bead_in d x y z X Y P); exact H. }
  destruct (classic_ex data z) as [(d&D&H)|N].
  - assert (SQ : sqrt (env (map zb data) z) ^ 2 = env (map zb data) z) by (rewrite <- Rsqr_pow2; apply Rsqr_sqrt; apply env_pos). rewrite <- SQ.
    apply sec_disk; [apply sqrt_pos|]. intros x y. rewrite M, SQ. split.
    + intros (e&E&L). eapply Rle_trans; [exact L|]. eapply Rle_trans; [apply Rmax_r|]. apply (env_ge (map zb data) (zb e)). apply in_map. exact E.
    + intros L. destruct (env_one (map zb data) z) as [E|(a&I&E)].
      * exists d. split; [exact D|]. lra.
      * apply in_map_iff in I. destruct I as (e&<-&I). exists e. split; [exact I|lra].
  - replace (env (map zb data) z) with 0; [rewrite Rmult_0_r; apply sec_empty|].
    + intros x y B. apply M in B. destruct B as (d&D&L). apply N. exists d. split; [exact D|]. nra.
    + symmetry. apply Rle_antisym; [|apply env_pos]. apply env_le; [lra|]. intros a I. apply in_map_iff in I. destruct I as (d&<-&I). apply Rmax_lub; [lra|]. destruct (Rle_or_lt (sq (zb d) z) 0); [assumption|]. exfalso. apply N. exists d. split; [exact I|lra].
Qed.
Lemma beads_bounded data : on_axis data -> exists M, forall y, beads_body data y -> Rabs (vz y) <= M.
Proof.
  intros A. exists (fold_right (fun d m => Rmax (Rabs (vz (bd_pos d)) + bd_radius d) m) 0 data). intros y (d&D&B).
  assert (L : Rabs (vz (bd_pos d)) + bd_radius d <= fold_right (fun d m => Rmax (Rabs (vz (bd_pos d)) + bd_radius d) m) 0 data).
  { clear A B. induction data as [|e data IH]; [destruct D|]. destruct D as [->|D]; cbn [fold_right]; [apply Rmax_l|]. eapply Rle_trans; [apply IH; exact D|apply Rmax_r]. }
  eapply Rle_trans; [|exact L]. destruct (A d D) as (X&Y&P). destruct y as [x y z]. apply (bead_in d x y z X Y P) in B. unfold sq, zb in B. cbn [fst snd] in B. cbn [vz].
  assert (Rabs (z - vz (bd_pos d)) <= bd_radius d) by (apply Rabs_le; split; nra). pose proof (Rabs_triang (z - vz (bd_pos d)) (vz (bd_pos d))) as T. replace (z - vz (bd_pos d) + vz (bd_pos d)) with z in T by ring. lra.
Qed.
Lemma beads_volume_of data v : on_axis data -> whole (env (map zb data)) v -> volume (beads_body data) (PI * v).
Proof. intros A W. destruct (beads_bounded data A) as (M&B). apply (whole_volume _ _ (fun z => PI * env (map zb data) z) M B); [intros z; apply beads_section; exact A|apply whole_scal; exact W]. Qed.

(** Volumes of a ball, of the common part of two balls and of a cap *)
Lemma section_disk (b : body) z q : (forall x y, b (V3 x y z) <-> x ^ 2 + y ^ 2 <= q) -> section_area b z (PI * Rmax 0 q).
Proof.
  intros H. destruct (Rle_or_lt 0 q) as [P|P].
  - rewrite Rmax_right by lra. assert (SQ : sqrt q ^ 2 = q) by (rewrite <- Rsqr_pow2; apply Rsqr_sqrt; exact P). rewrite <- SQ. apply sec_disk; [apply sqrt_pos|]. intros x y. rewrite H, SQ. reflexivity.
  - rewrite Rmax_left by lra. rewrite Rmult_0_r. apply sec_empty. intros x y B. apply H in B. nra.
Qed.
Lemma zball_in h r x y z : 0 < r -> in_ball (V3 0 0 h) r (V3 x y z) <-> x ^ 2 + y ^ 2 <= sq (h, r) z.
Proof. intros P. apply (bead_in (Bead (V3 0 0 h) r) x y z); cbn; auto. Qed.
Lemma sq_bound a z : 0 < snd a -> 0 <= sq a z -> Rabs z <= Rabs (fst a) + snd a.
Proof.
  intros P H. assert (Rabs (z - fst a) <= snd a) by (unfold sq in H; apply Rabs_le; split; nra). pose proof (Rabs_triang (z - fst a) (fst a)) as T. replace (z - fst a + fst a) with z in T by ring. lra.
Qed.
Lemma intersection_volume z1 z2 r1 r2 : 0 < r1 -> 0 < r2 -> 0 < z2 - z1 -> Rabs (r1 - r2) <= z2 - z1 <= r1 + r2 -> volume (fun y => in_ball (V3 0 0 z1) r1 y /\ in_ball (V3 0 0 z2) r2 y) (PI * lens (z1, r1) (z2, r2)).
Proof.
  intros P Q L H. apply (whole_volume _ _ (fun z => PI * Rmin (cut (z1, r1) z) (cut (z2, r2) z)) (Rabs z1 + r1)).
  - intros [x y z] (A&_). cbn [vz]. apply zball_in in A; [|exact P]. apply (sq_bound (z1, r1)); [exact P|]. nra.
  - intros z. replace (Rmin (cut (z1, r1) z) (cut (z2, r2) z)) with (Rmax 0 (Rmin (sq (z1, r1) z) (sq (z2, r2) z))).
    + apply section_disk. intros x y. rewrite !zball_in by assumption. unfold Rmin. destruct (Rle_dec _ _); split; intros; try split; lra.
    + unfold cut. unfold Rmin, Rmax. repeat destruct (Rle_dec _ _); lra.
  - apply whole_scal. apply lens_int; assumption.
Qed.
Lemma cap_volume r h : 0 < r -> 0 <= h <= 2 * r -> volume (fun y => in_ball vzero r y /\ r - h <= vz y) (PI * (h * h / 3 * (3 * r - h))).
Proof.
  intros P H. set (area := fun z => if Rltb z (r - h) then 0 else cut (0, r) z). apply (whole_volume _ _ (fun z => PI * area z) (Rabs 0 + r)).
  - intros [x y z] (A&_). cbn [vz]. apply (zball_in 0) in A; [|exact P]. apply (sq_bound (0, r)); [exact P|]. nra.
  - intros z. unfold area. destruct (Rltb z (r - h)) eqn:E; [apply Rltb_true in E|apply Rltb_false in E].
    + rewrite Rmult_0_r. apply sec_empty. intros x y (_&B). cbn in B. lra.
    + apply section_disk. intros x y. cbn [vz]. pose proof (zball_in 0 r x y z P) as Z. tauto.
  - apply whole_scal. apply whole_piece with (r - h) r; [lra| |].
    + intros z Z. unfold area. destruct (Rltb z (r - h)) eqn:E; [reflexivity|]. apply Rltb_false in E. apply cut_out; cbn; lra.
    + apply (int_on (sq (0, r))); [lra| |apply (int_eq _ _ _ _ _ (sq_int (0, r) _ _)); unfold prim; cbn; field].
      intros z Z. unfold area. rewrite (proj2 (Rltb_false _ _)) by lra. symmetry. apply cut_in; cbn; lra.
Qed.
