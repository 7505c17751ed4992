From Coq Require Import Reals List Bool Lra Lia.
From Verif Require Import GeomModel GeomProofs BoxModel PbcModel PackModel PackSpec DomSpec InterModel InterSpec.
Import ListNotations.
Open Scope R_scope.

Lemma fold_sum {A} (f : A -> R) l : forall e, fold_left (fun e x => e + f x) l e = e + Rsum f l.
Proof. induction l as [|x l IH]; intros e; cbn [fold_left Rsum fold_right]; [lra|]. rewrite IH. unfold Rsum. lra. Qed.
Lemma fold_ext2 {A} (f g : R -> A -> R) l : (forall e x, f e x = g e x) -> forall e, fold_left f l e = fold_left g l e.
Proof. intros H. induction l as [|x l IH]; intros e; [reflexivity|]. cbn [fold_left]. rewrite H. apply IH. Qed.
Lemma sum_ext {A} (f g : A -> R) l : (forall x, In x l -> f x = g x) -> Rsum f l = Rsum g l.
Proof. induction l as [|x l IH]; intros H; [reflexivity|]. unfold Rsum in *. cbn [fold_right]. rewrite (H x (or_introl eq_refl)), IH; [reflexivity|]. intros y I. apply H. right. exact I. Qed.
Lemma sum_add {A} (f g : A -> R) l : Rsum (fun x => f x + g x) l = Rsum f l + Rsum g l.
Proof. induction l as [|x l IH]; unfold Rsum in *; cbn [fold_right]; [lra|]. rewrite IH. lra. Qed.
Lemma sum_zero {A} (l : list A) : Rsum (fun _ => 0) l = 0. Proof. induction l as [|x l IH]; unfold Rsum in *; cbn [fold_right]; [reflexivity|]. rewrite IH. lra. Qed.
Lemma combine_seq (cs : list vec) : forall k, combine (seq k (length cs)) cs = map (fun a => (a, nth (a - k) cs vzero)) (seq k (length cs)).
Proof.
  induction cs as [|c cs IH]; intros k; [reflexivity|]. cbn [length seq combine map]. rewrite Nat.sub_diag. cbn [nth]. f_equal. rewrite IH. apply map_ext_in. intros a I. apply in_seq in I. replace (a - k)%nat with (S (a - S k)) by lia. reflexivity.
Qed.
Lemma combine_seq0 (cs : list vec) : combine (seq 0 (length cs)) cs = map (fun a => (a, nth a cs vzero)) (seq 0 (length cs)).
Proof. rewrite combine_seq. apply map_ext. intros a. rewrite Nat.sub_0_r. reflexivity. Qed.
Lemma sum_map {A B} (f : B -> R) (g : A -> B) l : Rsum f (map g l) = Rsum (fun a => f (g a)) l.
Proof. induction l as [|x l IH]; unfold Rsum in *; cbn [map fold_right]; [reflexivity|]. rewrite IH. reflexivity. Qed.
Lemma vadd_mzero s : vadd (sh_pos s) (mvec (sh_rot s) vzero) = sh_pos s.
Proof. destruct (sh_pos s). unfold vadd, mvec, vzero. cbn. f_equal; ring. Qed.
Lemma sites_none i s : in_centres i = [] -> sites_no i = 1%nat /\ site_position i s 0 = sh_pos s.
Proof. intros E. unfold sites_no, site_position, site_vectors. rewrite E. split; [reflexivity|]. cbn [nth]. apply vadd_mzero. Qed.
Lemma sites_some i c cs : in_centres i = c :: cs -> sites_no i = length (c :: cs) /\ forall s k, site_position i s k = getCentrePositionForShape s (nth k (c :: cs) vzero).
Proof. intros E. unfold sites_no, site_position, site_vectors, getCentrePositionForShape. rewrite E. split; reflexivity. Qed.
Theorem energy_shapes w s1 s2 bc : energyBetweenShapes w s1 s2 bc = shapes_energy (wi w) s1 s2 bc.
Proof.
  unfold energyBetweenShapes, shapes_energy. destruct (in_centres (wi w)) as [|c cs] eqn:E.
  - destruct (sites_none _ s1 E) as [N P1]. destruct (sites_none _ s2 E) as [_ P2]. rewrite N. cbn [seq]. unfold Rsum. cbn [fold_right]. rewrite P1, P2. lra.
  - destruct (sites_some _ c cs E) as [N P]. rewrite N. clear E.
    rewrite (fold_ext2 _ (fun e ci => e + Rsum (fun cj => in_energy (wi w) (getCentrePositionForShape s1 (snd ci)) (sh_rot s1) (fst ci) (getCentrePositionForShape s2 (snd cj)) (sh_rot s2) (fst cj) bc) (combine (seq 0 (length (c :: cs))) (c :: cs)))) by (intros; apply fold_sum).
    rewrite fold_sum, Rplus_0_l, combine_seq0, sum_map. apply sum_ext. intros a _. rewrite sum_map. apply sum_ext. intros b _. cbn [fst snd]. rewrite !P. reflexivity.
Qed.
Theorem overlap_shapes w s1 s2 bc : overlapBetweenShapes w s1 s2 bc = true <-> shapes_overlap (wi w) s1 s2 bc.
Proof.
  unfold overlapBetweenShapes, shapes_overlap. destruct (in_centres (wi w)) as [|c cs] eqn:E.
  - destruct (sites_none _ s1 E) as [N P1]. destruct (sites_none _ s2 E) as [_ P2]. rewrite N. split.
    + intros H. exists 0%nat, 0%nat. rewrite P1, P2. auto.
    + intros (a & b & Ha & Hb & H). replace a with 0%nat in H by lia. replace b with 0%nat in H by lia. rewrite P1, P2 in H. exact H.
  - destruct (sites_some _ c cs E) as [N P]. rewrite N. clear E. rewrite combine_seq0. split.
    + intros H. apply existsb_exists in H. destruct H as (x & I & H). apply existsb_exists in H. destruct H as (y & J & H). apply in_map_iff in I, J. destruct I as (a & <- & I), J as (b & <- & J). apply in_seq in I, J. exists a, b. rewrite !P. cbn [fst snd] in H. repeat split; try lia. exact H.
    + intros (a & b & Ha & Hb & H). rewrite !P in H. apply existsb_exists. exists (a, nth a (c :: cs) vzero). split; [apply in_map_iff; exists a; split; [reflexivity|apply in_seq; lia]|]. apply existsb_exists. exists (b, nth b (c :: cs) vzero). split; [apply in_map_iff; exists b; split; [reflexivity|apply in_seq; lia]|]. exact H.
Qed.
Theorem wall_shapes w s o v : overlapWithWallForShape w s o v = true <-> wall_overlap (wi w) s o v.
Proof.
  unfold overlapWithWallForShape, wall_overlap. destruct (in_centres (wi w)) as [|c cs] eqn:E.
  - destruct (sites_none _ s E) as [N P1]. rewrite N. split; [intros H; exists 0%nat; rewrite P1; auto|]. intros (a & Ha & H). replace a with 0%nat in H by lia. rewrite P1 in H. exact H.
  - destruct (sites_some _ c cs E) as [N P]. rewrite N. clear E. rewrite combine_seq0. split.
    + intros H. apply existsb_exists in H. destruct H as (x & I & H). apply in_map_iff in I. destruct I as (a & <- & I). apply in_seq in I. exists a. rewrite P. split; [lia|exact H].
    + intros (a & Ha & H). rewrite P in H. apply existsb_exists. exists (a, nth a (c :: cs) vzero). split; [apply in_map_iff; exists a; split; [reflexivity|apply in_seq; lia]|exact H].
Qed.

(** The total range. *)
Lemma max_radius_spec cs : forall m, m <= max_radius2 cs m /\ (forall c, In c cs -> vnorm2 c <= max_radius2 cs m) /\ (max_radius2 cs m = m \/ exists c, In c cs /\ vnorm2 c = max_radius2 cs m).
Proof.
  induction cs as [|c cs IH]; intros m; cbn [max_radius2]; [split; [lra|]; split; [intros c []|auto]|]. unfold Rltb. destruct (Rlt_dec m (vnorm2 c)) as [L|L].
  - destruct (IH (vnorm2 c)) as (H1 & H2 & H3). split; [lra|]. split; [intros d [->|I]; auto|]. right. destruct H3 as [H3|(d & I & H3)]; [exists c; rewrite H3; split; [left|]; reflexivity|exists d; split; [right; exact I|exact H3]].
  - destruct (IH m) as (H1 & H2 & H3). split; [exact H1|]. split; [intros d [->|I]; [lra|auto]|]. destruct H3 as [H3|(d & I & H3)]; [left; exact H3|right; exists d; split; [right; exact I|exact H3]].
Qed.
Theorem total_range cs range : range <= getTotalRangeRadius cs range /\ (forall c, In c cs -> 2 * vnorm c + range <= getTotalRangeRadius cs range) /\ (getTotalRangeRadius cs range = range \/ exists c, In c cs /\ getTotalRangeRadius cs range = 2 * vnorm c + range).
Proof.
  unfold getTotalRangeRadius. destruct cs as [|c0 cs]; [split; [lra|]; split; [intros c []|left; reflexivity]|]. destruct (max_radius_spec (c0 :: cs) 0) as (H1 & H2 & H3). set (m := max_radius2 (c0 :: cs) 0) in *. clearbody m. split; [pose proof (sqrt_pos m); lra|]. split.
  - intros c I. unfold vnorm. pose proof (sqrt_le_1_alt _ _ (H2 c I)). lra.
  - destruct H3 as [->|(c & I & H3)]; [left; rewrite sqrt_0; lra|]. right. exists c. split; [exact I|]. unfold vnorm. rewrite H3. reflexivity.
Qed.

(** Compounds. *)
Lemma reqb_iff a b : Reqb a b = true <-> a = b. Proof. unfold Reqb. destruct (Req_EM_T a b); split; auto; discriminate. Qed.
Lemma rltb_iff a b : Rltb a b = true <-> a < b. Proof. unfold Rltb. destruct (Rlt_dec a b); split; intros; auto; try discriminate; contradiction. Qed.
Lemma rleb_iff a b : Rleb a b = true <-> a <= b. Proof. unfold Rleb. destruct (Rle_dec a b); split; intros; auto; try discriminate; contradiction. Qed.
Lemma centres_eqb_iff a : forall b, centres_eqb a b = true <-> a = b.
Proof.
  induction a as [|x a IH]; intros [|y b]; cbn [centres_eqb]; try (split; [discriminate|discriminate]); [split; reflexivity|]. unfold veqb. rewrite !andb_true_iff, IH, !reqb_iff. destruct x, y. cbn. split.
  - intros [[[-> ->] ->] ->]. reflexivity.
  - intros H. injection H as -> -> -> ->. auto.
Qed.
Theorem compound_refused w1 w2 : compound w1 w2 = None <-> in_centres (wi w1) <> in_centres (wi w2).
Proof.
  unfold compound. cbn zeta. destruct (centres_eqb _ _) eqn:E; cbn [negb].
  - apply centres_eqb_iff in E. split; [discriminate|]. intros N. contradiction.
  - split; [|reflexivity]. intros _ H. apply centres_eqb_iff in H. congruence.
Qed.
Lemma compound_some w1 w2 w : compound w1 w2 = Some w -> in_centres (wi w1) = in_centres (wi w2).
Proof. unfold compound. cbn zeta. destruct (centres_eqb _ _) eqn:E; [|discriminate]. intros _. apply centres_eqb_iff. exact E. Qed.
Theorem compound_parts w1 w2 w : compound w1 w2 = Some w ->
  (forall p1 r1 c1 p2 r2 c2 bc, in_overlap (wi w) p1 r1 c1 p2 r2 c2 bc = in_hard (wi w1) && in_overlap (wi w1) p1 r1 c1 p2 r2 c2 bc || in_hard (wi w2) && in_overlap (wi w2) p1 r1 c1 p2 r2 c2 bc) /\
  (forall p1 r1 c1 p2 r2 c2 bc, in_energy (wi w) p1 r1 c1 p2 r2 c2 bc = if_soft (wi w1) (in_energy (wi w1) p1 r1 c1 p2 r2 c2 bc) + if_soft (wi w2) (in_energy (wi w2) p1 r1 c1 p2 r2 c2 bc)) /\
  (forall p r c o v, in_wall (wi w) p r c o v = wi_wall w1 && in_wall (wi w1) p r c o v || wi_wall w2 && in_wall (wi w2) p r c o v) /\
  in_hard (wi w) = in_hard (wi w1) || in_hard (wi w2) /\ in_soft (wi w) = in_soft (wi w1) || in_soft (wi w2) /\ wi_wall w = wi_wall w1 || wi_wall w2 /\
  (in_convex (wi w) = true <-> (in_hard (wi w1) = true /\ in_convex (wi w1) = true /\ in_hard (wi w2) = false) \/ (in_hard (wi w2) = true /\ in_convex (wi w2) = true /\ in_hard (wi w1) = false)) /\
  in_rangeRadius (wi w) = Rmax (in_rangeRadius (wi w1)) (in_rangeRadius (wi w2)) /\ in_totalRange (wi w) = Rmax (in_totalRange (wi w1)) (in_totalRange (wi w2)) /\
  in_centres (wi w) = in_centres (wi w1) /\ in_centres (wi w) = in_centres (wi w2).
Proof.
  intros H. pose proof (compound_some _ _ _ H) as Ec. unfold compound in H. cbn zeta in H. rewrite (proj2 (centres_eqb_iff _ _) Ec) in H. cbn [negb] in H. injection H as <-. cbn [wi wi_wall in_overlap in_energy in_wall in_hard in_soft in_convex in_rangeRadius in_totalRange in_centres].
  split; [intros; destruct (in_hard (wi w1) && _); [reflexivity|destruct (_ && _); reflexivity]|].
  split; [intros; unfold if_soft; destruct (in_soft (wi w1)), (in_soft (wi w2)); lra|].
  split; [intros; destruct (wi_wall w1 && _); [reflexivity|destruct (_ && _); reflexivity]|].
  split; [reflexivity|]. split; [reflexivity|]. split; [reflexivity|]. split; [|split; [reflexivity|split; [reflexivity|split; [reflexivity|exact Ec]]]].
  destruct (in_hard (wi w1)), (in_hard (wi w2)), (in_convex (wi w1)), (in_convex (wi w2)); cbn; split; intros H; try discriminate; auto; destruct H as [(A & B & C)|(A & B & C)]; discriminate.
Qed.
Lemma same_sites i j : in_centres i = in_centres j -> sites_no i = sites_no j /\ forall s k, site_position i s k = site_position j s k.
Proof. intros E. unfold sites_no, site_position, site_vectors. rewrite E. split; reflexivity. Qed.
Theorem compound_shapes w1 w2 w : compound w1 w2 = Some w ->
  (forall s1 s2 bc, energyBetweenShapes w s1 s2 bc = if_soft (wi w1) (energyBetweenShapes w1 s1 s2 bc) + if_soft (wi w2) (energyBetweenShapes w2 s1 s2 bc)) /\
  (forall s1 s2 bc, overlapBetweenShapes w s1 s2 bc = in_hard (wi w1) && overlapBetweenShapes w1 s1 s2 bc || in_hard (wi w2) && overlapBetweenShapes w2 s1 s2 bc) /\
  (forall s o v, overlapWithWallForShape w s o v = wi_wall w1 && overlapWithWallForShape w1 s o v || wi_wall w2 && overlapWithWallForShape w2 s o v).
Proof.
  intros H. destruct (compound_parts _ _ _ H) as (Ho & He & Hw & _ & _ & _ & _ & _ & _ & C1 & C2). destruct (same_sites _ _ C1) as [N1 P1]. destruct (same_sites _ _ C2) as [N2 P2]. split; [|split].
  - intros s1 s2 bc. rewrite !energy_shapes. unfold shapes_energy. rewrite <- N1, <- N2. unfold if_soft in *. destruct (in_soft (wi w1)), (in_soft (wi w2)).
    + rewrite <- sum_add. apply sum_ext. intros a _. rewrite <- sum_add. apply sum_ext. intros b _. rewrite He, <- !P1, <- !P2. reflexivity.
    + rewrite Rplus_0_r. apply sum_ext. intros a _. apply sum_ext. intros b _. rewrite He, <- !P1. lra.
    + rewrite Rplus_0_l. apply sum_ext. intros a _. apply sum_ext. intros b _. rewrite He, <- !P2. lra.
    + rewrite Rplus_0_r. rewrite (sum_ext _ (fun _ => 0)); [apply sum_zero|]. intros a _. rewrite (sum_ext _ (fun _ => 0)); [apply sum_zero|]. intros b _. rewrite He. lra.
  - intros s1 s2 bc. apply eq_true_iff_eq. rewrite orb_true_iff, !andb_true_iff, !overlap_shapes. unfold shapes_overlap. rewrite <- N1, <- N2. split.
    + intros (a & b & Ha & Hb & E). rewrite Ho in E. apply orb_true_iff in E. rewrite !andb_true_iff in E. destruct E as [[E1 E2]|[E1 E2]]; [left|right]; (split; [exact E1|]); exists a, b; rewrite <- ?P1, <- ?P2; auto.
    + intros [[E (a & b & Ha & Hb & X)]|[E (a & b & Ha & Hb & X)]]; exists a, b; (split; [exact Ha|]); (split; [exact Hb|]); rewrite Ho.
      * rewrite <- !P1 in X. rewrite E, X. reflexivity.
      * rewrite <- !P2 in X. rewrite E, X. apply orb_true_r.
  - intros s o v. apply eq_true_iff_eq. rewrite orb_true_iff, !andb_true_iff, !wall_shapes. unfold wall_overlap. rewrite <- N1, <- N2. split.
    + intros (a & Ha & E). rewrite Hw in E. apply orb_true_iff in E. rewrite !andb_true_iff in E. destruct E as [[E1 E2]|[E1 E2]]; [left|right]; (split; [exact E1|]); exists a; rewrite <- ?P1, <- ?P2; auto.
    + intros [[E (a & Ha & X)]|[E (a & Ha & X)]]; exists a; (split; [exact Ha|]); rewrite Hw.
      * rewrite <- !P1 in X. rewrite E, X. reflexivity.
      * rewrite <- !P2 in X. rewrite E, X. apply orb_true_r.
Qed.
(** A compound of lawful interactions is lawful: what is proved of packings applies to it. *)
Theorem compound_lawful w1 w2 w o1 e1 o2 e2 : compound w1 w2 = Some w -> lawful (wi w1) o1 e1 -> lawful (wi w2) o2 e2 ->
  lawful (wi w) (either_law (wi w1) (wi w2) o1 o2) (sum_law (wi w1) (wi w2) e1 e2).
Proof.
  intros H (F1 & S1 & G1 & T1 & R1 & Z1 & Y1 & N1) (F2 & S2 & G2 & T2 & R2 & Z2 & Y2 & N2). destruct (compound_parts _ _ _ H) as (Ho & He & Hw & Hh & _ & _ & _ & Hr & _). unfold lawful, either_law, sum_law.
  split; [intros p1 r1 c1 p2 r2 c2 bc; rewrite Ho, F1, F2; reflexivity|].
  split; [intros r1 c1 r2 c2 d s; rewrite S1, S2; reflexivity|].
  split; [intros p1 r1 c1 p2 r2 c2 bc; rewrite He, G1, G2; reflexivity|].
  split; [intros r1 c1 r2 c2 d s; rewrite T1, T2; reflexivity|].
  split; [rewrite Hr; pose proof (Rmax_l (in_rangeRadius (wi w1)) (in_rangeRadius (wi w2))); lra|].
  split; [|split].
  - intros r1 c1 r2 c2 d E. rewrite Hr. apply orb_true_iff in E. rewrite !andb_true_iff in E. pose proof (Rmax_l (in_rangeRadius (wi w1)) (in_rangeRadius (wi w2))). pose proof (Rmax_r (in_rangeRadius (wi w1)) (in_rangeRadius (wi w2))). destruct E as [[_ E]|[_ E]]; [pose proof (Z1 _ _ _ _ _ E)|pose proof (Z2 _ _ _ _ _ E)]; lra.
  - intros r1 c1 r2 c2 d E. rewrite Hr. pose proof (Rmax_l (in_rangeRadius (wi w1)) (in_rangeRadius (wi w2))). pose proof (Rmax_r (in_rangeRadius (wi w1)) (in_rangeRadius (wi w2))).
    destruct (Req_EM_T (e1 r1 c1 r2 c2 d (vnorm2 d)) 0) as [X|X]; [|pose proof (Y1 _ _ _ _ _ X); lra]. destruct (Req_EM_T (e2 r1 c1 r2 c2 d (vnorm2 d)) 0) as [X'|X']; [|pose proof (Y2 _ _ _ _ _ X'); lra]. exfalso. apply E. rewrite X, X'. unfold if_soft. destruct (in_soft (wi w1)), (in_soft (wi w2)); lra.
  - intros Eh. rewrite Hh in Eh. apply orb_false_iff in Eh. destruct Eh as [Eh1 Eh2]. split.
    + intros. rewrite Eh1, Eh2. reflexivity.
    + intros. rewrite Hw, (proj2 (N1 Eh1)), (proj2 (N2 Eh2)), !andb_false_r. reflexivity.
Qed.
Theorem compound_reach w1 w2 w : compound w1 w2 = Some w -> centres_reach (wi w1) -> centres_reach (wi w2) -> centres_reach (wi w).
Proof.
  intros H C1 C2 c I. destruct (compound_parts _ _ _ H) as (_ & _ & _ & _ & _ & _ & _ & Hr & Ht & E1 & E2). rewrite Hr, Ht. pose proof (C1 c ltac:(rewrite <- E1; exact I)). pose proof (C2 c ltac:(rewrite <- E2; exact I)).
  pose proof (Rmax_l (in_totalRange (wi w1)) (in_totalRange (wi w2))). pose proof (Rmax_r (in_totalRange (wi w1)) (in_totalRange (wi w2))). unfold Rmax at 1. destruct (Rle_dec _ _); lra.
Qed.

(** Central interactions. *)
Lemma norm_sq d : 0 <= vnorm2 d. Proof. unfold vnorm2, vdot. pose proof (Rle_0_sqr (vx d)). pose proof (Rle_0_sqr (vy d)). pose proof (Rle_0_sqr (vz d)). unfold Rsqr in *. lra. Qed.
Lemma vneg_norm2 d : vnorm2 (vneg d) = vnorm2 d. Proof. unfold vnorm2, vdot, vneg. cbn. ring. Qed.
Lemma central_lawful energy range cs : 0 < range -> (forall r, range < r -> energy (r * r) = 0) -> lawful (wi (central energy range cs)) no_overlaps (central_law energy) /\ centres_reach (wi (central energy range cs)).
Proof.
  intros Hr Hz. split; [|intros c I; cbn [central wi in_rangeRadius in_totalRange in_centres] in *; apply (proj1 (proj2 (total_range cs range))); exact I]. unfold lawful, central, no_overlaps, central_law. cbn [wi in_overlap in_energy in_rangeRadius in_hard in_wall].
  split; [intros p1 r1 c1 p2 r2 c2 bc; reflexivity|]. split; [intros r1 c1 r2 c2 d s; reflexivity|]. split; [intros p1 r1 c1 p2 r2 c2 bc; reflexivity|]. split; [intros r1 c1 r2 c2 d s; reflexivity|]. split; [exact Hr|]. split; [intros; discriminate|]. split.
  - intros _ _ _ _ d N. destruct (Rle_dec (vnorm d) range) as [L|L]; [exact L|]. exfalso. apply N. replace (vnorm2 d) with (vnorm d * vnorm d) by (apply sqrt_sqrt, norm_sq). apply Hz. lra.
  - intros _. split; reflexivity.
Qed.
