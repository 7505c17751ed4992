(** What scripts of descriptions make. *)
From Coq Require Import Reals ZArith List Bool Lra Lia.
From Verif Require Import TextModel GeomModel GeomProofs PyonModel RotSpec XcModel XcSpec XcBuildProofs InputModel InputSpec ConvexModel ConvexSpec.
Import ListNotations.
Open Scope R_scope.

Definition order (p : primitive) : command :=
  match p with
  | Stick l => Segment l | Plate x y => Rectangle x y | Box x y z => Cuboid x y z | Round r => Disk r | Ball r => Sphere r | Oval x y => Ellipse x y | Egg x y z => Ellipsoid x y z
  | Lens r l => Saucer r l | Lemon r l => Football l r
  end.
Fixpoint compile (g : geom) : list command :=
  match g with
  | GPoint p => [Point (vx p) (vy p) (vz p)]
  | GPrimitive p pos rot => order p :: placing pos rot
  | GSum l => List.concat (map compile l) ++ [Sum (List.length l)]
  | GDiff g1 g2 => compile g1 ++ compile g2 ++ [Diff]
  | GWrap l => List.concat (map compile l) ++ [Wrap (List.length l)]
  end.
Definition valid_size (p : primitive) : Prop :=
  match p with
  | Stick l => 0 < l | Plate x y => 0 < x /\ 0 < y | Box x y z => 0 < x /\ 0 < y /\ 0 < z | Round r => 0 < r | Ball r => 0 < r | Oval x y => 0 < x /\ 0 < y
  | Egg x y z => 0 < x /\ 0 < y /\ 0 < z | Lens r l => 0 < l /\ l <= 2 * r | Lemon r l => 0 < r /\ 2 * r <= l
  end.
Fixpoint valid (g : geom) : Prop :=
  match g with
  | GPoint _ => True
  | GPrimitive p _ _ => valid_size p
  | GSum l | GWrap l => (2 <= List.length l)%nat /\ fold_right (fun g P => valid g /\ P) True l
  | GDiff g1 g2 => valid g1 /\ valid g2
  end.
Section Induction.
Variable P : geom -> Prop.
Hypothesis HP : forall p, P (GPoint p).
Hypothesis HR : forall p pos rot, P (GPrimitive p pos rot).
Hypothesis HS : forall l, Forall P l -> P (GSum l).
Hypothesis HD : forall g1 g2, P g1 -> P g2 -> P (GDiff g1 g2).
Hypothesis HW : forall l, Forall P l -> P (GWrap l).
Fixpoint geom_all (g : geom) : P g :=
  let all := fix all (l : list geom) : Forall P l := match l with [] => Forall_nil P | g :: l' => Forall_cons g (geom_all g) (all l') end in
  match g with GPoint p => HP p | GPrimitive p pos rot => HR p pos rot | GSum l => HS l (all l) | GDiff g1 g2 => HD g1 g2 (geom_all g1) (geom_all g2) | GWrap l => HW l (all l) end.
End Induction.

(** *** Rotations *)
Lemma turn_unique r m : turns r m -> m = mrot_xyz (vx r * PI / 180) (vy r * PI / 180) (vz r * PI / 180).
Proof. intros (mx & my & mz & X & Y & Z & ->). apply xyz_product; assumption. Qed.
Lemma turn_exists r : turns r (mrot_xyz (vx r * PI / 180) (vy r * PI / 180) (vz r * PI / 180)).
Proof.
  set (a := vx r * PI / 180). set (b := vy r * PI / 180). set (c := vz r * PI / 180).
  exists (M33 1 0 0 0 (cos a) (- sin a) 0 (sin a) (cos a)), (M33 (cos b) 0 (sin b) 0 1 0 (- sin b) 0 (cos b)), (M33 (cos c) (- sin c) 0 (sin c) (cos c) 0 0 0 1).
  assert (X := proj2 (about_x _ a) eq_refl). assert (Y := proj2 (about_y _ b) eq_refl). assert (Z := proj2 (about_z _ c) eq_refl).
  split; [exact X|]. split; [exact Y|]. split; [exact Z|]. symmetry. apply xyz_product; assumption.
Qed.
Lemma turn_zero m : turns vzero m <-> m = mid.
Proof.
  assert (E : mrot_xyz (vx vzero * PI / 180) (vy vzero * PI / 180) (vz vzero * PI / 180) = mid).
  { cbn [vzero vx vy vz]. replace (0 * PI / 180) with 0 by field. rewrite <- (xyz_product _ _ _ 0 0 0 (proj2 (about_x _ 0) eq_refl) (proj2 (about_y _ 0) eq_refl) (proj2 (about_z _ 0) eq_refl)).
    rewrite cos_0, sin_0. mat_ring. }
  split; [intros H; apply turn_unique in H; congruence|intros ->]. rewrite <- E. apply turn_exists.
Qed.
Lemma mid_vec v : mvec mid v = v. Proof. destruct v. unfold mvec, mid. cbn. apply vec_ext; cbn; ring. Qed.
Lemma mid_trans : mtrans mid = mid. Proof. reflexivity. Qed.
Lemma add_zero v : vadd v vzero = v. Proof. destruct v. apply vec_ext; cbn; ring. Qed.
Lemma zero_add v : vadd vzero v = v. Proof. destruct v. apply vec_ext; cbn; ring. Qed.
Lemma placed_mid b y : placed b vzero mid y <-> b y.
Proof. unfold placed. split; [intros (x & H & ->); rewrite mid_vec, add_zero; exact H|]. intros H. exists y. rewrite mid_vec, add_zero. auto. Qed.
Lemma non_zero v : is_non_zero v = false <-> v = vzero.
Proof.
  unfold is_non_zero. rewrite negb_false_iff, !andb_true_iff, !Reqb_true. split; [intros [[X Y] Z]; destruct v; cbn in *; subst; reflexivity|intros ->; cbn; auto].
Qed.

(** *** Lists *)
Lemma pairwise_iff {A B} (P : A -> B -> Prop) l m : pairwise P l m <-> Forall2 P l m.
Proof. revert m. induction l as [|a l IH]; intros [|b m]; cbn [pairwise]; split; intros H; try constructor; try tauto; try (inversion H; fail); [apply IH; tauto| |]; inversion H; subst; auto. apply IH. assumption. Qed.
Lemma all_iff {A} (P : A -> Prop) l : fold_right (fun a Q => P a /\ Q) True l <-> Forall P l.
Proof. induction l as [|a l IH]; cbn; split; intros H; [constructor|exact Logic.I| |]; [constructor; tauto|inversion H; tauto]. Qed.
Lemma Forall2_rev {A B} (P : A -> B -> Prop) l m : Forall2 P l m -> Forall2 P (rev l) (rev m).
Proof. induction 1 as [|a b l m H F IH]; cbn [rev]; [constructor|]. apply Forall2_app; [exact IH|]. constructor; [exact H|constructor]. Qed.
Lemma sum_over bs y : sum_bodies bs y <-> exists xs, Forall2 (fun b x => b x) bs xs /\ y = fold_right vadd vzero xs.
Proof.
  revert y. unfold sum_bodies. induction bs as [|b bs IH]; intros y; cbn [fold_right].
  - unfold point_body. split; [intros ->; exists []; split; [constructor|reflexivity]|intros (xs & F & ->); inversion F; reflexivity].
  - unfold sum_body at 1. split.
    + intros (x1 & x2 & H1 & H2 & ->). apply IH in H2. destruct H2 as (xs & F & ->). exists (x1 :: xs). split; [constructor; assumption|reflexivity].
    + intros (xs & F & ->). inversion F as [|? x ? xs' H F']; subst. exists x, (fold_right vadd vzero xs'). split; [exact H|]. split; [apply IH; eauto|reflexivity].
Qed.
Lemma add_from a l : fold_right vadd a l = vadd (fold_right vadd vzero l) a.
Proof. induction l as [|x l IH]; cbn [fold_right]; [symmetry; apply zero_add|]. rewrite IH. apply vec_ext; cbn; ring. Qed.
Lemma add_rev l : fold_right vadd vzero (rev l) = fold_right vadd vzero l.
Proof. induction l as [|x l IH]; [reflexivity|]. cbn [rev]. rewrite fold_right_app. cbn [fold_right]. rewrite add_zero, add_from, IH. apply vec_ext; cbn; ring. Qed.
Definition same (b c : body) : Prop := forall y, b y <-> c y.
Lemma sum_same bs cs y : Forall2 same bs cs -> sum_bodies (rev bs) y <-> sum_bodies cs y.
Proof.
  intros F. rewrite !sum_over. split; intros (xs & G & ->).
  - exists (rev xs). rewrite add_rev. split; [|reflexivity]. apply Forall2_rev in G. rewrite rev_involutive in G. clear -F G. revert G. generalize (rev xs). clear xs. induction F as [|b c bs cs H F IH]; intros xs G; inversion G; subst; constructor; [apply H; assumption|apply IH; assumption].
  - exists (rev xs). rewrite add_rev. split; [|reflexivity]. apply Forall2_rev. clear -F G. revert xs G. induction F as [|b c bs cs H F IH]; intros xs G; inversion G; subst; constructor; [apply H; assumption|apply IH; assumption].
Qed.
Lemma Forall2_left {A B} (P : A -> B -> Prop) l m a : Forall2 P l m -> In a l -> exists b, In b m /\ P a b.
Proof. induction 1 as [|x y l m H F IH]; [intros []|]; intros [E|I]; [subst; exists y; split; [left; reflexivity|exact H]|]. destruct (IH I) as (b & I' & H'). exists b. split; [right; exact I'|exact H']. Qed.
Lemma Forall2_right {A B} (P : A -> B -> Prop) l m b : Forall2 P l m -> In b m -> exists a, In a l /\ P a b.
Proof. induction 1 as [|x y l m H F IH]; [intros []|]; intros [E|I]; [subst; exists x; split; [left; reflexivity|exact H]|]. destruct (IH I) as (a & I' & H'). exists a. split; [right; exact I'|exact H']. Qed.
Lemma hull_same bs cs y : Forall2 same bs cs -> hull (rev bs) y <-> hull cs y.
Proof.
  intros F. unfold hull. split; intros H c C U; apply H; auto.
  - intros b x I B. apply in_rev in I. destruct (Forall2_left _ _ _ _ F I) as (b' & I' & E). apply (U b' x I'). apply E. exact B.
  - intros b x I B. destruct (Forall2_right _ _ _ _ F I) as (b' & I' & E). apply (U b' x); [apply in_rev in I'; exact I'|]. apply E. exact B.
Qed.

(** *** Steps *)
Lemma steps_app c1 c2 l1 l2 l3 : steps c1 l1 l2 -> steps c2 l2 l3 -> steps (c1 ++ c2) l1 l3.
Proof. induction 1 as [|c cs a b d S1 S2 IH]; intros H; [exact H|]. cbn [app]. econstructor; eauto. Qed.
Lemma steps_one c l1 l2 : step c l1 l2 -> steps [c] l1 l2. Proof. intros H. econstructor; [exact H|constructor]. Qed.
Record like (g : geom) (s : solid) : Prop := {
  like_body : forall y, so_body s y <-> body_of (unplaced g) y;
  like_ok : forall n, so_ok s n <-> directions_of (unplaced g) n;
  like_there : forall y, there s y <-> body_of g y;
  like_there_ok : forall n, there_ok s n <-> directions_of g n }.
Lemma fresh_like g b ok : unplaced g = g -> (forall y, b y <-> body_of g y) -> (forall n, ok n <-> directions_of g n) -> like g (fresh b ok).
Proof.
  intros U B O. constructor; rewrite ?U; try assumption.
  - intros y. unfold there, fresh. cbn. rewrite placed_mid. apply B.
  - intros n. unfold there_ok, fresh. cbn [so_ok so_rot]. rewrite mid_trans, mid_vec. apply O.
Qed.
Lemma order_step p l : valid_size p -> step (order p) l (fresh (primitive_body p) (primitive_directions p) :: l).
Proof. destruct p; cbn [valid_size order primitive_body primitive_directions]; intros V; constructor; tauto. Qed.
Lemma placed_like p pos rot m : turns rot m -> like (GPrimitive p pos rot) (Solid (primitive_body p) (primitive_directions p) pos m).
Proof.
  intros T. assert (U : forall m', turns rot m' -> m' = m) by (intros m' T'; apply turn_unique in T'; apply turn_unique in T; congruence).
  constructor; cbn [so_body so_ok unplaced body_of directions_of].
  - intros y. split; [intros H; exists mid; split; [apply turn_zero; reflexivity|apply placed_mid; exact H]|intros (m' & H & B); apply turn_zero in H; subst m'; apply placed_mid; exact B].
  - intros n. split; [intros H; exists mid; split; [apply turn_zero; reflexivity|rewrite mid_trans, mid_vec; exact H]|intros (m' & H & B); apply turn_zero in H; subst m'; rewrite mid_trans, mid_vec in B; exact B].
  - intros y. unfold there. cbn. split; [intros H; exists m; auto|intros (m' & H & B); rewrite (U m' H) in B; exact B].
  - intros y. unfold there_ok. cbn. split; [intros H; exists m; auto|intros (m' & H & B); rewrite (U m' H) in B; exact B].
Qed.
Lemma mul_mid m : mmul m mid = m. Proof. apply mmul_id_r. Qed.
Lemma primitive_steps p pos rot l : valid_size p -> exists s, steps (order p :: placing pos rot) l (s :: l) /\ like (GPrimitive p pos rot) s.
Proof.
  intros V. destruct (turn_exists rot) as (mx & my & mz & X & Y & Z & Em).
  assert (Mv : forall s, step (Move (vx pos) (vy pos) (vz pos)) (s :: l) (Solid (so_body s) (so_ok s) (vadd (so_pos s) pos) (so_rot s) :: l)). { intros s. destruct pos. cbn. constructor. }
  unfold placing. destruct (is_non_zero rot) eqn:N.
  - eexists. split.
    + econstructor; [apply order_step; exact V|]. econstructor; [apply Mv|]. apply steps_one. apply (st_rotate _ _ _ mx my mz); assumption.
    + cbn [so_body so_ok so_pos so_rot fresh]. rewrite zero_add, mul_mid. apply placed_like. exists mx, my, mz. auto.
  - apply non_zero in N. subst rot. eexists. split.
    + econstructor; [apply order_step; exact V|]. apply steps_one. apply Mv.
    + cbn [so_body so_ok so_pos so_rot fresh]. rewrite zero_add. apply placed_like. apply turn_zero. reflexivity.
Qed.
Lemma list_steps gs : Forall (fun g => valid g -> forall l, exists s, steps (compile g) l (s :: l) /\ like g s) gs -> Forall valid gs -> forall l, exists ss, steps (List.concat (map compile gs)) l (rev ss ++ l) /\ Forall2 like gs ss.
Proof.
  induction 1 as [|g gs H F IH]; intros V l; [exists []; split; constructor|]. inversion V as [|? ? V1 V2]; subst. destruct (H V1 l) as (s & S & L). destruct (IH V2 (s :: l)) as (ss & S' & L'). exists (s :: ss). split; [|constructor; assumption].
  cbn [map List.concat rev]. rewrite <- app_assoc. cbn [app]. eapply steps_app; eauto.
Qed.
Lemma likes_bodies gs ss : Forall2 like gs ss -> Forall2 same (map there ss) (map body_of gs).
Proof. induction 1 as [|g s gs ss H F IH]; cbn [map]; constructor; [|exact IH]. intros y. apply (like_there _ _ H). Qed.
Lemma likes_ok gs ss n : Forall2 like gs ss -> all_ok (rev ss) n <-> n <> vzero /\ fold_right (fun g P => directions_of g n /\ P) True gs.
Proof.
  intros F. unfold all_ok. rewrite (all_iff (fun g => directions_of g n) gs), Forall_forall. split; intros [N H]; (split; [exact N|]).
  - intros g I. destruct (Forall2_left _ _ _ _ F I) as (s & I' & L). apply (like_there_ok _ _ L). apply H. apply in_rev in I'. exact I'.
  - intros s I. apply in_rev in I. destruct (Forall2_right _ _ _ _ F I) as (g & I' & L). apply (like_there_ok _ _ L). apply H. exact I'.
Qed.
Lemma Forall2_len {A B} (P : A -> B -> Prop) l m : Forall2 P l m -> List.length l = List.length m. Proof. induction 1; cbn; congruence. Qed.
Theorem compile_steps g : valid g -> forall l, exists s, steps (compile g) l (s :: l) /\ like g s.
Proof.
  induction g as [p|p pos rot|gs IH|g1 g2 IH1 IH2|gs IH] using geom_all; intros V l; cbn [compile].
  - eexists. split; [apply steps_one; constructor|]. apply fresh_like; [reflexivity| |].
    + intros y. cbn [body_of]. destruct p. reflexivity.
    + intros n. reflexivity.
  - apply primitive_steps. exact V.
  - destruct V as [V1 V2]. apply (all_iff valid) in V2. destruct (list_steps gs IH V2 l) as (ss & S & L). eexists. split.
    + eapply steps_app; [exact S|]. apply steps_one. apply st_sum; [rewrite rev_length; symmetry; exact (Forall2_len _ _ _ L)|exact V1].
    + apply fresh_like; [reflexivity| |].
      * intros y. cbn [body_of]. rewrite map_rev. apply sum_same. apply likes_bodies. exact L.
      * intros n. cbn [directions_of]. apply likes_ok. exact L.
  - destruct V as [V1 V2]. destruct (IH1 V1 l) as (s1 & S1 & L1). destruct (IH2 V2 (s1 :: l)) as (s2 & S2 & L2). eexists. split.
    + eapply steps_app; [exact S1|]. eapply steps_app; [exact S2|]. apply steps_one. constructor.
    + apply fresh_like; [reflexivity| |].
      * intros y. cbn [body_of]. unfold diff_body. split; intros (x1 & x2 & H1 & H2 & ->); exists x1, x2; (split; [apply (like_there _ _ L1); exact H1|split; [apply (like_there _ _ L2); exact H2|reflexivity]]).
      * intros n. cbn [directions_of]. rewrite (like_there_ok _ _ L1 n), (like_there_ok _ _ L2 (vneg n)). reflexivity.
  - destruct V as [V1 V2]. apply (all_iff valid) in V2. destruct (list_steps gs IH V2 l) as (ss & S & L). eexists. split.
    + eapply steps_app; [exact S|]. apply steps_one. apply st_wrap; [rewrite rev_length; symmetry; exact (Forall2_len _ _ _ L)|exact V1].
    + apply fresh_like; [reflexivity| |].
      * intros y. cbn [body_of]. rewrite map_rev. apply hull_same. apply likes_bodies. exact L.
      * intros n. cbn [directions_of]. apply likes_ok. exact L.
Qed.
Lemma compile_points g : points_at_origin g -> no_points (compile g).
Proof.
  assert (K : forall gs, Forall (fun g => points_at_origin g -> no_points (compile g)) gs -> Forall points_at_origin gs -> forall c, (forall x y z, c <> Point x y z) -> no_points (List.concat (map compile gs) ++ [c])).
  { intros gs F H c C x y z I. apply in_app_or in I. destruct I as [I|[I|[]]]; [|contradiction (C x y z)]. apply in_concat in I. destruct I as (cs & I & I'). apply in_map_iff in I. destruct I as (h & <- & I). rewrite Forall_forall in F, H. exact (F h I (H h I) x y z I'). }
  induction g as [p|p pos rot|gs IH|g1 g2 IH1 IH2|gs IH] using geom_all; cbn [points_at_origin compile].
  - intros -> x y z [I|[]]. injection I as <- <- <-. reflexivity.
  - intros _ x y z [I|I]; [destruct p; discriminate|]. unfold placing in I. destruct (is_non_zero rot); cbn in I; intuition discriminate.
  - intros H. apply (all_iff points_at_origin) in H. apply K; [exact IH|exact H|discriminate].
  - intros [H1 H2] x y z I. apply in_app_or in I. destruct I as [I|I]; [exact (IH1 H1 x y z I)|]. apply in_app_or in I. destruct I as [I|[I|[]]]; [exact (IH2 H2 x y z I)|discriminate].
  - intros H. apply (all_iff points_at_origin) in H. apply K; [exact IH|exact H|discriminate].
Qed.
Theorem compile_builds g : valid g -> exists x, build (compile g) = Some x /\ shaped (directions_of (unplaced g)) x (body_of (unplaced g)) /\ (points_at_origin g -> covered x (body_of (unplaced g))).
Proof.
  intros V. destruct (compile_steps g V []) as (s & S & L). destruct (build (compile g)) as [x|] eqn:B; [|exfalso; apply (proj2 (build_accepts (compile g))); [eauto|exact B]]. exists x. split; [reflexivity|].
  destruct (build_means _ x s B S) as ((C & Ce & Su) & Co & _). split.
  - split; [|split].
    + intros u v k Hu Hv K. apply (like_body _ _ L). apply C; [apply (like_body _ _ L); exact Hu|apply (like_body _ _ L); exact Hv|exact K].
    + apply (like_body _ _ L). exact Ce.
    + intros n N. apply (like_ok _ _ L) in N. destruct (Su n N) as (v & E & P & M). exists v. split; [exact E|]. split; [apply (like_body _ _ L); exact P|]. intros y Y. apply M. apply (like_body _ _ L). exact Y.
  - intros P y Y. apply (Co (compile_points g P)). apply (like_body _ _ L). exact Y.
Qed.
