From Coq Require Import Reals List Bool Arith Lia Lra Psatz.
From Verif Require Import OptModel GeomModel GeomProofs SegErrorProofs GeoModel RotSpec RotProofs XcModel XcSpec XcPrimProofs XcRoundProofs XcOpProofs XcMaxProofs XcBuildProofs.
Import ListNotations.
Open Scope R_scope.

Ltac inv H := inversion H; subst; clear H.
Lemma build_runs cs s : steps cs [] [s] -> exists g, build cs = Some g.
Proof. intros H. destruct (build cs) as [g|] eqn:E; [eauto|]. exfalso. apply (proj2 (build_accepts cs) (ex_intro _ s H)). exact E. Qed.
Lemma unit_x_norm x : 0 <= x -> vnorm (V3 x 0 0) = x.
Proof. intros H. unfold vnorm, vnorm2, vdot. cbn. replace (x * x + 0 * 0 + 0 * 0) with (x ^ 2) by ring. apply sqrt_pow2. exact H. Qed.
Lemma x_below u : - vx u <= vnorm u.
Proof. destruct (Rle_or_lt (- vx u) (vnorm u)) as [H|H]; [exact H|]. destruct (norm_coord u ((vnorm u + - vx u) / 2) ltac:(lra)) as (Q&_). lra. Qed.
Lemma there_fresh b ok y : there (fresh b ok) y <-> b y.
Proof.
  unfold there, fresh, placed. cbn [so_body so_pos so_rot]. split.
  - intros (x&B&->). rewrite mvec_id. replace (vadd x vzero) with x by (apply vec_ext; cbn; ring). exact B.
  - intros B. exists y. split; [exact B|]. rewrite mvec_id. apply vec_ext; cbn; ring.
Qed.

(** A sphere moved away from another one, both wrapped *)
Definition two_balls : list command := [Sphere 1; Move 3 0 0; Sphere 2; Wrap 2].
Definition moved_ball (x : R) : solid := Solid (ball_body 1) any_direction (vadd vzero (V3 x 0 0)) mid.
Definition two_balls_solid : solid := fresh (hull (map there [fresh (ball_body 2) any_direction; moved_ball 3])) (all_ok [fresh (ball_body 2) any_direction; moved_ball 3]).
Lemma two_balls_steps : steps two_balls [] [two_balls_solid].
Proof.
  econstructor; [apply st_sphere; lra|]. econstructor; [apply st_move|]. econstructor; [apply st_sphere; lra|]. econstructor; [|constructor].
  apply (st_wrap 2 [fresh (ball_body 2) any_direction; moved_ball 3] []); [reflexivity|lia].
Qed.
Lemma ball_origin r : 0 < r -> ball_body r vzero. Proof. intros H. unfold ball_body. rewrite vnorm_zero. lra. Qed.
Lemma two_balls_careful : careful two_balls [].
Proof.
  intros cs1 c cs2 l' E S. unfold two_balls in E. destruct cs1 as [|c1 cs1]; cbn in E; injection E as E1 E.
  - subst. inv S. split; [intros s []|]. intros. congruence.
  - subst c1. inv S. match goal with H : step (Sphere 1) _ _ |- _ => inv H end. destruct cs1 as [|c1 cs1]; cbn in E; injection E as E1 E.
    + match goal with H : steps [] _ _ |- _ => inv H end. split; [intros s [<-|[]]; apply ball_origin; lra|]. intros. congruence.
    + subst c1. match goal with H : steps (Move _ _ _ :: _) _ _ |- _ => inv H end. match goal with H : step (Move _ _ _) _ _ |- _ => inv H end. destruct cs1 as [|c1 cs1]; cbn in E; injection E as E1 E.
      * match goal with H : steps [] _ _ |- _ => inv H end. split; [intros s [<-|[]]; apply ball_origin; lra|]. intros. congruence.
      * subst c1. match goal with H : steps (Sphere _ :: _) _ _ |- _ => inv H end. match goal with H : step (Sphere _) _ _ |- _ => inv H end. destruct cs1 as [|c1 cs1]; cbn in E; injection E as E1 E.
        -- match goal with H : steps [] _ _ |- _ => inv H end. split; [intros s [<-|[<-|[]]]; apply ball_origin; lra|]. intros s1 s2 rest _ Q. left. injection Q as <- _ _. reflexivity.
        -- exfalso. destruct cs1; discriminate.
Qed.
Lemma two_balls_no_points : no_points two_balls.
Proof. intros x y z [H|[H|[H|[H|[]]]]]; discriminate. Qed.

(** Two points wrapped *)
Definition two_points : list command := [Point 1 0 0; Point (-1) 0 0; Wrap 2].
Definition point_solid (x : R) : solid := fresh (point_body (V3 x 0 0)) any_direction.
Lemma points_not_covered : exists cs g s, build cs = Some g /\ steps cs [] [s] /\ ~ covered g (so_body s).
Proof.
  exists two_points. set (s := fresh (hull (map there [point_solid (-1); point_solid 1])) (all_ok [point_solid (-1); point_solid 1])).
  assert (ST : steps two_points [] [s]). { econstructor; [apply st_point|]. econstructor; [apply st_point|]. econstructor; [|constructor]. apply (st_wrap 2 [point_solid (-1); point_solid 1] []); [reflexivity|lia]. }
  destruct (build_runs _ _ ST) as (g&B). exists g, s. split; [exact B|]. split; [exact ST|]. intros C. specialize (C (V3 1 0 0)).
  cbn in B. injection B as <-. cbn [xc_circumsphere] in C. cbn [xc_max xc_circumsphere fold_left en_pos en_geometry xc_point] in C. rewrite !vnorm_zero in C. unfold fmax in C. destruct (Rltb (0 + 0) (0 + 0)) in C; rewrite unit_x_norm in C by lra.
  all: enough (so_body s (V3 1 0 0)) as H by (specialize (C H); destruct (Rltb _ _) in C; lra); apply (hull_contains _ (there (point_solid 1))); [right; left; reflexivity|]; apply there_fresh; reflexivity.
Qed.

(** Two spheres at the same place away from the origin *)
Lemma balls_not_filled : exists cs g s, build cs = Some g /\ steps cs [] [s] /\ no_points cs /\ ~ filled g (so_body s).
Proof.
  exists [Sphere 1; Move 5 0 0; Dup 1; Wrap 2]. set (s := fresh (hull (map there [moved_ball 5; moved_ball 5])) (all_ok [moved_ball 5; moved_ball 5])).
  assert (ST : steps [Sphere 1; Move 5 0 0; Dup 1; Wrap 2] [] [s]).
  { econstructor; [apply st_sphere; lra|]. econstructor; [apply st_move|]. econstructor; [apply (st_dup 1 [moved_ball 5] []); [reflexivity|lia]|]. econstructor; [|constructor].
    apply (st_wrap 2 [moved_ball 5; moved_ball 5] []); [reflexivity|lia]. }
  destruct (build_runs _ _ ST) as (g&B). exists g, s. split; [exact B|]. split; [exact ST|]. split; [intros x y z [H|[H|[H|[H|[]]]]]; discriminate|]. intros F.
  assert (I : xc_insphere g = 1).
  { unfold build in B. cbn [run_script run_command] in B. unfold push_checked, xc_sphere in B. rewrite !(proj2 (Rltb_true 0 1)) in B by lra. cbn in B. injection B as <-.
    cbn [xc_insphere xc_max calculateInsphereRadius]. unfold calculateInsphereRadius2. cbn [en_geometry en_pos xc_insphere]. unfold fmax, fmin. destruct (Rltb 1 1) eqn:T; [apply Rltb_true in T; lra|].
    replace (vsub (vadd vzero (V3 5 0 0)) (vadd vzero (V3 5 0 0))) with vzero by (apply vec_ext; cbn; ring). rewrite vnorm_zero. rewrite (proj2 (Reqb_false 1 0)) by lra. cbn [negb andb].
    rewrite (proj2 (Rltb_true (0 / 1) (/ 10 ^ 14))); [reflexivity|]. unfold Rdiv. rewrite Rmult_0_l. apply Rinv_0_lt_compat. lra. }
  assert (Z : so_body s vzero) by (apply F; rewrite I, vnorm_zero; lra).
  specialize (Z (fun y => vdot y (V3 (-1) 0 0) <= -4) (half_space_convex _ _)). cbn beta in Z. unfold vdot in Z at 2. cbn in Z. enough (0 <= -4) by lra.
  replace 0 with (0 * -1 + 0 * 0 + 0 * 0) by ring. apply Z. intros b x I2 X.
  assert (T : there (moved_ball 5) x) by (destruct I2 as [<-|[<-|[]]]; exact X). destruct T as (u&U&->). cbn [moved_ball so_rot so_pos so_body] in *. rewrite mvec_id. unfold ball_body in U. enough (vx u * -1 <= 1) by (unfold vdot; cbn; lra). pose proof (x_below u). lra.
Qed.
Lemma sum_not_filled : exists cs g s, build cs = Some g /\ steps cs [] [s] /\ ~ filled g (so_body s).
Proof.
  exists [Sphere 1; Point 5 0 0; Sum 2]. set (s := fresh (sum_bodies (map there [point_solid 5; fresh (ball_body 1) any_direction])) (all_ok [point_solid 5; fresh (ball_body 1) any_direction])).
  assert (ST : steps [Sphere 1; Point 5 0 0; Sum 2] [] [s]).
  { econstructor; [apply st_sphere; lra|]. econstructor; [apply st_point|]. econstructor; [|constructor]. apply (st_sum 2 [point_solid 5; fresh (ball_body 1) any_direction] []); [reflexivity|lia]. }
  destruct (build_runs _ _ ST) as (g&B). exists g, s. split; [exact B|]. split; [exact ST|]. intros F.
  assert (I : xc_insphere g = 1).
  { unfold build in B. cbn [run_script run_command] in B. unfold push_checked, xc_sphere in B. rewrite !(proj2 (Rltb_true 0 1)) in B by lra. cbn in B. injection B as <-.
    cbn [xc_insphere xc_sum fold_left en_pos en_geometry xc_point]. replace (vadd (vadd vzero vzero) vzero) with vzero by (apply vec_ext; cbn; ring). rewrite vnorm_zero. unfold fmax. rewrite (proj2 (Rltb_true _ _)) by lra. ring. }
  assert (Z : so_body s vzero) by (apply F; rewrite I, vnorm_zero; lra). destruct Z as (x1&x2&X1&X2&E). apply (proj1 (there_fresh _ _ _)) in X1. unfold point_body in X1. destruct X2 as (x3&x4&X3&X4&E2). apply (proj1 (there_fresh _ _ _)) in X3. unfold ball_body in X3. cbn in X4. unfold point_body in X4.
  pose proof (x_below x3). rewrite X1, E2, X4 in E. apply (f_equal vx) in E. cbn in E. lra.
Qed.
Lemma disk_short : exists g s n, build [Disk 1] = Some g /\ steps [Disk 1] [] [s] /\ n <> vzero /\ exists v, xc_support g n = Some v /\ ~ supports (so_body s) n v.
Proof.
  assert (ST : steps [Disk 1] [] [fresh (disk_body 1) disk_direction]) by (econstructor; [apply st_disk; lra|constructor]).
  destruct (build_runs _ _ ST) as (g&B). exists g, (fresh (disk_body 1) disk_direction), (V3 (ZERO / 2) 0 0). split; [exact B|]. split; [exact ST|]. pose proof ZERO_pos as ZP.
  split; [intros E; injection E; lra|]. exists vzero. split.
  - unfold build in B. cbn [run_script run_command] in B. unfold push_checked, xc_disk in B. rewrite !(proj2 (Rltb_true 0 1)) in B by lra. cbn [obind releaseCollideGeometry push en_geometry] in B. injection B as <-.
    cbn [xc_support]. rewrite (proj2 (is_zero_spec _)); [reflexivity|]. cbn [vx vy vz]. rewrite !Rabs_R0, Rabs_pos_eq by lra. lra.
  - intros (_&M). specialize (M (V3 1 0 0)). cbn [so_body fresh] in M. unfold disk_body in M. rewrite unit_x_norm in M by lra. specialize (M (conj eq_refl (Rle_refl 1))). unfold vdot in M. cbn in M. lra.
Qed.
Lemma football_end : exists g, build [Football 2 1] = Some g /\ xc_support g (V3 0 0 1) = None.
Proof.
  assert (ST : steps [Football 2 1] [] [fresh (football_body (2 / 2) 1) (football_direction (2 / 2) 1)]) by (econstructor; [apply st_football; lra|constructor]).
  destruct (build_runs _ _ ST) as (g&B). exists g. split; [exact B|]. unfold build in B. cbn [run_script run_command] in B. unfold push_checked, xc_football in B.
  rewrite !(proj2 (Rltb_true 0 1)), (proj2 (Rltb_true 0 2)), (proj2 (Rleb_true (2 * 1) 2)), (proj2 (Rleb_true 1 (2 / 2))) in B by lra. cbn [obind releaseCollideGeometry push en_geometry andb] in B. injection B as <-. cbn [xc_support].
  replace (normalized (V3 0 0 1)) with (Some (V3 0 0 1)).
  - cbn [obind vz vx vy]. destruct (Rltb (1 * (/ 2 * (2 / 2 * (2 / 2) / 1 + 1))) (- (2 / 2))) eqn:T; [apply Rltb_true in T; lra|]. destruct (Rltb (2 / 2) (1 * (/ 2 * (2 / 2 * (2 / 2) / 1 + 1)))) eqn:T2; [apply Rltb_true in T2; lra|].
    destruct (normalized (V3 0 0 0)) as [v|] eqn:N; [|reflexivity]. exfalso. unfold normalized in N. rewrite (proj2 (Reqb_true _ 0)) in N; [discriminate|]. unfold vnorm2, vdot; cbn; ring.
  - unfold normalized. assert (V : vnorm (V3 0 0 1) = 1) by (unfold vnorm, vnorm2, vdot; cbn; replace (0 * 0 + 0 * 0 + 1 * 1) with 1 by ring; apply sqrt_1). rewrite V. rewrite (proj2 (Reqb_false _ 0)) by (unfold vnorm2, vdot; cbn; lra). f_equal. apply vec_ext; cbn; field.
Qed.
