(** Descriptions of convex bodies. *)
From Coq Require Import Reals ZArith List Bool Lia Lra String Sorted.
From Verif Require Import TextModel StringsModel PyonModel MatchModel GeomModel GeomProofs GeoModel XcModel XcSpec InputModel InputSpec InputExamples ConvexModel ConvexSpec ConvexMeanProofs ConvexMatchProofs ConvexShapeProofs.
Import ListNotations.
Open Scope Z_scope.

Definition no_range : list Z -> bool := fun _ => false.
Definition three_ints (a b c : Z) : node := NArray [NInt a; NInt b; NInt c].
Lemma ints of_float a b c : vector of_float (three_ints a b c) (V3 (IZR a) (IZR b) (IZR c)).
Proof. exists (NInt a), (NInt b), (NInt c). split; [reflexivity|]. cbn [fst snd vx vy vz]. repeat split; left; eauto. Qed.

(** Three bodies wrapped, of which one is turned, and a difference. *)
Definition wrapped_text : text := tx "wrap(sphere(1), diff(segment(l=2), point([0, 0, 1])), disk(3, rot=[90, 0, 0]))".
Definition wrapped_node : node := cl "wrap" [cl "sphere" [NInt 1] []; cl "diff" [cl "segment" [] [("l"%string, NInt 2)]; cl "point" [three_ints 0 0 1] []] []; cl "disk" [NInt 3] [("rot"%string, three_ints 90 0 0)]] [].
Definition wrapped_geom : geom := GWrap [GPrimitive (Ball 1) vzero vzero; GDiff (GPrimitive (Stick 2) vzero vzero) (GPoint (V3 0 0 1)); GPrimitive (Round 3) vzero (V3 90 0 0)].
Lemma wrapped_parsed : parse no_range wrapped_text = Ok wrapped_node.
Proof. vm_compute. reflexivity. Qed.
Lemma wrapped_written of_float : written of_float wrapped_geom wrapped_node.
Proof.
  exists [cl "sphere" [NInt 1] []; cl "diff" [cl "segment" [] [("l"%string, NInt 2)]; cl "point" [three_ints 0 0 1] []] []; cl "disk" [NInt 3] [("rot"%string, three_ints 90 0 0)]]. split; [reflexivity|]. split; [cbn; lia|].
  apply pairwise_iff. constructor; [|constructor; [|constructor; [|constructor]]].
  - eexists. split; [called|]. split; [given; apply positive; lia|]. split; reflexivity.
  - eexists. split; [called|]. split.
    + exists (cl "segment" [] [("l"%string, NInt 2)]). split; [reflexivity|]. eexists. split; [called|]. split; [given; apply positive; lia|]. split; reflexivity.
    + exists (cl "point" [three_ints 0 0 1] []). split; [reflexivity|]. eexists. split; [called|]. exists (three_ints 0 0 1). split; [reflexivity|]. apply ints.
  - eexists. split; [called|]. split; [given; apply positive; lia|]. split; [reflexivity|]. apply (ints of_float).
Qed.

(** A ball away from the origin. *)
Definition far_text : text := tx "sphere(1, [3, 0, 0])".
Definition far_geom : geom := GPrimitive (Ball 1) (V3 3 0 0) vzero.
Lemma far_parsed : parse no_range far_text = Ok (cl "sphere" [NInt 1; three_ints 3 0 0] []).
Proof. vm_compute. reflexivity. Qed.
Lemma far_written of_float : written of_float far_geom (cl "sphere" [NInt 1; three_ints 3 0 0] []).
Proof.
  eexists. split; [called|]. split; [given; apply positive; lia|]. split; [|reflexivity]. apply (ints of_float).
Qed.
Lemma position_lost of_float :
  ~ (forall erange s n g cs x, parse erange s = Ok n -> written of_float g n -> match_geometry of_float erange s = Some cs -> build cs = Some x -> shaped (directions_of g) x (body_of g)).
Proof.
  intros H. destruct (geometry_bodies of_float no_range far_text _ far_geom far_parsed (far_written of_float)) as (cs & x & M & B & _). pose proof (H no_range far_text _ far_geom cs x far_parsed (far_written of_float) M B) as (_ & C & _).
  assert (X : x = XC (fun n => match normalized n with Some u => Some (vscale 1 u) | None => None end) vzero 1 1).
  { assert (E : match_geometry of_float no_range far_text = Some (compile far_geom)) by (apply match_geometry_iff; eauto using far_parsed, far_written).
    assert (Ec : cs = [Sphere 1; Move 3 0 0]) by (transitivity (compile far_geom); [congruence|exact (ball_compile 1 (V3 3 0 0))]). rewrite Ec in B. unfold build in B. cbn [run_script run_command] in B. unfold push_checked, xc_sphere in B.
    assert (R1 : Rltb 0 1 = true) by (apply Rltb_true; lra). rewrite R1 in B. cbn in B. injection B as <-. reflexivity. }
  rewrite X in C. cbn [xc_centre] in C. destruct C as (m & T & p & Bp & Ep). apply turn_zero in T. subst m. rewrite mid_vec in Ep. cbn [primitive_body] in Bp. unfold ball_body, vnorm in Bp. apply (f_equal vx) in Ep. cbn in Ep.
  assert (L : (9 <= vnorm2 p)%R). { unfold vnorm2, vdot. pose proof (Rle_0_sqr (vy p)). pose proof (Rle_0_sqr (vz p)). unfold Rsqr in *. assert (vx p = -3)%R by lra. nra. }
  assert (Q : (sqrt (vnorm2 p) * sqrt (vnorm2 p) = vnorm2 p)%R) by (apply sqrt_sqrt; lra). pose proof (sqrt_pos (vnorm2 p)). nra.
Qed.

(** A shape whose axes are opposite. *)
Definition axes_text : text := tx "generic_convex(sphere(1), 4, primary_axis=[1, 0, 0], secondary_axis=[-1, 0, 0], named_points={""top"": [0, 0, 1]})".
Definition axes_node : node := cl "generic_convex" [cl "sphere" [NInt 1] []; NInt 4] [("primary_axis", three_ints 1 0 0); ("secondary_axis", three_ints (-1) 0 0); ("named_points", NDict [(tx "top", three_ints 0 0 1)])]%string.
Lemma axes_parsed : parse no_range axes_text = Ok axes_node.
Proof. vm_compute. reflexivity. Qed.
Lemma unit_axis of_float a : a = 1 \/ a = -1 -> axis of_float (three_ints a 0 0) (V3 (IZR a) 0 0).
Proof.
  intros H. exists (V3 (IZR a) (IZR 0) (IZR 0)). split; [apply ints|]. cbn [vx vy vz]. assert (A : Rabs (IZR a) = 1%R) by (destruct H as [-> | ->]; unfold Rabs; destruct (Rcase_abs _); lra). split; [left; rewrite A; lra|].
  assert (N : vnorm (V3 (IZR a) 0 0) = 1%R). { unfold vnorm, vnorm2, vdot. cbn [vx vy vz]. replace (IZR a * IZR a + 0 * 0 + 0 * 0)%R with 1%R by (destruct H as [-> | ->]; ring). apply sqrt_1. }
  rewrite N. apply vec_ext; cbn; field.
Qed.
Definition axes_geom : geom := GPrimitive (Ball 1) vzero vzero.
Lemma axes_written of_float : convex_written of_float axes_node axes_geom (Some (V3 1 0 0)) (Some (V3 (-1) 0 0)) vzero 4 [(tx "top", V3 0 0 1)].
Proof.
  unfold axes_node. constructor; [|unfold axes_allowed, vdot; cbn [vx vy vz]; assert (0 < / 10 ^ 12)%R by (apply Rinv_0_lt_compat; apply pow_lt; lra); lra]. eexists. split; [called|]. split; [exists (cl "sphere" [NInt 1] []); split; [reflexivity|]|].
  - eexists. split; [called|]. split; [given; apply positive; lia|]. split; reflexivity.
  - split; [given; apply positive; lia|]. split; [reflexivity|]. split; [apply (unit_axis of_float 1); left; reflexivity|]. split; [apply (unit_axis of_float (-1)); right; reflexivity|].
    exists [(tx "top", three_ints 0 0 1)]. split; [reflexivity|]. split; [repeat constructor|]. split.
    + intros k m [E|[]]. injection E as <- <-. exists (V3 0 0 1). split; [apply ints|left; reflexivity].
    + intros k v [E|[]]. injection E as <- <-. exists (three_ints 0 0 1). split; [left; reflexivity|apply ints].
Qed.
Lemma opposite_axes of_float : ~ (forall erange s c pa sa, match_convex of_float erange s = Some c -> cx_primary c = Some pa -> cx_secondary c = Some sa -> (Rabs (vdot pa sa) < 1)%R).
Proof.
  intros H. destruct (convex_means of_float no_range axes_text _ _ _ _ _ _ _ axes_parsed (axes_written of_float)) as (x & M & _). specialize (H _ _ _ _ _ M eq_refl eq_refl). unfold vdot in H. cbn [vx vy vz] in H. unfold Rabs in H. destruct (Rcase_abs _) in H; lra.
Qed.
