From Coq Require Import ZArith Reals List Bool Permutation Lra Lia.
From Verif Require Import TextModel GeomModel BoxModel BoxSpec ScalingModel ScalingSpec ScalingProofs ScalingBoxProofs.
Import ListNotations.
Local Open Scope R_scope.

Theorem C50_accepted s d : parse_direction s = Some d <->
  exists ps, render ps = s /\ Permutation (all_axes ps) [AX; AY; AZ] /\ Forall2 consists (groups ps) d.
Proof. exact (parse_direction_iff s d). Qed.
Print Assumptions C50_accepted.

Theorem C50_configured s d : scalingDirection s = Some d <->
  (exists gs, In (s, gs) named /\ Forall2 consists gs d) \/
  (exists ps, render ps = s /\ Permutation (all_axes ps) [AX; AY; AZ] /\ Forall2 consists (groups ps) d).
Proof. exact (scaling_direction_iff s d). Qed.
Print Assumptions C50_configured.

Theorem C50_nothing_scaled_refuted : exists s d, scalingDirection s = Some d /\ forall sampler ind, make_anisotropic sampler d ind = None.
Proof. exact bracketed_refuted. Qed.
Print Assumptions C50_nothing_scaled_refuted.

(* "(xz)[y]" *)
Example C50_example : parse_direction [40; 120; 122; 41; 91; 121; 93]%Z = Some [(true, false, true)] /\
  render [Together [AX; AZ]; Fixed [AY]] = [40; 120; 122; 41; 91; 121; 93]%Z /\ parse_direction [40; 120; 122; 41; 91; 120; 93]%Z = None.
Proof. repeat split; reflexivity. Qed.

Theorem C51_log s d ind choice steps b : constructed b -> scalingDirection s = Some d -> chosen d choice ->
  exists b', anisotropic_move log_sampler s ind choice steps b = Some b' /\ constructed b' /\
    forall a, (forall u, stepped d ind choice steps a u -> box_side b' a = vscale (exp u) (box_side b a) /\ box_height b' a = exp u * box_height b a) /\
              ((forall u, ~ stepped d ind choice steps a u) -> box_side b' a = box_side b a /\ box_height b' a = box_height b a).
Proof. exact (log_box s d ind choice steps b). Qed.
Print Assumptions C51_log.

Theorem C51_linear s d ind choice steps b : constructed b -> scalingDirection s = Some d -> chosen d choice ->
  (forall a u, stepped d ind choice steps a u -> 0 < box_height b a + u) ->
  exists b', anisotropic_move linear_sampler s ind choice steps b = Some b' /\ constructed b' /\
    forall a, (forall u, stepped d ind choice steps a u ->
                 box_side b' a = vscale (1 + u / box_height b a) (box_side b a) /\ box_height b' a = box_height b a + u) /\
              ((forall u, ~ stepped d ind choice steps a u) -> box_side b' a = box_side b a /\ box_height b' a = box_height b a).
Proof. exact (linear_box s d ind choice steps b). Qed.
Print Assumptions C51_linear.

Theorem C51_linear_too_far s d ind choice steps b : constructed b -> scalingDirection s = Some d -> chosen d choice ->
  (exists a u, stepped d ind choice steps a u /\ box_height b a + u <= 0) -> anisotropic_move linear_sampler s ind choice steps b = None.
Proof. exact (linear_fails s d ind choice steps b). Qed.
Print Assumptions C51_linear_too_far.

Theorem C51_delta_v deltaV b : constructed b -> is_orthogonal b -> 0 < box_volume b + deltaV ->
  exists b' f, delta_move deltaV b = Some b' /\ constructed b' /\ 0 < f /\ (forall a, box_side b' a = vscale f (box_side b a)) /\ box_volume b' = box_volume b + deltaV.
Proof. exact (delta_orthogonal deltaV b). Qed.
Print Assumptions C51_delta_v.

Theorem C51_delta_v_triclinic_refuted : exists b deltaV b',
  constructed b /\ 0 < box_volume b + deltaV /\ delta_move deltaV b = Some b' /\ box_volume b' <> box_volume b + deltaV.
Proof. exact delta_triclinic_refuted. Qed.
Print Assumptions C51_delta_v_triclinic_refuted.

Theorem C51_delta_v_reflected_refuted : exists b deltaV b', constructed b /\ is_orthogonal b /\ delta_move deltaV b = Some b' /\
  (forall a, box_side b' a = vscale (-1) (box_side b a)) /\ box_volume b' = box_volume b.
Proof. exact delta_reflected_refuted. Qed.
Print Assumptions C51_delta_v_reflected_refuted.

Theorem C51_delta_triclinic together choice steps b b' : triclinic_update together choice steps b = Some b' ->
  constructed b' /\ forall a, (together = true \/ a = choice -> box_side b' a = vadd (box_side b a) (V3 (steps AX a) (steps AY a) (steps AZ a))) /\
                              (together = false /\ a <> choice -> box_side b' a = box_side b a).
Proof. exact (triclinic_sides together choice steps b b'). Qed.
Print Assumptions C51_delta_triclinic.

Theorem C51_delta_triclinic_refused together choice steps b :
  let moved a := if together || (if axis_dec a choice then true else false) then vadd (box_side b a) (V3 (steps AX a) (steps AY a) (steps AZ a)) else box_side b a in
  triclinic_update together choice steps b = None <-> vdot (moved AX) (vcross (moved AY) (moved AZ)) = 0.
Proof. exact (triclinic_fails together choice steps b). Qed.
Print Assumptions C51_delta_triclinic_refused.

(* "(xz)y" in a box 2 x 3 x 4: hypotheses of all theorems are met, and each side is stepped. *)
Example C51_example : exists b, constructed b /\ is_orthogonal b /\ 0 < box_volume b + 1 /\
  scalingDirection [40; 120; 122; 41; 121]%Z = Some [(true, false, true); (false, true, false)] /\
  chosen [(true, false, true); (false, true, false)] 1 /\
  (forall steps, stepped [(true, false, true); (false, true, false)] false 1 steps AZ (steps 0%nat) /\
                 stepped [(true, false, true); (false, true, false)] false 1 steps AY (steps 1%nat) /\
                 stepped [(true, false, true); (false, true, false)] true 1 steps AY (steps 0%nat)) /\
  box_side b AY = V3 0 3 0.
Proof.
  destruct (cuboid 2 3 4) as (b&C&O&V&_&S&_); [lra|]. rewrite Rabs_pos_eq in V by lra. exists b.
  split; [exact C|]. split; [exact O|]. split; [lra|]. split; [reflexivity|]. split; [unfold chosen; cbn; lia|]. split; [|exact S].
  intros steps. unfold stepped; cbn. split; [|split].
  - exists 0%nat, (true, false, true). auto.
  - exists 1%nat, (false, true, false). auto.
  - exists (false, true, false). auto.
Qed.
