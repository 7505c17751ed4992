From Coq Require Import Reals ZArith List Bool Lia Lra.
From Verif Require Import GeomModel BoxModel BoxSpec RotModel PackSpec BinsModel BinsSpec TrackerModel TrackerSpec TrackerMaxProofs TrackerWholeProofs TrackerExamples.
Import ListNotations.
Local Open Scope R_scope.

(** A tracker is created exactly if some wavenumber is not zero and the function has one value. *)
Theorem C69_create k f t : tracker_create k f = Some t <-> ((exists a, (0 < k a)%nat) /\ number_of_values f = 1%nat) /\ t = Tracker k f vzero.
Proof. exact (create_iff k f t). Qed.
Print Assumptions C69_create.
Example C69_create_example : tracker_create ones unit_function = Some (Tracker ones unit_function vzero).
Proof. apply C69_create. split; [split; [exists AX; unfold ones; lia|reflexivity]|reflexivity]. Qed.

(** With one or two waves, for all sequences of packings and resets: reported origins are maxima, as close to previous ones as possible. *)
Theorem C69_waves solve k f t calls : tracker_create k f = Some t -> (exists a, k a = 0%nat) ->
  exists outs, track solve calls t = Some outs /\ followed (best_origin k f) vzero calls outs.
Proof. exact (waves_followed solve k f t calls). Qed.
Print Assumptions C69_waves.
Example C69_waves_example solve : track solve [Track (single (V3 (1 / 4) 0 0))] (Tracker (fun a => match a with AX => 1%nat | _ => 0%nat end) unit_function vzero) = Some [V3 (1 / 4) 0 0].
Proof. exact (one_wave_followed solve). Qed.
Example C69_pronounced_example k p : pronounced k unit_function (single p).
Proof. exact (single_pronounced k p). Qed.

(** With three waves: if all roots of the equation are found and some maximum is not at a zero of the cosine wave of the third axis. *)
Theorem C69_three_waves solve k f t calls : tracker_create k f = Some t -> (forall a, (0 < k a)%nat) ->
  (forall s, In (Track s) calls -> finds_roots solve (tangent_coefficients (coefficient k f s)) /\ exists r, is_maximum k f s r /\ cos (2 * PI * INR (k AZ) * vz r) <> 0) ->
  exists outs, track solve calls t = Some outs /\ followed (good_origin k f) vzero calls outs.
Proof. exact (space_followed solve k f t calls). Qed.
Print Assumptions C69_three_waves.
Example C69_three_waves_example : tracker_create ones unit_function = Some (Tracker ones unit_function vzero) /\ (forall a, (0 < ones a)%nat) /\
  forall s, In (Track s) [Track three; Reset; Track three] -> finds_roots (fun _ => [0]) (tangent_coefficients (coefficient ones unit_function s)) /\ exists r, is_maximum ones unit_function s r /\ cos (2 * PI * INR (ones AZ) * vz r) <> 0.
Proof.
  split; [exact C69_create_example|]. split; [exact ones_pos|]. intros s [E|[E|[E|[]]]]; inversion E; subst; (split; [exact three_solved|]; exists vzero; split; [exact three_maximum|]; unfold vzero; cbn [vz]; rewrite Rmult_0_r, cos_0; lra).
Qed.

(** Without it, the maximum is missed: even for one particle, whatever the solver. *)
Theorem C69_three_waves_refuted solve : exists p o, in_unit p /\ track solve [Track (single p)] (Tracker ones unit_function vzero) = Some [o] /\ in_unit o /\ modulation ones unit_function (single p) o < modulation ones unit_function (single p) p.
Proof. exact (single_missed solve). Qed.
Print Assumptions C69_three_waves_refuted.
