(** C59: averages and their errors. *)
From Coq Require Import Reals List Lra Lia Permutation.
From Verif Require Import OptModel TextModel ObsModel ObsSpec ObsExamples ObsFinalProofs QuantityModel QuantitySpec QuantityProofs.
Import ListNotations.
Open Scope R_scope.

(** Two or more samples: the mean and the standard error of the mean. *)
Theorem C59_statistics : forall xs, (2 <= length xs)%nat -> calculateFromSamples xs = (mean xs, standard_error xs).
Proof. exact quantity_spec. Qed.
Print Assumptions C59_statistics.
Example C59_statistics_case : calculateFromSamples [1; 3] = (2, 1).
Proof.
  rewrite C59_statistics by (cbn; lia). unfold standard_error, sample_variance, mean, total. cbn. f_equal; [field|]. match goal with |- sqrt ?x = _ => replace x with 1 by field end. apply sqrt_1.
Qed.

(** Fewer samples. *)
Theorem C59_few : calculateFromSamples [] = (0, 0) /\ forall x, calculateFromSamples [x] = (x, 0).
Proof. split; reflexivity. Qed.
Print Assumptions C59_few.

(** The order of samples does not matter. *)
Theorem C59_order : forall xs ys, Permutation xs ys -> calculateFromSamples xs = calculateFromSamples ys.
Proof. exact quantity_perm. Qed.
Print Assumptions C59_order.
Example C59_order_case : calculateFromSamples [1; 3; 7] = calculateFromSamples [7; 1; 3].
Proof. apply C59_order. apply (Permutation_cons_append [1; 3] 7) || (apply Permutation_sym; apply (Permutation_cons_append [1; 3] 7)). Qed.

(** Other units: the average follows and the error scales. *)
Theorem C59_units : forall a b xs, (2 <= length xs)%nat ->
  calculateFromSamples (map (fun x => a * x + b) xs) = (a * fst (calculateFromSamples xs) + b, Rabs a * snd (calculateFromSamples xs)).
Proof.
  intros a b xs L. rewrite !quantity_spec by (rewrite ?map_length; exact L). cbn [fst snd]. rewrite error_affine by exact L. rewrite mean_affine; [reflexivity|]. intros ->. cbn in L. lia.
Qed.
Print Assumptions C59_units.
Example C59_units_case : calculateFromSamples (map (fun x => 2 * x + 1) [1; 3]) = (5, 2).
Proof. rewrite C59_units by (cbn; lia). rewrite C59_statistics_case. cbn [fst snd]. rewrite Rabs_right by lra. f_equal; lra. Qed.

(** The error is never negative; it is 0 exactly when all the samples are the same. *)
Theorem C59_error : forall xs, (2 <= length xs)%nat ->
  0 <= snd (calculateFromSamples xs) /\ (snd (calculateFromSamples xs) = 0 <-> exists c, Forall (fun x => x = c) xs).
Proof. intros xs L. rewrite quantity_spec by exact L. cbn [snd]. split; [apply error_nonneg|apply error_zero; exact L]. Qed.
Print Assumptions C59_error.
Example C59_error_case : snd (calculateFromSamples [4; 4; 4]) = 0.
Proof. apply C59_error; [cbn; lia|]. exists 4. repeat (constructor; [reflexivity|]). constructor. Qed.

(** After any history, the samples of an observable are its values in the averaged states since the last clearing, in order. *)
Theorem C59_samples : forall D P (show : D -> list BinNums.Z) os es, Forall (fun ok => regular D P (fst ok)) os ->
  exists c c', with_observables D P os (no_collector D P) = Some c /\ after D P show es c = Some c' /\
    getFlattenedSamples D P c' = Some (flat_map (fun o => named_samples D P o (averaged P es)) (chosen D P k_averaging os)) /\
    getGroupedSamples D P c' = Some (map (fun o => (ob_name D P o, named_samples D P o (averaged P es))) (chosen D P k_averaging os)).
Proof. exact averages_final. Qed.
Print Assumptions C59_samples.
Example C59_samples_case : chosen _ _ k_averaging some_obs = [ob_pair; ob_pair] /\ averaged _ some_events = [7%Z; 9%Z] /\
  named_samples _ _ ob_pair (averaged _ some_events) = [([120%Z], [7%Z; 9%Z]); ([121%Z], [8%Z; 10%Z])].
Proof. repeat split; reflexivity. Qed.
