From Coq Require Import Reals List Lra Lia Permutation.
From Verif Require Import QuantityModel QuantitySpec.
Import ListNotations.
Open Scope R_scope.

Lemma accumulate_total {A} (g : A -> R) l : accumulate (fun s x => s + g x) l = total (map g l).
Proof.
  unfold accumulate, total. assert (G : forall l a, fold_left (fun s x => s + g x) l a = a + fold_right Rplus 0 (map g l)).
  { clear l. induction l as [|x l IH]; intros a; cbn; [lra|]. rewrite IH. lra. }
  rewrite G. lra.
Qed.
Lemma size_pos (xs : list R) : (2 <= length xs)%nat -> 0 < INR (length xs) - 1.
Proof. intros H. apply le_INR in H. cbn in H. lra. Qed.
Lemma quantity_spec xs : (2 <= length xs)%nat -> calculateFromSamples xs = (mean xs, standard_error xs).
Proof.
  intros L. destruct xs as [|x [|y xs]]; cbn [length] in L; try lia. unfold calculateFromSamples. pose proof (accumulate_total (fun x => x) (x :: y :: xs)) as Es. rewrite map_id in Es. cbv beta in Es. rewrite Es.
  change (total (x :: y :: xs) / INR (length (x :: y :: xs))) with (mean (x :: y :: xs)). f_equal. unfold standard_error, sample_variance. f_equal.
  rewrite (accumulate_total (fun z => pow (mean (x :: y :: xs) - z) 2)). set (zs := x :: y :: xs).
  assert (E : map (fun z => (mean zs - z) ^ 2) zs = map (fun z => (z - mean zs) * (z - mean zs)) zs) by (apply map_ext; intros z; ring). rewrite E.
  assert (N : INR (length zs - 1) = INR (length zs) - 1) by (rewrite minus_INR by (unfold zs; cbn; lia); reflexivity). rewrite N.
  assert (0 < INR (length zs) - 1) by (apply size_pos; unfold zs; cbn; lia). field. lra.
Qed.
Lemma quantity_one x : calculateFromSamples [x] = (x, 0). Proof. reflexivity. Qed.
Lemma mean_one x : mean [x] = x. Proof. unfold mean. cbn. field. Qed.

Lemma total_app a b : total (a ++ b) = total a + total b.
Proof. unfold total. induction a as [|x a IH]; cbn; [lra|]. rewrite IH. lra. Qed.
Lemma total_perm a b : Permutation a b -> total a = total b.
Proof. unfold total. induction 1; cbn; lra. Qed.
Lemma mean_perm a b : Permutation a b -> mean a = mean b.
Proof. intros H. unfold mean. rewrite (total_perm _ _ H), (Permutation_length H). reflexivity. Qed.
Lemma error_perm a b : Permutation a b -> standard_error a = standard_error b.
Proof.
  intros H. unfold standard_error, sample_variance. rewrite (mean_perm _ _ H), (Permutation_length H). do 3 f_equal. apply total_perm. apply Permutation_map. exact H.
Qed.
Lemma quantity_perm a b : Permutation a b -> calculateFromSamples a = calculateFromSamples b.
Proof.
  intros H. pose proof (Permutation_length H) as L. destruct a as [|x [|y a]]; destruct b as [|x' [|y' b]]; cbn [length] in L; try lia; [reflexivity| |].
  - apply Permutation_length_1 in H. congruence.
  - rewrite !quantity_spec by (cbn; lia). f_equal; [apply mean_perm|apply error_perm]; exact H.
Qed.

Lemma total_affine a b xs : total (map (fun x => a * x + b) xs) = a * total xs + b * INR (length xs).
Proof. unfold total. induction xs as [|x xs IH]; [cbn; lra|]. cbn [map fold_right length]. rewrite IH, S_INR. lra. Qed.
Lemma mean_affine a b xs : xs <> [] -> mean (map (fun x => a * x + b) xs) = a * mean xs + b.
Proof.
  intros N. unfold mean. rewrite total_affine, map_length. assert (0 < INR (length xs)) by (apply lt_0_INR; destruct xs; [contradiction N; reflexivity|cbn; lia]). field. lra.
Qed.
Lemma total_scale a xs : total (map (fun x => a * x) xs) = a * total xs.
Proof. unfold total. induction xs as [|x xs IH]; [cbn; lra|]. cbn [map fold_right]. rewrite IH. lra. Qed.
Lemma error_affine a b xs : (2 <= length xs)%nat -> standard_error (map (fun x => a * x + b) xs) = Rabs a * standard_error xs.
Proof.
  intros L. assert (N : xs <> []) by (intros ->; cbn in L; lia). unfold standard_error, sample_variance. rewrite mean_affine, map_length, map_map by exact N.
  assert (E : map (fun x => (a * x + b - (a * mean xs + b)) * (a * x + b - (a * mean xs + b))) xs = map (fun x => (a * a) * x) (map (fun x => (x - mean xs) * (x - mean xs)) xs)) by (rewrite map_map; apply map_ext; intros x; ring).
  rewrite E, total_scale. pose proof (size_pos xs L). rewrite <- sqrt_Rsqr_abs, <- sqrt_mult_alt by apply Rle_0_sqr. f_equal. unfold Rsqr. field. lra.
Qed.
Lemma squares_nonneg c xs : 0 <= total (map (fun x => (x - c) * (x - c)) xs).
Proof. unfold total. induction xs as [|x xs IH]; cbn; [lra|]. pose proof (Rle_0_sqr (x - c)) as S. unfold Rsqr in S. lra. Qed.
Lemma squares_zero c xs : total (map (fun x => (x - c) * (x - c)) xs) = 0 <-> Forall (fun x => x = c) xs.
Proof.
  split.
  - induction xs as [|x xs IH]; intros H; [constructor|]. cbn [map] in H. unfold total in *. cbn [fold_right] in H. pose proof (squares_nonneg c xs) as S. unfold total in S. pose proof (Rle_0_sqr (x - c)) as S2. unfold Rsqr in S2.
    constructor; [|apply IH; lra]. assert (Z : (x - c) * (x - c) = 0) by lra. apply Rmult_integral in Z. lra.
  - induction 1 as [|x xs -> _ IH]; [reflexivity|]. unfold total in *. cbn [map fold_right]. rewrite IH. ring.
Qed.
Lemma error_nonneg xs : 0 <= standard_error xs. Proof. apply sqrt_pos. Qed.
Lemma error_zero xs : (2 <= length xs)%nat -> (standard_error xs = 0 <-> exists c, Forall (fun x => x = c) xs).
Proof.
  intros L. pose proof (size_pos xs L) as S. unfold standard_error. split.
  - intros H. exists (mean xs). apply squares_zero. apply sqrt_eq_0 in H.
    + unfold sample_variance in H. set (t := total _) in *. apply (Rmult_eq_compat_r (INR (length xs) * (INR (length xs) - 1))) in H. rewrite Rmult_0_l in H. rewrite <- H. field. lra.
    + unfold sample_variance. pose proof (squares_nonneg (mean xs) xs). repeat apply Rmult_le_pos; auto; left; apply Rinv_0_lt_compat; lra.
  - intros (c & F). assert (M : mean xs = c).
    { unfold mean. assert (T : total xs = c * INR (length xs)) by (clear L S; induction F as [|x l -> _ IH]; [cbn; lra|]; unfold total in *; cbn [fold_right length]; rewrite IH, S_INR; ring). rewrite T. field. lra. }
    unfold sample_variance. rewrite M. apply squares_zero in F. rewrite F. unfold Rdiv. rewrite !Rmult_0_l. apply sqrt_0.
Qed.
