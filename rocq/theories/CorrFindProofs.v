From Coq Require Import Reals ZArith List Bool Lia Lra Permutation.
From Verif Require Import GeomModel GeomProofs BoxModel BoxSpec BoxProofs RFloorModel RFloorProofs PbcTotalModel PbcProofs RotModel PackSpec PackSumProofs HistModel HistSpec HistProofs BondModel BondOrderProofs CorrModel CorrSpec CorrProofs CorrEnumProofs CorrHistProofs CorrWholeProofs CorrMeanProofs.
Import ListNotations.
Local Open Scope R_scope.

(** Distances along the height of the box. *)
Lemma linear_distance point sn i j a v : constructed (sn_box sn) -> separated point sn i j (Linear a) v -> vnorm v = Rabs (vget (absoluteToRelative (sn_box sn) (joining point sn i j)) a) * box_height (sn_box sn) a.
Proof.
  intros Cb S. apply constructed_valid in Cb. inversion S as [|? ? C D|]; subst. set (f := box_face (sn_box sn) a) in *. pose proof (face_nonzero _ a Cb) as F. fold f in F. pose proof (norm_pos f F) as Np.
  assert (E : vdot f v = vdot f (joining point sn i j)) by (rewrite vdot_sub_r in D; lra). assert (K : vnorm f * vnorm v = Rabs (vdot f v)).
  { pose proof (parallel f v C) as Pl. assert (X : vnorm2 v * vnorm2 f = vdot f v * vdot f v).
    { assert (Y : vdot (vscale (vnorm2 f) v) v = vdot (vscale (vdot f v) f) v) by (rewrite Pl; reflexivity). rewrite !(vdot_comm _ v), !vdot_scale_r in Y. rewrite (vdot_comm v f) in Y. unfold vnorm2 at 1. lra. }
    rewrite <- (sqrt_Rsqr_abs (vdot f v)). unfold Rsqr. rewrite <- X. unfold vnorm. rewrite sqrt_mult_alt by (unfold vnorm2, vdot; nra). ring. }
  rewrite E in K. unfold f in K at 2. rewrite <- (rel_face (sn_box sn) (joining point sn i j) a Cb) in K. rewrite Rabs_mult, <- volume_det in K. unfold box_height. fold f. apply (Rmult_eq_reg_l (vnorm f)); [|lra]. rewrite K. field. lra.
Qed.
(** Numbers of pairs. *)
Definition differ (x : item) : bool := negb (fst (fst x) =? snd (fst x))%nat.
Lemma row_pairs (v : nat -> nat -> vec) i m : (1 <= m)%nat -> length (filter differ (flat_map (fun j => [(i, j, v i j)]) (seq i m))) = (m - 1)%nat.
Proof.
  intros H. destruct m as [|m]; [lia|]. cbn [seq flat_map app filter]. unfold differ at 1. cbn [fst snd]. rewrite Nat.eqb_refl. cbn [negb]. rewrite Nat.sub_succ, Nat.sub_0_r.
  assert (K : forall s n, (i < s)%nat -> length (filter differ (flat_map (fun j => [(i, j, v i j)]) (seq s n))) = n).
  { intros s n. revert s. induction n as [|n IH]; intros s Hs; [reflexivity|]. cbn [seq flat_map app filter]. unfold differ at 1. cbn [fst snd]. assert (X : (i =? s)%nat = false) by (apply Nat.eqb_neq; lia). rewrite X. cbn [negb length]. rewrite IH by lia. reflexivity. }
  apply K. lia.
Qed.
Lemma all_pairs (v : nat -> nat -> vec) n : (2 * length (filter differ (loops n (fun i j => [(i, j, v i j)]))) = n * (n - 1))%nat.
Proof.
  unfold loops. assert (K : forall m, (m <= n)%nat -> (2 * length (filter differ (flat_map (fun i => flat_map (fun j => [(i, j, v i j)]) (seq i (n - i))) (seq 0 m))) = m * (2 * n - m - 1))%nat).
  { induction m as [|m IH]; intros H; [reflexivity|]. rewrite seq_S, flat_map_app, filter_app, app_length. cbn [plus flat_map]. rewrite app_nil_r, row_pairs by lia. specialize (IH ltac:(lia)). set (q := (n - m - 1)%nat). assert (En : (2 * n - m - 1 = m + 1 + 2 * q)%nat) by (unfold q; lia). assert (Em : (2 * n - S m - 1 = m + 2 * q)%nat) by (unfold q; lia). rewrite En in IH. rewrite Em. fold q. match type of IH with (2 * ?L)%nat = _ => change (2 * (L + q) = S m * (m + 2 * q))%nat; set (z := L) in *; clearbody z end. clearbody q. clear En Em. lia. }
  etransitivity; [exact (K n (le_n n))|]. f_equal. lia.
Qed.
(** Each pair is in one bin. *)
Lemma sum_indicator m j : (j < m)%nat -> list_sum (map (fun k => if (k =? j)%nat then 1 else 0)%nat (seq 0 m)) = 1%nat.
Proof.
  intros H. assert (K : forall s n, (list_sum (map (fun k => if (k =? j)%nat then 1 else 0)%nat (seq s n)) = if (s <=? j) && (j <? s + n) then 1 else 0)%nat).
  { intros s n. revert s. induction n as [|n IH]; intros s; [change (list_sum (map (fun k => if (k =? j)%nat then 1 else 0)%nat (seq s 0))) with 0%nat; destruct (Nat.leb_spec s j), (Nat.ltb_spec j (s + 0)); cbn [andb]; lia|]. cbn [seq map]. unfold list_sum in *. cbn [fold_right]. rewrite IH. destruct (Nat.eqb_spec s j), (Nat.leb_spec (S s) j), (Nat.ltb_spec j (S s + n)), (Nat.leb_spec s j), (Nat.ltb_spec j (s + S n)); cbn [andb]; lia. }
  rewrite K. destruct (Nat.leb_spec 0 j), (Nat.ltb_spec j (0 + m)); cbn [andb]; lia.
Qed.
Lemma list_sum_add {A} (f h : A -> nat) l : list_sum (map (fun x => f x + h x)%nat l) = (list_sum (map f l) + list_sum (map h l))%nat.
Proof. unfold list_sum. induction l as [|a l IH]; [reflexivity|]. cbn [map fold_right]. rewrite IH. lia. Qed.
Lemma list_sum_zero {A} (f : A -> nat) l : (forall x, In x l -> f x = 0%nat) -> list_sum (map f l) = 0%nat.
Proof. unfold list_sum. induction l as [|a l IH]; intros H; [reflexivity|]. cbn [map fold_right]. rewrite IH by (intros x I; apply H; right; exact I). rewrite (H a) by (left; reflexivity). reflexivity. Qed.
Lemma hits_total d its : d_min d = 0 -> 0 < d_max d -> (1 <= d_bins d)%nat -> (forall x, In x its -> vnorm (snd x) <= d_max d) ->
  list_sum (map (fun k => length (filter (is_hit [d] k (density_pair (d_max d))) its)) (seq 0 (d_bins d))) = length (filter differ its).
Proof.
  intros D0 D1 B. assert (P : proper [d]) by (apply proper_one; [lra|lia]). induction its as [|x its IH]; intros H; [apply list_sum_zero; reflexivity|].
  transitivity (list_sum (map (fun k => (if is_hit [d] k (density_pair (d_max d)) x then 1 else 0) + length (filter (is_hit [d] k (density_pair (d_max d))) its))%nat (seq 0 (d_bins d)))).
  { f_equal. apply map_ext. intros k. cbn [filter]. destruct (is_hit [d] k (density_pair (d_max d)) x); reflexivity. }
  rewrite list_sum_add, IH by (intros y I; apply H; right; exact I). cbn [filter]. specialize (H x (or_introl eq_refl)). destruct x as [[i j] v]. unfold differ at 2. cbn [fst snd] in *.
  destruct (i =? j)%nat eqn:Q; cbn [negb].
  - rewrite list_sum_zero; [reflexivity|]. intros k _. unfold is_hit, density_pair. rewrite Q. reflexivity.
  - destruct (at_pos [d] [vnorm v] P) as (idx & L & E & R); [constructor; [unfold in_range; pose proof (vnorm_ge v); lra|constructor]|]. rewrite size_one in R. cbn [length]. transitivity (list_sum (map (fun k => if (k =? flattenIndex [d] idx)%nat then 1 else 0)%nat (seq 0 (d_bins d))) + length (filter differ its))%nat; [|rewrite sum_indicator by exact R; reflexivity]. f_equal. f_equal. apply map_ext. intros k. unfold is_hit, density_pair. rewrite Q. rewrite (proj2 (Rltb_false _ _)) by lra. unfold decide_at. cbn [a_pos]. rewrite E. reflexivity.
Qed.
(** The mean of the pair density over half of the height of a periodic box. *)
Lemma periodic_value sn p q : periodic sn -> sn_translation sn p q = translation (sn_box sn) p q.
Proof. intros P. eapply terminates_fun; [exact (P p q)|apply getTranslation_terminates]. Qed.
Lemma counts_unique {A} (P : A -> Prop) n m : counts P n -> counts P m -> n = m.
Proof. intros (l & N & M & <-) (l' & N' & M' & <-). apply Permutation_length. apply NoDup_Permutation; auto. intros x. rewrite M, M'. reflexivity. Qed.
Lemma INR_list_sum l : INR (list_sum l) = Rsum INR l. Proof. unfold list_sum. induction l as [|a l IH]; [reflexivity|]. cbn [fold_right]. rewrite plus_INR, IH. reflexivity. Qed.
Lemma Rsum_map {A B} (f : B -> R) (h : A -> B) l : Rsum f (map h l) = Rsum (fun x => f (h x)) l. Proof. induction l as [|a l IH]; [reflexivity|]. cbn [map]. rewrite !Rsum_cons, IH. reflexivity. Qed.
Theorem linear_mean a n point threads sn s h0 h : (1 <= n)%nat -> periodic sn ->
  let d := Dim 0 (box_height (sn_box sn) a / 2) n in density_scheduled d (Linear a) point threads (sn, s) -> build [d] threads 0 = Some h0 -> density_run d (Linear a) [(sn, s)] h0 = Some h ->
  Rsum (fun k => match fst (nth k (dumpHistogram 0 SUM h) (None, 0%nat)) with Some g => g | None => 0 end) (seq 0 n) / INR n = 2 * (INR (length (sn_shapes sn)) - 1) / INR (length (sn_shapes sn)).
Proof.
  intros B Pe d Sc E0 E1. pose proof Sc as [[Cb Ne] _]. cbn [fst] in Cb, Ne. pose proof (proj1 (constructed_valid _) Cb) as V. pose proof (height_pos _ a V) as Hp.
  assert (D1 : 0 < d_max d) by (cbn; lra). destruct (density_spec d (Linear a) point threads [(sn, s)] eq_refl D1 B I (Forall_cons _ Sc (Forall_nil _))) as (h0' & h' & E0' & E1' & _ & C); [discriminate|]. rewrite E0 in E0'. injection E0' as <-. rewrite E1 in E1'. injection E1' as <-.
  set (N := length (sn_shapes sn)). assert (N0 : 0 < INR N) by (apply lt_0_INR; unfold N; destruct (sn_shapes sn); [contradiction|cbn; lia]). pose proof (volume_pos _ V) as Vp. pose proof (height_area _ a V) as Ha. pose proof (norm_pos _ (face_nonzero _ a V)) as Fp. assert (Bp : 0 < INR n) by (apply lt_0_INR; lia).
  set (its := items (Linear a) point sn). set (c := fun k => length (filter (is_hit [d] k (density_pair (d_max d))) its)).
  assert (K : forall k, In k (seq 0 n) -> match fst (nth k (dumpHistogram 0 SUM h) (None, 0%nat)) with Some g => g | None => 0 end = INR (c k) * (4 * INR n / (INR N * INR N))).
  { intros k I. apply in_seq in I. destruct (C k) as (parts & Pp & Ep); [cbn; lia|]. inversion Pp as [|? x ? ps [Cx Shx] Pp']; subst. inversion Pp'; subst. rewrite Ep. cbn [fst]. unfold density_terms. cbn [combine]. rewrite Rsum_cons. unfold Rsum. cbn [fold_right length fst snd].
    destruct (density_hits d (Linear a) point sn k eq_refl D1 ltac:(cbn; lia) Cb Logic.I) as (Nh & Mh & _). assert (Ec : fst x = c k) by (eapply counts_unique; [exact Cx|]; eexists; split; [exact Nh|]; split; [exact Mh|reflexivity]). rewrite Ec. inversion Shx as [|? Es|]; subst. unfold relative_density. fold N. cbv zeta. rewrite !edge_step, plus_INR. unfold step. cbn [d_min d_max d_bins]. rewrite <- Ha. simpl (INR 1). change (d_min d) with 0; change (d_max d) with (box_height (sn_box sn) a / 2); change (d_bins d) with n. field. repeat split; lra. }
  rewrite (sum_cong _ _ _ K), Rsum_scaled.
  assert (T : Rsum (fun k => INR (c k)) (seq 0 n) = INR (length (filter differ its))).
  { rewrite <- (hits_total d its eq_refl D1 B); [rewrite INR_list_sum, Rsum_map; reflexivity|]. intros x Ix. destruct (enumerated (Linear a) point sn Cb Logic.I) as (l & El & _ & Ml). unfold its, items in Ix. rewrite El in Ix. destruct x as [[i j] v]. apply Ml in Ix. destruct Ix as [_ Sv]. cbn [snd]. rewrite (linear_distance point sn i j a v Cb Sv). cbn [d d_max]. pose proof (translation_half (sn_box sn) (focal point sn i) (focal point sn j) a V) as Th. unfold joining. rewrite (periodic_value _ _ _ Pe). nra. }
  assert (Q : INR (length (filter differ its)) = INR N * (INR N - 1) / 2).
  { unfold its, items, enumeratePairs. cbv zeta. rewrite normalized_of by (apply face_nonzero; exact V). rewrite points_length. fold N. match goal with |- context [loops N ?bd] => pose proof (all_pairs (fun i j => snd (hd (0%nat, 0%nat, vzero) (bd i j))) N) as X; cbn [hd snd] in X end. apply (f_equal INR) in X. rewrite !mult_INR in X. rewrite minus_INR in X by (unfold N; destruct (sn_shapes sn); [contradiction|cbn; lia]). simpl (INR 2) in X. simpl (INR 1) in X. lra. }
  rewrite T, Q. field. split; lra.
Qed.
