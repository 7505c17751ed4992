From Coq Require Import Reals ZArith List Bool Arith Lia Lra Psatz.
From Coquelicot Require Import Coquelicot.
From Verif Require Import TextModel TextProofs GeomModel GeomProofs PbcModel PackSpec ShapesModel XcSpec GeoModel GeoSpec GeoProofs GeoShapesProofs GeoAxisProofs VolSpec VolProofs BeadsModel BeadsSpec BeadsProofs OptModel.
Import ListNotations.
Open Scope R_scope.

(** Names of points *)
Lemma other_letter c t i : c <> 115%Z -> numbered 115 i <> c :: t. Proof. intros H E. injection E as E _. congruence. Qed.
Lemma other_digit c t i : is_digit c = false -> numbered 115 i <> 115%Z :: c :: t.
Proof. intros H E. injection E as E. pose proof (decimal_digits (Z.of_nat i)) as D. rewrite E in D. inversion D. congruence. Qed.
Lemma bead_shape data (x : bool) v custom : data <> [] -> List.Forall (fun d => 0 < bd_radius d) data -> NoDup (names custom) -> (forall i, ~ In (numbered 115 i) (names custom)) ->
  exists g, polysphere_geometry data (Some (V3 0 0 1)) (if x then Some (V3 1 0 0) else None) vzero (Some v) custom = Some g /\
    g_data g = data /\ g_primary g = Some (V3 0 0 1) /\ g_secondary g = (if x then Some (V3 1 0 0) else None) /\ g_origin g = vzero /\ g_volume g = v /\
    forall name p, getNamedPoint g name = Some p <-> point_called (bead_point data) vzero custom name p.
Proof.
  intros NE P ND NI. pose proof (polysphere_geometry_spec data (Some (V3 0 0 1)) (if x then Some (V3 1 0 0) else None) vzero (Some v) custom) as (S&T). destruct (proj2 S) as (g&G).
  - split; [exact NE|]. split; [exact P|]. split; [|split; [discriminate|split; [exact ND|intros i _; apply NI]]]. split; [discriminate|]. split; [|destruct x; [|discriminate]]; intros E; injection E; lra.
  - exists g. destruct (T g G) as (A&_&_&B&C&_&_). destruct (geometry_axes _ _ _ _ _ _ G) as (D&E). repeat (split; [assumption|]). apply (polysphere_named _ _ _ _ _ _ _ G).
Qed.

(** *** k-mers *)
Lemma kmer_on_axis n z r d : 0 < r -> on_axis (kmer_loop n z r d). Proof. intros P b B. apply kmer_along in B. destruct B as (X&Y&->). auto. Qed.
Lemma kmer_spec n r d :
  ((exists g, kmer_geometry n r d = Some g) <-> (2 <= n)%nat /\ 0 < r /\ 0 < d) /\
  forall g, kmer_geometry n r d = Some g ->
    length (g_data g) = n /\ (forall b, In b (g_data g) -> bd_radius b = r) /\ along_z (g_data g) /\ spaced (g_data g) (fun _ _ _ => d) /\ centred (g_data g) /\
    g_primary g = Some (V3 0 0 1) /\ g_secondary g = Some (V3 1 0 0) /\ middle (g_data g) (g_origin g) /\ g_origin g = vzero /\
    volume (beads_body (g_data g)) (g_volume g) /\
    exists e, ends (g_data g) [98; 101; 103]%Z [101; 110; 100]%Z e /\
      forall name v, getNamedPoint g name = Some v <-> point_called (bead_point (g_data g)) vzero (([99; 109]%Z, vzero) :: e) name v.
Proof.
  rewrite kmer_is. destruct (Nat.leb 2 n) eqn:N; [apply Nat.leb_le in N|apply Nat.leb_gt in N; cbn [andb]; split; [split; [intros (?&?); discriminate|lia]|discriminate]].
  destruct (Rltb 0 r) eqn:P; [apply Rltb_true in P|apply Rltb_false in P; cbn [andb]; split; [split; [intros (?&?); discriminate|lra]|discriminate]].
  destruct (Rltb 0 d) eqn:D; [apply Rltb_true in D|apply Rltb_false in D; cbn [andb]; split; [split; [intros (?&?); discriminate|lra]|discriminate]].
  cbn [andb]. cbv zeta. set (z0 := - INR (n - 1) / 2 * d). set (data := kmer_loop n z0 r d).
  destruct (kmer_volume_spec n r d ltac:(lia) P D z0) as (v&->&W). cbn [obind]. fold data in W.
  assert (F0 : nth_error data 0 = Some (Bead (V3 0 0 z0) r)). { unfold data. rewrite kmer_nth_some by lia. f_equal. f_equal. f_equal. cbn [INR]. ring. }
  assert (L : length data = n) by apply kmer_length.
  assert (Fn : nth_error data (length data - 1) = Some (Bead (V3 0 0 (- z0)) r)).
  { rewrite L. unfold data. rewrite kmer_nth_some by lia. f_equal. f_equal. f_equal. unfold z0. field. }
  pose proof (front_nth _ _ F0) as FR. assert (BK : back_pos data = V3 0 0 (- z0)) by (unfold back_pos; rewrite (last_nth _ _ Fn); reflexivity). rewrite FR, BK. cbn [bd_pos].
  destruct (bead_shape data true (PI * v) [(cm_name, vzero); (beg_name, V3 0 0 z0); (end_name, V3 0 0 (- z0))]) as (g&G&A&B&C&O&V&Q).
  - intros E. rewrite E in L. cbn in L. lia.
  - apply Forall_forall. intros b I. apply kmer_along in I. destruct I as (_&_&->). exact P.
  - cbn. repeat constructor; cbn; intuition discriminate.
  - intros i. cbn. intros [E|[E|[E|[]]]]; symmetry in E; revert E; apply other_letter; discriminate.
  - split; [split; [auto|intros _; exists g; exact G]|]. intros g' G'. assert (g' = g) by congruence. subst g'. rewrite A, B, C, O, V. split; [exact L|]. split; [intros b I; apply kmer_along in I; tauto|].
    split; [intros b I; apply kmer_along in I; tauto|]. split; [|split].
    + intros i b1 b2 E1 E2. apply kmer_nth in E1, E2. destruct E1 as (->&_), E2 as (->&_). cbn [bd_pos vz]. rewrite S_INR. ring.
    + intros b1 b2 E1 E2. rewrite F0 in E1. rewrite Fn in E2. injection E1 as <-. injection E2 as <-. cbn [bd_pos bd_radius vz]. ring.
    + split; [reflexivity|]. split; [reflexivity|]. split; [|split; [reflexivity|split]].
      * replace vzero with (calculateMassCentre data) by (apply kmer_middle; [lia|exact P]). apply mass_centre_middle; [intros E; rewrite E in L; cbn in L; lia|]. apply Forall_forall. intros b I. apply kmer_along in I. destruct I as (_&_&->). exact P.
      * apply beads_volume_of; [apply kmer_on_axis; exact P|exact W].
      * exists [([98; 101; 103]%Z, V3 0 0 z0); ([101; 110; 100]%Z, V3 0 0 (- z0))]. split; [|exact Q]. exists (Bead (V3 0 0 z0) r), (Bead (V3 0 0 (- z0)) r). auto.
Qed.

(** *** Moving spheres to the middle *)
Definition moved (o : R) (data : list bead) : list bead := map (fun d => Bead (vadd (bd_pos d) (V3 0 0 (- o))) (bd_radius d)) data.
Lemma shift_moved data : shift_middle data = moved ((first_z data + last_z data) / 2) data. Proof. reflexivity. Qed.
Lemma shift_centred data : centred (shift_middle data).
Proof.
  rewrite shift_moved. intros b1 b2. unfold moved. rewrite map_length, !nth_error_map. destruct (nth_error data 0) as [c1|] eqn:E1; [|discriminate]. destruct (nth_error data (length data - 1)) as [c2|] eqn:E2; [|discriminate].
  cbn [option_map]. intros [= <-] [= <-]. cbn [bd_pos bd_radius vadd vz]. unfold first_z, last_z. rewrite (front_nth _ _ E1). unfold back_pos. rewrite (last_nth _ _ E2). replace (bd_radius (hd (Bead vzero 0) data)) with (bd_radius c1) by (destruct data; [discriminate|injection E1 as ->; reflexivity]). field.
Qed.
Lemma kmer_moved o n : forall z r d, moved o (kmer_loop n z r d) = kmer_loop n (z - o) r d.
Proof. unfold moved. induction n as [|n IH]; intros; cbn; [reflexivity|]. rewrite IH. f_equal; [|f_equal; ring]. f_equal. apply vec_ext; cbn; ring. Qed.
Lemma wedge_moved o n : forall z r e p, moved o (wedge_loop n z r e p) = wedge_loop n (z - o) r e p.
Proof. unfold moved. induction n as [|n IH]; intros; cbn; [reflexivity|]. rewrite IH. f_equal; [|f_equal; ring]. f_equal. apply vec_ext; cbn; ring. Qed.
Lemma stick_is n : forall z r p, stick_loop (S n) z r p = (kmer_loop (S n) z r (2 * r - p), z + INR n * (2 * r - p)).
Proof.
  induction n as [|n IH]; intros z r p; [cbn; f_equal; ring|]. change (stick_loop (S (S n)) z r p) with (let '(data, e) := stick_loop (S n) (z + (2 * r - p)) r p in (Bead (V3 0 0 z) r :: data, e)). rewrite IH. cbn [kmer_loop]. f_equal. rewrite !S_INR. ring.
Qed.

(** *** Wedges *)
Lemma wedge_length n : forall z r e p, length (wedge_loop n z r e p) = n. Proof. induction n; intros; cbn; [reflexivity|f_equal; auto]. Qed.
Lemma wedge_nth n : forall z r e p i b, nth_error (wedge_loop n z r e p) i = Some b -> vx (bd_pos b) = 0 /\ vy (bd_pos b) = 0 /\ bd_radius b = r + INR i * e /\ (i < n)%nat.
Proof.
  induction n as [|n IH]; intros z r e p i b; [destruct i; discriminate|]. destruct i as [|i]; cbn [wedge_loop nth_error].
  - intros [= <-]. cbn. repeat split; [ring|lia].
  - intros H. apply IH in H. destruct H as (X&Y&->&H). rewrite S_INR. repeat split; auto; [ring|lia].
Qed.
Lemma wedge_spaced n : forall z r e p, spaced (wedge_loop n z r e p) (fun _ d1 d2 => bd_radius d1 + bd_radius d2 - p).
Proof.
  induction n as [|n IH]; intros z r e p i b1 b2; [destruct i; discriminate|]. destruct i as [|i]; cbn [wedge_loop nth_error].
  - intros [= <-]. destruct n as [|n]; [discriminate|]. cbn [wedge_loop nth_error]. intros [= <-]. cbn [bd_pos bd_radius vz]. ring.
  - apply IH.
Qed.
Lemma between n r e : 0 < r -> 0 < r + INR n * e -> forall i, (i <= n)%nat -> 0 < r + INR i * e.
Proof.
  intros P Q i L. apply le_INR in L. pose proof (pos_INR i). destruct (Rle_or_lt 0 e); [nra|]. assert (INR i * e >= INR n * e) by nra. lra.
Qed.
Lemma wedge_planes z r e p : let d := 2 * r + e - p in let d' := 2 * (r + e) + e - p in Rabs e < d -> Rabs e < d' -> (p < 0 -> - p <= d /\ - p <= d') ->
  plane (z, r) (z + d, r + e) <= plane (z + d, r + e) (z + d + d', r + e + e).
Proof.
  intros d d' A B C. pose proof (Rle_abs e) as E1. pose proof (Rle_abs (- e)) as E2. rewrite Rabs_Ropp in E2. unfold plane. cbn [fst snd].
  replace (z + d - z) with d by ring. replace (z + d + d' - (z + d)) with d' by ring. assert (0 < d) by lra. assert (0 < d') by lra. apply Rminus_le_0.
  replace (((z + d + d') ^ 2 - (r + e + e) ^ 2 - ((z + d) ^ 2 - (r + e) ^ 2)) / (2 * d') - ((z + d) ^ 2 - (r + e) ^ 2 - (z ^ 2 - r ^ 2)) / (2 * d)) with (((d + d') / 2 * (d * d') + e ^ 2 * p) / (d * d')).
  2: { field_simplify_eq; [|lra]. unfold d', d. ring. }
  assert (0 < d * d') by nra. apply Rdiv_le_0_compat; [|assumption]. assert (e ^ 2 <= d * d') by nra. destruct (Rle_or_lt 0 p) as [Q|Q].
  - assert (0 <= e ^ 2 * p) by nra. nra.
  - specialize (C Q). assert (e ^ 2 * - p <= d * d' * - p) by nra. nra.
Qed.
Lemma wedge_step r r' p : 0 < r -> 0 < r' -> p < 2 * r -> p < 2 * r' -> Rabs (r' - r) < r + r' - p /\ (p < 0 -> - p <= r + r' - p).
Proof. intros. split; [apply Rabs_def1; lra|lra]. Qed.
Lemma wedge_chain e p n : forall z r t, 0 < r -> 0 < r + INR n * e -> p < 2 * r -> p < 2 * (r + INR n * e) -> ((1 <= n)%nat -> t <= plane (z, r) (z + (2 * r + e - p), r + e)) ->
  chain t (z, r) (map zb (wedge_loop n (z + (2 * r + e - p)) (r + e) e p)).
Proof.
  induction n as [|n IH]; intros z r t P Q A B T; [constructor; exact P|]. cbn [wedge_loop map]. change (zb (Bead (V3 0 0 (z + (2 * r + e - p))) (r + e))) with (z + (2 * r + e - p), r + e).
  assert (P1 : 0 < r + e) by (pose proof (between (S n) r e P Q 1 ltac:(lia)) as X; cbn [INR] in X; lra).
  assert (A1 : p < 2 * (r + e)). { pose proof (between (S n) (r - p / 2) e ltac:(lra) ltac:(lra) 1 ltac:(lia)) as X. cbn [INR] in X. lra. }
  rewrite S_INR in Q, B. destruct (wedge_step r (r + e) p P P1 A A1) as (S1&S2). replace (r + e - r) with e in S1 by ring. replace (r + (r + e) - p) with (2 * r + e - p) in S1, S2 by ring. constructor; [exact P| |apply T; lia|].
  - unfold reaches. cbn [fst snd]. replace (z + (2 * r + e - p) - z) with (2 * r + e - p) by ring. replace (r - (r + e)) with (- e) by ring. rewrite Rabs_Ropp. pose proof (Rabs_pos e). split; lra.
  - apply IH; [exact P1|lra|exact A1|lra|]. intros N1.
    assert (P2 : 0 < r + e + e) by (pose proof (between n (r + e) e P1 ltac:(lra) 1 N1) as X; cbn [INR] in X; lra).
    assert (A2 : p < 2 * (r + e + e)). { pose proof (between n (r + e - p / 2) e ltac:(lra) ltac:(lra) 1 N1) as X. cbn [INR] in X. lra. }
    destruct (wedge_step (r + e) (r + e + e) p P1 P2 A1 A2) as (S3&S4). replace (r + e + e - (r + e)) with e in S3 by ring. replace (r + e + (r + e + e) - p) with (2 * (r + e) + e - p) in S3, S4 by ring.
    apply wedge_planes; auto.
Qed.
(** Sums of volumes *)
Lemma sum_volumes_spec data : sum_volumes data = PI * Rsum (fun d => 4 / 3 * bd_radius d ^ 3) data.
Proof. unfold sum_volumes. rewrite (fold_sum (fun d => 4 / 3 * PI * bd_radius d ^ 3)), Rplus_0_l, <- Rsum_scale. apply Rsum_ext. intros; ring. Qed.
Lemma cons_spaced a l gap : spaced (a :: l) (fun _ => gap) -> spaced l (fun _ => gap). Proof. intros H i b1 b2 E1 E2. apply (H (S i)); assumption. Qed.
Lemma chain_subtract p l : forall a t, chain t (zb a) (map zb l) -> spaced (a :: l) (fun _ d1 d2 => bd_radius d1 + bd_radius d2 - p) -> 0 < p ->
  forall base, subtract_intersections (a :: l) base = Some (base - PI * (Rsum (fun d => 4 / 3 * bd_radius d ^ 3) (a :: l) - chain_sum (zb a) (map zb l))).
Proof.
  induction l as [|b l IH]; intros a t C S P base.
  - cbn. f_equal. unfold Rsum. cbn. ring.
  - cbn [map] in C. inversion C as [|? ? ? ? PA RE _ C']; subst. change (subtract_intersections (a :: b :: l) base) with (v <- sphereIntersection (bd_radius a) (bd_radius b) (vz (bd_pos b) - vz (bd_pos a)) ;; subtract_intersections (b :: l) (base - v)).
    pose proof (S 0%nat a b eq_refl eq_refl) as G. cbn [zb fst snd] in PA. destruct RE as (RE&_). cbn [zb fst snd] in RE. pose proof (chain_radius _ _ _ C') as PB. cbn [zb snd] in PB.
    rewrite intersection_formula. rewrite !(proj2 (Rltb_true _ _)), (proj2 (Rleb_true _ _)) by lra. cbn [andb obind]. rewrite (IH b _ C') by (try exact P; apply (cons_spaced a), S). f_equal. cbn [map chain_sum]. unfold meet. cbn [zb fst snd]. rewrite (proj2 (Rltb_true _ _)) by lra. unfold Rsum. cbn [fold_right]. change (vz (bd_pos a), bd_radius a) with (zb a). change (vz (bd_pos b), bd_radius b) with (zb b). ring.
Qed.
Lemma chain_apart p l : forall a, spaced (a :: l) (fun _ d1 d2 => bd_radius d1 + bd_radius d2 - p) -> p <= 0 -> chain_sum (zb a) (map zb l) = Rsum (fun d => 4 / 3 * bd_radius d ^ 3) (a :: l).
Proof.
  induction l as [|b l IH]; intros a S P; [cbn; ring|]. pose proof (S 0%nat a b eq_refl eq_refl) as G. change (Rsum (fun d => 4 / 3 * bd_radius d ^ 3) (a :: b :: l)) with (4 / 3 * bd_radius a ^ 3 + Rsum (fun d => 4 / 3 * bd_radius d ^ 3) (b :: l)).
  rewrite <- (IH b) by (try exact P; apply (cons_spaced a), S). cbn [map chain_sum]. unfold meet. cbn [zb fst snd]. rewrite (proj2 (Rltb_false _ _)) by lra. ring.
Qed.
Lemma wedge_volume_spec p a l t : chain t (zb a) (map zb l) -> spaced (a :: l) (fun _ d1 d2 => bd_radius d1 + bd_radius d2 - p) -> wedge_volume (a :: l) p = Some (PI * chain_sum (zb a) (map zb l)).
Proof.
  intros C S. unfold wedge_volume. rewrite sum_volumes_spec. destruct (Rltb 0 p) eqn:E; [apply Rltb_true in E|apply Rltb_false in E].
  - rewrite (chain_subtract p l a t C S E). f_equal. ring.
  - rewrite (chain_apart p l a S) by lra. reflexivity.
Qed.
Lemma later_points data p s v c1 (b : bool) n : (geometry <- polysphere_geometry data p s vzero (Some v) [] ;; (geometry' <- addCustomNamedPoints c1 geometry ;;
   if b then addCustomNamedPoints [(n, calculateMassCentre (g_data geometry'))] geometry' else Some geometry')) =
  polysphere_geometry data p s vzero (Some v) (c1 ++ if b then [(n, calculateMassCentre data)] else []).
Proof.
  pose proof (add_points data p s vzero (Some v) [] c1) as A. cbn [app] in A. rewrite <- (add_points _ _ _ _ _ c1), <- A. destruct (polysphere_geometry data p s vzero (Some v) []) as [g|] eqn:G; [|reflexivity]. cbn [obind] in *. destruct (addCustomNamedPoints c1 g) as [g'|]; [|reflexivity]. cbn [obind].
  symmetry in A. apply geometry_data in A. rewrite A. destruct b; [reflexivity|]. unfold addCustomNamedPoints. cbn [registerNamedPoints obind]. destruct g'; reflexivity.
Qed.
Lemma Rmin_above p a b : p < 2 * Rmin a b <-> p < 2 * a /\ p < 2 * b. Proof. unfold Rmin. destruct (Rle_dec a b); lra. Qed.
Lemma wedge_spec n rb rt p :
  ((exists g, wedge_geometry n rb rt p = Some g) <-> (2 <= n)%nat /\ 0 < rb /\ 0 < rt /\ p < 2 * rb /\ p < 2 * rt) /\
  forall g, wedge_geometry n rb rt p = Some g ->
    length (g_data g) = n /\ (forall i b, nth_error (g_data g) i = Some b -> bd_radius b = rb + INR i / INR (n - 1) * (rt - rb)) /\ along_z (g_data g) /\
    spaced (g_data g) (fun _ d1 d2 => bd_radius d1 + bd_radius d2 - p) /\ centred (g_data g) /\ g_primary g = Some (V3 0 0 1) /\ g_secondary g = None /\ g_origin g = vzero /\
    volume (beads_body (g_data g)) (g_volume g) /\
    exists e c, ends (g_data g) [98; 101; 103]%Z [101; 110; 100]%Z e /\ (p = 0 -> exists m, middle (g_data g) m /\ c = [([99; 109]%Z, m)]) /\ (p <> 0 -> c = []) /\
      forall name v, getNamedPoint g name = Some v <-> point_called (bead_point (g_data g)) vzero (e ++ c) name v.
Proof.
  unfold wedge_geometry. destruct (Nat.leb 2 n) eqn:N; [apply Nat.leb_le in N|apply Nat.leb_gt in N; cbn [andb]; split; [split; [intros (?&?); discriminate|lia]|discriminate]].
  destruct (Rltb 0 rt) eqn:PT; [apply Rltb_true in PT|apply Rltb_false in PT; cbn [andb]; split; [split; [intros (?&?); discriminate|lra]|discriminate]].
  destruct (Rltb 0 rb) eqn:PB; [apply Rltb_true in PB|apply Rltb_false in PB; cbn [andb]; split; [split; [intros (?&?); discriminate|lra]|discriminate]].
  destruct (Rltb p (2 * Rmin rt rb)) eqn:M; [apply Rltb_true in M; apply Rmin_above in M; destruct M as (MT&MB)|apply Rltb_false in M; cbn [andb]; split; [split; [intros (?&?); discriminate|intros (_&_&_&X&Y); exfalso; assert (p < 2 * Rmin rt rb) by (apply Rmin_above; auto); lra]|discriminate]].
  cbn [andb]. cbv zeta. set (e := (rt - rb) / INR (n - 1)). rewrite shift_moved. set (o := (first_z _ + last_z _) / 2). assert (CE : centred (moved o (wedge_loop n 0 rb e p))) by (unfold o; rewrite <- shift_moved; apply shift_centred). rewrite wedge_moved in *. set (data := wedge_loop n (0 - o) rb e p) in *.
  assert (IN : 1 <= INR (n - 1)) by (apply (le_INR 1); lia). assert (EE : INR (n - 1) * e = rt - rb) by (unfold e; field; lra).
  assert (L : length data = n) by apply wedge_length. assert (SP : spaced data (fun _ d1 d2 => bd_radius d1 + bd_radius d2 - p)) by apply wedge_spaced.
  assert (RP : forall i b, nth_error data i = Some b -> 0 < bd_radius b). { intros i b E. apply wedge_nth in E. destruct E as (_&_&->&E). apply (between (n - 1)); [exact PB|rewrite EE; lra|lia]. }
  assert (ON : on_axis data). { intros b I. apply in_nth in I. destruct I as (i&I). pose proof (RP _ _ I). apply wedge_nth in I. tauto. }
  destruct n as [|n]; [lia|]. assert (DA : data = Bead (V3 0 0 (0 - o)) rb :: wedge_loop n ((0 - o) + (2 * rb + e - p)) (rb + e) e p) by reflexivity.
  replace (S n - 1)%nat with n in * by lia. pose proof (wedge_chain e p n (0 - o) rb (plane (0 - o, rb) (0 - o + (2 * rb + e - p), rb + e)) PB ltac:(lra) MB ltac:(lra) ltac:(intros; lra)) as CH.
  rewrite DA in SP. assert (WV : wedge_volume data p = Some (PI * chain_sum (0 - o, rb) (map zb (wedge_loop n (0 - o + (2 * rb + e - p)) (rb + e) e p)))) by (rewrite DA; exact (wedge_volume_spec p (Bead (V3 0 0 (0 - o)) rb) _ _ CH SP)).
  rewrite WV. cbn [obind]. rewrite <- DA in SP. rewrite later_points.
  assert (NE : data <> []) by (rewrite DA; discriminate). assert (PF : List.Forall (fun d => 0 < bd_radius d) data) by (apply Forall_forall; intros b I; apply ON, I).
  destruct (nth_error data 0) as [b1|] eqn:F0; [|rewrite DA in F0; discriminate]. destruct (nth_error data (length data - 1)) as [b2|] eqn:Fn; [|apply nth_error_None in Fn; lia].
  rewrite (front_nth _ _ F0). unfold back_pos. rewrite (last_nth _ _ Fn). set (cm := if Reqb p 0 then [(cm_name, calculateMassCentre data)] else []).
  destruct (bead_shape data false (PI * chain_sum (0 - o, rb) (map zb (wedge_loop n (0 - o + (2 * rb + e - p)) (rb + e) e p))) ([(beg_name, bd_pos b1); (end_name, bd_pos b2)] ++ cm)) as (g&G&A&B&C&O&V&Q).
  - exact NE.
  - exact PF.
  - unfold cm. destruct (Reqb p 0); cbn; repeat constructor; cbn; intuition discriminate.
  - intros i. assert (X : names ([(beg_name, bd_pos b1); (end_name, bd_pos b2)] ++ cm) = beg_name :: end_name :: if Reqb p 0 then [cm_name] else []) by (unfold cm; destruct (Reqb p 0); reflexivity). rewrite X. intros [E|[E|E]]; [symmetry in E; revert E; apply other_letter; discriminate..|]. destruct (Reqb p 0); [destruct E as [E|[]]; symmetry in E; revert E; apply other_letter; discriminate|destruct E].
  - split; [split; [intros _; auto|intros _; exists g; exact G]|]. intros g' G'. assert (g' = g) by congruence. subst g'. rewrite A, B, C, O, V. split; [exact L|]. split; [|split; [|split; [exact SP|split; [exact CE|]]]].
    + intros i b E. apply wedge_nth in E. destruct E as (_&_&->&_). rewrite <- EE. field. lra.
    + intros b I. specialize (ON b I). tauto.
    + split; [reflexivity|]. split; [reflexivity|]. split; [reflexivity|]. split.
      * apply beads_volume_of; [exact ON|]. rewrite DA. cbn [map]. change (zb (Bead (V3 0 0 (0 - o)) rb)) with (0 - o, rb). apply (chain_int _ _ _ CH).
      * exists [([98; 101; 103]%Z, bd_pos b1); ([101; 110; 100]%Z, bd_pos b2)], cm. split; [exists b1, b2; auto|]. split; [|split; [|exact Q]]; intros E; unfold cm.
        -- rewrite (proj2 (Reqb_true _ _) E). eexists. split; [apply mass_centre_middle; assumption|reflexivity].
        -- rewrite (proj2 (Reqb_false _ _) E). reflexivity.
Qed.
