From Coq Require Import Reals ZArith List Bool Arith Lia Lra Psatz.
From Coquelicot Require Import Coquelicot.
From Verif Require Import TextModel TextProofs GeomModel GeomProofs PbcModel PackSpec ShapesModel XcSpec GeoModel GeoSpec GeoProofs GeoShapesProofs GeoAxisProofs VolSpec VolProofs BeadsModel BeadsSpec OptModel.
Import ListNotations.
Open Scope R_scope.

(** Volume calculator *)
Lemma intersection_formula z1 z2 r1 r2 : sphereIntersection r1 r2 (z2 - z1) =
  if Rltb 0 r1 && Rltb 0 r2 && Rltb 0 (z2 - z1) && Rleb (z2 - z1) (r1 + r2) then Some (PI * lens (z1, r1) (z2, r2)) else None.
Proof. unfold sphereIntersection. destruct (_ && _)%bool; [|reflexivity]. f_equal. unfold lens. cbn [fst snd]. unfold Rdiv. ring. Qed.
Lemma lens_sym r1 r2 z1 z2 : lens (z1, r1) (z2, r2) = lens (z1, r2) (z2, r1).
Proof. unfold lens. cbn [fst snd]. replace (r2 + r1) with (r1 + r2) by ring. replace ((r2 - r1) ^ 2) with ((r1 - r2) ^ 2) by ring. reflexivity. Qed.
Lemma intersection_spec r1 r2 d : 0 < r1 -> 0 < r2 -> 0 < d -> Rabs (r1 - r2) <= d <= r1 + r2 ->
  exists v, sphereIntersection r1 r2 d = Some v /\ volume (fun y => in_ball vzero r1 y /\ in_ball (V3 0 0 d) r2 y) v.
Proof.
  intros P Q L H. exists (PI * lens (0, r1) (d, r2)). split; [|apply (intersection_volume 0 d r1 r2 P Q); rewrite Rminus_0_r; assumption].
  replace d with (d - 0) at 1 by ring. rewrite intersection_formula. rewrite Rminus_0_r. rewrite !(proj2 (Rltb_true _ _)), (proj2 (Rleb_true _ _)) by lra. reflexivity.
Qed.
Lemma cap_spec r h : 0 < r -> 0 <= h <= 2 * r -> exists v, sphericalCap r h = Some v /\ volume (fun y => in_ball vzero r y /\ r - h <= vz y) v.
Proof.
  intros P H. exists (PI * (h * h / 3 * (3 * r - h))). split; [|apply cap_volume; assumption]. unfold sphericalCap. rewrite !(proj2 (Rleb_true _ _)) by lra. cbn [andb]. f_equal. field.
Qed.
(** The calculators refuse exactly the arguments which break their preconditions. *)
Lemma cap_refused r h : sphericalCap r h = None <-> ~ (0 <= r /\ h <= 2 * r).
Proof.
  unfold sphericalCap. destruct (Rleb 0 r) eqn:A; [apply Rleb_true in A|apply Rleb_false in A]; destruct (Rleb h (2 * r)) eqn:B; [apply Rleb_true in B|apply Rleb_false in B|apply Rleb_true in B|apply Rleb_false in B]; cbn [andb]; split; intros; try discriminate; try reflexivity; try lra; intros; exfalso; lra.
Qed.

Lemma intersection_refused r1 r2 d : sphereIntersection r1 r2 d = None <-> ~ (0 < r1 /\ 0 < r2 /\ 0 < d /\ d <= r1 + r2).
Proof.
  unfold sphereIntersection. destruct (Rltb 0 r1) eqn:A; [apply Rltb_true in A|apply Rltb_false in A; split; [intros; lra|reflexivity]]. destruct (Rltb 0 r2) eqn:B; [apply Rltb_true in B|apply Rltb_false in B; split; [intros; lra|reflexivity]].
  destruct (Rltb 0 d) eqn:C; [apply Rltb_true in C|apply Rltb_false in C; split; [intros; lra|reflexivity]]. destruct (Rleb d (r1 + r2)) eqn:D; [apply Rleb_true in D|apply Rleb_false in D; split; [intros; lra|reflexivity]]. split; [discriminate|]. intros H. exfalso. tauto.
Qed.

(** Named points added later *)
Lemma add_points data p s o v c1 c2 : (g <- polysphere_geometry data p s o v c1 ;; addCustomNamedPoints c2 g) = polysphere_geometry data p s o v (c1 ++ c2).
Proof.
  unfold polysphere_geometry. destruct (forallb _ data); [|reflexivity]. unfold make_geometry. destruct data as [|d data]; [reflexivity|]. destruct (match p with None => _ | Some _ => _ end); [reflexivity|].
  destruct (normalized_axis p); [|reflexivity]. cbn [obind]. destruct (normalized_axis s); [|reflexivity]. cbn [obind]. destruct (match v with Some _ => _ | None => _ end); [|reflexivity]. cbn [obind].
  destruct (registerNamedPoints [] _) as [ps|]; [|reflexivity]. cbn [obind]. clear. assert (R : forall c1 c2 ps, registerNamedPoints ps (c1 ++ c2) = (ps' <- registerNamedPoints ps c1 ;; registerNamedPoints ps' c2)).
  { clear. induction c1 as [|c c1 IH]; intros c2 ps; [reflexivity|]. cbn [app registerNamedPoints]. destruct (registerNamedPoint ps c); [|reflexivity]. cbn [obind]. apply IH. }
  rewrite R. destruct (registerNamedPoints ps c1) as [ps1|]; [|reflexivity]. cbn [obind addCustomNamedPoints g_points]. unfold addCustomNamedPoints. cbn [g_points]. destruct (registerNamedPoints ps1 c2); reflexivity.
Qed.
Lemma geometry_data data p s o v c g : polysphere_geometry data p s o v c = Some g -> g_data g = data.
Proof. intros H. apply (proj2 (polysphere_geometry_spec data p s o v c) g H). Qed.
Lemma ez_unit : normalized (V3 0 0 1) = Some (V3 0 0 1).
Proof.
  unfold normalized. replace (vnorm2 (V3 0 0 1)) with 1 by (unfold vnorm2, vdot; cbn; ring). rewrite (proj2 (Reqb_false 1 0)) by lra. unfold vnorm. replace (vnorm2 (V3 0 0 1)) with 1 by (unfold vnorm2, vdot; cbn; ring). rewrite sqrt_1, Rinv_1. f_equal. apply vec_ext; cbn; ring.
Qed.
Lemma ex_unit : normalized (V3 1 0 0) = Some (V3 1 0 0).
Proof.
  unfold normalized. replace (vnorm2 (V3 1 0 0)) with 1 by (unfold vnorm2, vdot; cbn; ring). rewrite (proj2 (Reqb_false 1 0)) by lra. unfold vnorm. replace (vnorm2 (V3 1 0 0)) with 1 by (unfold vnorm2, vdot; cbn; ring). rewrite sqrt_1, Rinv_1. f_equal. apply vec_ext; cbn; ring.
Qed.
Lemma geometry_axes data (x : bool) o v c g : polysphere_geometry data (Some (V3 0 0 1)) (if x then Some (V3 1 0 0) else None) o v c = Some g -> g_primary g = Some (V3 0 0 1) /\ g_secondary g = (if x then Some (V3 1 0 0) else None).
Proof.
  unfold polysphere_geometry. destruct (forallb _ data); [|discriminate]. unfold make_geometry. destruct data as [|d data]; [discriminate|]. cbn [normalized_axis]. rewrite ez_unit. cbn [obind].
  destruct x; cbn [normalized_axis]; rewrite ?ex_unit; cbn [obind]; destruct v; cbn [obind]; try discriminate; try (destruct (beads_volume _); [|discriminate]; cbn [obind]); (destruct (registerNamedPoints [] _); [|discriminate]; cbn [obind]); (destruct (registerNamedPoints _ c); [|discriminate]); intros [= <-]; auto.
Qed.

(** Spheres at equal distances *)
Lemma kmer_length n : forall z r d, length (kmer_loop n z r d) = n. Proof. induction n; intros; cbn; [reflexivity|f_equal; auto]. Qed.
Lemma kmer_nth n : forall z r d i b, nth_error (kmer_loop n z r d) i = Some b -> b = Bead (V3 0 0 (z + INR i * d)) r /\ (i < n)%nat.
Proof.
  induction n as [|n IH]; intros z r d i b; [destruct i; discriminate|]. destruct i as [|i]; cbn [kmer_loop nth_error].
  - intros [= <-]. split; [f_equal; f_equal; cbn; ring|lia].
  - intros H. apply IH in H. destruct H as (->&H). split; [|lia]. f_equal. f_equal. rewrite S_INR. ring.
Qed.
Lemma kmer_nth_some n z r d i : (i < n)%nat -> nth_error (kmer_loop n z r d) i = Some (Bead (V3 0 0 (z + INR i * d)) r).
Proof.
  intros H. destruct (nth_error (kmer_loop n z r d) i) as [b|] eqn:E; [apply kmer_nth in E; destruct E as (->&_); reflexivity|]. apply nth_error_None in E. rewrite kmer_length in E. lia.
Qed.
Lemma in_nth {A} (l : list A) x : In x l -> exists i, nth_error l i = Some x. Proof. apply In_nth_error. Qed.
Lemma kmer_along n z r d b : In b (kmer_loop n z r d) -> vx (bd_pos b) = 0 /\ vy (bd_pos b) = 0 /\ bd_radius b = r.
Proof. intros H. apply in_nth in H. destruct H as (i&H). apply kmer_nth in H. destruct H as (->&_). auto. Qed.
Lemma equal_plane z r d : 0 < d -> plane (z, r) (z + d, r) = z + d / 2. Proof. intros H. unfold plane. cbn [fst snd]. field. lra. Qed.
Lemma kmer_chain n r d : 0 < r -> 0 < d -> forall z t, t <= z + d / 2 -> chain t (z, r) (map zb (kmer_loop n (z + d) r d)).
Proof.
  intros P D. induction n as [|n IH]; intros z t T; [constructor; exact P|]. cbn [kmer_loop map]. unfold zb at 1. cbn [bd_pos bd_radius vz]. constructor; [exact P| |rewrite equal_plane by exact D; exact T|].
  - split; cbn [fst snd]; [lra|]. rewrite Rminus_diag_eq, Rabs_R0 by reflexivity. lra.
  - apply IH. rewrite equal_plane by exact D. lra.
Qed.
Definition kmeet (r d : R) : R := if Rltb d (r + r) then lens (0, r) (d, r) else 0.
Lemma kmeet_at z r d : meet (z, r) (z + d, r) = kmeet r d.
Proof. unfold meet, kmeet, lens. cbn [fst snd]. replace (z + d - z) with d by ring. rewrite Rminus_0_r. reflexivity. Qed.
Lemma kmer_sum n r d : forall z, chain_sum (z, r) (map zb (kmer_loop n (z + d) r d)) = INR (S n) * (4 / 3 * r ^ 3) - INR n * kmeet r d.
Proof.
  induction n as [|n IH]; intros z; [cbn; ring|]. cbn [kmer_loop map chain_sum]. change (zb (Bead (V3 0 0 (z + d)) r)) with (z + d, r). rewrite IH, kmeet_at. cbn [snd]. rewrite !S_INR. ring.
Qed.
Lemma kmer_cap r d : 0 < r -> 0 < d -> d < 2 * r -> exists cap, sphericalCap r (r - d / 2) = Some cap /\ 2 * cap = PI * kmeet r d.
Proof.
  intros P D L. unfold sphericalCap. rewrite !(proj2 (Rleb_true _ _)) by lra. cbn [andb]. eexists. split; [reflexivity|]. unfold kmeet. rewrite (proj2 (Rltb_true _ _)) by lra. unfold lens. cbn [fst snd]. field. lra.
Qed.
Lemma kmer_volume_spec n r d : (1 <= n)%nat -> 0 < r -> 0 < d -> forall z, exists v, kmer_volume n r d = Some (PI * v) /\ whole (env (map zb (kmer_loop n z r d))) v.
Proof.
  intros N P D z. destruct n as [|n]; [lia|]. exists (INR (S n) * (4 / 3 * r ^ 3) - INR n * kmeet r d). split.
  - unfold kmer_volume. replace (S n - 1)%nat with n by lia. destruct (Rltb d (2 * r)) eqn:E; [apply Rltb_true in E|apply Rltb_false in E].
    + destruct (kmer_cap r d P D E) as (cap&->&C). cbn [obind]. f_equal. replace (2 * INR n * cap) with (INR n * (2 * cap)) by ring. rewrite C. field.
    + f_equal. unfold kmeet. rewrite (proj2 (Rltb_false _ _)) by lra. field.
  - rewrite <- (kmer_sum n r d z). cbn [kmer_loop map]. unfold zb at 1. cbn [bd_pos bd_radius vz]. apply (chain_int z). apply kmer_chain; lra.
Qed.
Lemma weight_sum w n : forall z r d, Rsum (fun b => w * vz (bd_pos b)) (kmer_loop n z r d) = w * (INR n * z + INR n * (INR n - 1) / 2 * d).
Proof. induction n as [|n IH]; intros z r d; [cbn; field|]. cbn [kmer_loop]. unfold Rsum in *. cbn [fold_right bd_pos vz]. rewrite IH, S_INR. field. Qed.
Lemma kmer_middle n r d : (1 <= n)%nat -> 0 < r -> calculateMassCentre (kmer_loop n (- INR (n - 1) / 2 * d) r d) = vzero.
Proof.
  intros N P. set (data := kmer_loop _ _ _ _). assert (NE : data <> []) by (unfold data; destruct n; [lia|discriminate]).
  assert (PF : List.Forall (fun d => 0 < bd_radius d) data) by (apply Forall_forall; intros b B; apply kmer_along in B; destruct B as (_&_&->); exact P).
  apply (middle_unique data); auto; [apply mass_centre_middle; auto|]. intros a.
  destruct a.
  - rewrite (Rsum_ext _ (fun b => 0 * vz (bd_pos b))); [unfold data; rewrite weight_sum; ring|]. intros b B. apply kmer_along in B. destruct B as (X&_). cbn [vget]. rewrite X. cbn. ring.
  - rewrite (Rsum_ext _ (fun b => 0 * vz (bd_pos b))); [unfold data; rewrite weight_sum; ring|]. intros b B. apply kmer_along in B. destruct B as (_&Y&_). cbn [vget]. rewrite Y. cbn. ring.
  - rewrite (Rsum_ext _ (fun b => ball_volume r * vz (bd_pos b))); [unfold data; rewrite weight_sum, minus_INR by lia; cbn [INR]; field|]. intros b B. apply kmer_along in B. destruct B as (_&_&->). cbn. ring.
Qed.
Lemma normalize_centred g : calculateMassCentre (g_data g) = vzero -> normalizeMassCentre g = g.
Proof.
  intros Z. unfold normalizeMassCentre. rewrite Z. cbv zeta. destruct g as [data p s o v ps]. cbn [g_data g_primary g_secondary g_origin g_volume g_points]. f_equal.
  - transitivity (map (fun d => d) data); [|apply map_id]. apply map_ext. intros [q r]. cbn. f_equal. apply vec_ext; cbn; ring.
  - apply vec_ext; cbn; ring.
  - unfold moveNamedPoints. transitivity (map (fun d => d) ps); [|apply map_id]. apply map_ext. intros [q x]. cbn. f_equal. apply vec_ext; cbn; ring.
Qed.
Lemma front_nth data b : nth_error data 0 = Some b -> front_pos data = bd_pos b. Proof. destruct data; [discriminate|]. intros [= ->]. reflexivity. Qed.
Lemma last_nth data b : nth_error data (length data - 1) = Some b -> last data (Bead vzero 0) = b.
Proof.
  induction data as [|c data IH]; [discriminate|]. intros H. destruct data as [|e data]; [cbn in H; injection H as ->; reflexivity|]. cbn [length] in *. replace (S (S (length data)) - 1)%nat with (S (S (length data) - 1))%nat in H by lia. cbn [nth_error] in H. change (last (e :: data) (Bead vzero 0) = b). apply IH. exact H.
Qed.
(** A k-mer is the polysphere given by its spheres. *)
Lemma kmer_is n r d : kmer_geometry n r d =
  if Nat.leb 2 n && Rltb 0 r && Rltb 0 d then
    let data := kmer_loop n (- INR (n - 1) / 2 * d) r d in
    v <- kmer_volume n r d ;; polysphere_geometry data (Some (V3 0 0 1)) (Some (V3 1 0 0)) vzero (Some v) [(cm_name, vzero); (beg_name, front_pos data); (end_name, back_pos data)]
  else None.
Proof.
  unfold kmer_geometry. destruct (Nat.leb 2 n) eqn:N; [apply Nat.leb_le in N|reflexivity]. destruct (Rltb 0 r) eqn:P; [apply Rltb_true in P|reflexivity]. destruct (Rltb 0 d) eqn:D; [|reflexivity]. cbn [andb].
  set (data := kmer_loop _ _ _ _). cbv zeta. destruct (kmer_volume n r d) as [v|]; [|reflexivity]. cbn [obind].
  rewrite <- (app_nil_l [(cm_name, vzero); (beg_name, front_pos data); (end_name, back_pos data)]), <- add_points. destruct (polysphere_geometry data _ _ _ _ []) as [g|] eqn:G; [|reflexivity]. cbn [obind].
  pose proof (proj2 (polysphere_geometry_spec _ _ _ _ _ _) g G) as (GD&_&_&GO&_). rewrite normalize_centred by (rewrite GD; apply kmer_middle; [lia|exact P]).
  replace (setGeometricOrigin vzero g) with g; [rewrite GD; reflexivity|]. unfold setGeometricOrigin. rewrite <- GO. destruct g; reflexivity.
Qed.
