(** Which shapes of the class generic_convex are accepted, and what they are. *)
From Coq Require Import Reals ZArith List Bool Lra Lia ZifyBool Sorted String.
From Verif Require Import TextModel TextProofs StringsModel PyonModel MatchModel MatchSpec MatchProofs GeomModel GeomProofs GeoModel XcModel XcSpec XcBuildProofs OptModel InputModel InputSpec InputCallProofs InputPartProofs InputRunProofs InputParseProofs ConvexModel ConvexSpec ConvexMeanProofs ConvexMatchProofs.
Import ListNotations.
Open Scope Z_scope.

Section Shape.
Variable of_float : list Z -> R.
Notation any := (@InputModel.any vec (list command) convex_shape points).
Notation mt := (matcher any).
Notation vector := (vector of_float).
Notation axis := (axis of_float).

Lemma norm2_pos v : (/ 10 ^ 10 < Rabs (vx v) \/ / 10 ^ 10 < Rabs (vy v) \/ / 10 ^ 10 < Rabs (vz v))%R -> (0 < vnorm2 v)%R.
Proof.
  intros H. assert (P : (0 < / 10 ^ 10)%R) by (apply Rinv_0_lt_compat; apply pow_lt; lra). unfold vnorm2, vdot. pose proof (Rle_0_sqr (vx v)). pose proof (Rle_0_sqr (vy v)). pose proof (Rle_0_sqr (vz v)). unfold Rsqr in *.
  assert (K : forall x, (/ 10 ^ 10 < Rabs x)%R -> (0 < x * x)%R). { intros x X. assert (x <> 0%R) by (intros ->; rewrite Rabs_R0 in X; lra). apply Rsqr_pos_lt in H3. exact H3. }
  destruct H as [H|[H|H]]; apply K in H; lra.
Qed.
Lemma normalized_some v : (0 < vnorm2 v)%R -> normalized v = Some (vscale (/ vnorm v) v).
Proof. intros H. unfold normalized. destruct (Reqb (vnorm2 v) 0) eqn:E; [apply Reqb_true in E; lra|reflexivity]. Qed.
Lemma some_iff v : some_non_zero (map AReal [vx v; vy v; vz v]) = true <-> (/ 10 ^ 10 < Rabs (vx v) \/ / 10 ^ 10 < Rabs (vy v) \/ / 10 ^ 10 < Rabs (vz v))%R.
Proof. unfold some_non_zero. cbn [map existsb as_real obind truth]. rewrite !orb_true_iff, !Rltb_true. intuition congruence. Qed.
Lemma axis_denotes : denotes (axis_m of_float) (@AArr vec (list command) convex_shape points) axis.
Proof.
  intros n u R. unfold axis_m, array_m. rewrite array_node. unfold ConvexSpec.axis. split.
  - intros (l & vs & -> & H & E). apply array_iff in H. destruct H as [H F]. cbn [am_element am_filters] in *. symmetry in E. apply made_some in E; [|discriminate]. apply obind_some in E. destruct E as (v & T & X). apply obind_some in X. destruct X as (u' & N & X). injection X as ->.
    destruct (proj1 (triple_node of_float (NArray l) [size_three; some_non_zero] v)) as [V A]. { exists l. split; [reflexivity|]. exists vs. auto. } apply all_cons in A. destruct A as [_ A]. apply all_cons in A. destruct A as [A _]. apply some_iff in A.
    exists v. split; [exact V|]. split; [exact A|]. rewrite (normalized_some v (norm2_pos v A)) in N. congruence.
  - intros (v & V & A & ->). destruct (proj2 (triple_node of_float n [size_three; some_non_zero] v)) as (l & -> & vs & F & B & T). { split; [exact V|]. apply all_cons. split; [reflexivity|]. apply all_cons. split; [apply some_iff; exact A|constructor]. }
    exists l, vs. split; [reflexivity|]. split; [apply array_iff; split; assumption|]. rewrite T. cbn [obind]. rewrite (normalized_some v (norm2_pos v A)). reflexivity.
Qed.
Definition some_axis (o : option vec) : any := match o with Some u => AArr u | None => ADisabled end.
Lemma some_axis_inj y z : some_axis y = some_axis z -> y = z. Proof. destruct y, z; cbn; congruence. Qed.
Lemma maybe_denotes : denotes (maybe_axis_m of_float) some_axis (or_none axis).
Proof.
  intros n o R. change (maybe_axis_m of_float) with (match_alternative any (alternative_of [axis_m of_float; match_none any ADisabled])). rewrite alt_iff; [|constructor; [apply typed_array|constructor; [apply typed_none|constructor]]|reflexivity]. rewrite !Exists_cons, Exists_nil, none_node. destruct o as [u|]; cbn [some_axis or_none].
  - rewrite (axis_denotes n u R). split; [intros [H|[[_ H]|[]]]; [exact H|discriminate]|tauto].
  - split; [|intros ->; right; left; auto]. intros [H|[[-> _]|[]]]; [|reflexivity]. exfalso. unfold axis_m, array_m in H. apply array_node in H. destruct H as (l & vs & _ & _ & H). destruct (triple vs) as [v|]; [|discriminate]. cbn [obind] in H. destruct (normalized v); discriminate.
Qed.
Lemma c_axis (v : any) o : as_axis v = Some o -> v = some_axis o.
Proof. unfold as_axis. destruct v; cbn [isEmpty as_arr obind]; try discriminate; intros H; injection H as <-; reflexivity. Qed.
Lemma as_axis_some o : as_axis (some_axis o) = Some o. Proof. destruct o; reflexivity. Qed.
Lemma dict_node' d h n v : mt_match any (match_dict any (@ANode vec (list command) convex_shape points) d h) n = Match v <-> exists l vs, n = NDict l /\ match_dict_data any ANode d l = Match vs /\ v = h vs.
Proof.
  cbn [match_dict mt_match]. destruct n; try (split; [discriminate|intros (q & vs & X & _); discriminate]). rewrite mbind_match. split.
  - intros (vs & H & X). injection X as <-. eauto.
  - intros (q & vs & X & H & ->). injection X as ->. eauto.
Qed.
Lemma points_iff (l : list (text * any)) ps : as_points l = Some ps <-> l = map (fun e => (fst e, AArr (snd e))) ps.
Proof.
  revert ps. induction l as [|[k v] l IH]; intros ps; cbn [as_points].
  - split; [intros H; injection H as <-; reflexivity|]. destruct ps; [reflexivity|discriminate].
  - rewrite obind_some. unfold as_point. split.
    + intros (e & He & H). apply obind_some in He. destruct He as (t & Ht & He). cbn [fst snd] in *. apply c_arr in Ht. injection He as <-. apply obind_some in H. destruct H as (r & Hr & H). injection H as <-. apply IH in Hr. subst. reflexivity.
    + intros H. destruct ps as [|[k' t] ps]; [discriminate|]. cbn [map fst snd] in H. injection H as -> -> ->. exists (k', t). split; [reflexivity|]. apply obind_some. exists ps. split; [apply IH; reflexivity|reflexivity].
Qed.
Lemma points_denote : denotes (named_points_m of_float) (@ABulk vec (list command) convex_shape points) (point_names of_float).
Proof.
  intros n ps R. unfold named_points_m. rewrite dict_node'. unfold point_names.
  assert (Kv : forall k m v, regular m -> key_value (@ANode vec (list command) convex_shape points) (DictMatcher any [] (Some (vector_m of_float)) []) k m (AArr v) <-> vector m v).
  { intros k m v Rm. unfold key_value. cbn [dm_keys dm_default accepts]. rewrite <- (vector_denotes of_float m v Rm). split.
    - intros [(u & km & b & E & _)|[_ H]]; [destruct u; discriminate|exact H].
    - intros H. right. split; [constructor|exact H]. }
  split.
  - intros (l & vs & -> & H & E). inversion R as [| | | | | |? Nd Rl|]; subst. rewrite Forall_forall in Rl. apply dict_iff in H; [|exact Nd]. symmetry in E. apply made_some in E; [|discriminate]. apply obind_some in E. destruct E as (qs & E & X). injection X as ->. apply points_iff in E. subst vs. destruct H as (S & K1 & K2 & _).
    exists l. split; [reflexivity|]. split; [|split].
    + clear -S. induction ps as [|e l IH]; [constructor|]. cbn [map] in S. inversion S as [|? ? S1 S2]; subst. constructor; [exact (IH S1)|]. apply Forall_map in S2. exact S2.
    + intros k m I. destruct (K1 k m I) as (v & Iv & Hv). apply in_map_iff in Iv. destruct Iv as ([k' t] & E & Iv). cbn [fst snd] in E. injection E as -> <-. exists t. split; [|exact Iv]. apply (Kv k m t (Rl (k, m) I)). exact Hv.
    + intros k v I. destruct (K2 k (AArr v)) as (m & Im & Hv). { apply in_map_iff. exists (k, v). auto. } exists m. split; [exact Im|]. apply (Kv k m v (Rl (k, m) Im)). exact Hv.
  - intros (l & -> & S & K1 & K2). inversion R as [| | | | | |? Nd Rl|]; subst. rewrite Forall_forall in Rl. exists l, (map (fun e => (fst e, AArr (snd e))) ps). split; [reflexivity|]. split; [|rewrite (proj2 (points_iff _ ps) eq_refl); reflexivity]. apply dict_iff; [exact Nd|]. split; [|split; [|split; [|constructor]]].
    + clear -S. induction S as [|e l S IH F]; [constructor|]. cbn [map]. constructor; [exact IH|]. apply Forall_map. exact F.
    + intros k m I. destruct (K1 k m I) as (v & V & Iv). exists (AArr v). split; [apply in_map_iff; exists (k, v); auto|]. apply (Kv k m v (Rl (k, m) I)). exact V.
    + intros k v I. apply in_map_iff in I. destruct I as ([k' t] & E & I). cbn [fst snd] in E. injection E as <- <-. destruct (K2 k' t I) as (m & Im & V). exists m. split; [exact Im|]. apply (Kv k' m t (Rl (k', m) Im)). exact V.
Qed.
Lemma empty_regular : regular (NDict []). Proof. apply Reg_dict; constructor. Qed.
Lemma none_written : or_none axis NNone None. Proof. reflexivity. Qed.
Lemma no_points_written : point_names of_float (NDict []) []. Proof. exists []. split; [reflexivity|]. split; [constructor|]. split; intros k m []. Qed.
Ltac unbind M := repeat (apply obind_some in M; let x := fresh "x" in let E := fresh "E" in destruct M as (x & E & M)).
Theorem convex_iff n c : regular n -> (mt_match any (generic_convex_class of_float) n = Match (AObs c) <->
  exists g, convex_written of_float n g (cx_primary c) (cx_secondary c) (cx_origin c) (cx_volume c) (cx_points c) /\ build (compile g) = Some (cx_geometry c)).
Proof.
  intros R. unfold generic_convex_class. rewrite class_object with (sg := convex_sig); [|reflexivity|reflexivity|exact R].
  assert (Ax : forall pa sa : option vec, (if isEmpty (some_axis pa) then isEmpty (some_axis sa) else if negb (isEmpty (some_axis sa)) then truth (p <- as_arr (some_axis pa) ;; s <- as_arr (some_axis sa) ;; Some (Rltb (vdot p s) (/ 10 ^ 12))) else true) = true <-> axes_allowed pa sa).
  { intros [p|] [s|]; cbn [some_axis isEmpty negb as_arr obind truth axes_allowed]; rewrite ?Rltb_true; intuition discriminate. }
  split.
  - intros (a & vs & O & B & F & M); pose proof (object_regular _ _ _ _ R O) as Ra; cbn [convex_sig binds fst] in B; values vs B. destruct B as (B1 & B2 & B3 & B4 & B5 & B6 & _). symmetry in M; apply made_some in M; [|discriminate]. revert M F. rewrite all_cons. unfold validate_axes. gets. intros M [F _]. unbind M.
    apply c_script in E. apply c_real in E0. apply c_arr in E1. apply c_axis in E2. apply c_axis in E3. apply c_bulk in E4. subst. injection M as <-. cbn [cx_primary cx_secondary cx_origin cx_volume cx_points cx_geometry]. apply Ax in F.
    unfold valued, required in B1. cbn [p_matcher p_default accepts fst] in B1. destruct (a "geometry"%string) as [m|] eqn:Eg; [|discriminate]. apply (geometry_iff of_float m (Ra _ _ Eg)) in B1. destruct B1 as (g & W & ->). exists g. split; [|assumption].
    constructor; [|exact F]. exists a. split; [exact O|]. split; [exists m; auto|]. split; [eapply req_iff'; [exact (size_denotes of_float)|exact Ra|exact B2]|]. split; [eapply opt_iff; [exact (vector_denotes of_float)|exact Ra|exact zeros_regular|exact (zeros_vector of_float)|congruence|exact B3]|].
    split; [eapply opt_iff; [exact maybe_denotes|exact Ra|exact Reg_none|exact none_written|exact some_axis_inj|exact B4]|]. split; [eapply opt_iff; [exact maybe_denotes|exact Ra|exact Reg_none|exact none_written|exact some_axis_inj|exact B5]|].
    eapply opt_iff; [exact points_denote|exact Ra|exact empty_regular|exact no_points_written|congruence|exact B6].
  - intros (g & [(a & O & (m & Eg & W) & B2 & B3 & B4 & B5 & B6) F] & Bu). pose proof (object_regular _ _ _ _ R O) as Ra. destruct c as [x pa sa o v ps]. cbn [cx_primary cx_secondary cx_origin cx_volume cx_points cx_geometry] in *.
    exists a, [script (compile g); AReal v; AArr o; some_axis pa; some_axis sa; ABulk ps]. split; [exact O|]. split; [|split].
    + cbn [convex_sig binds fst]. split; [unfold valued, required; cbn [p_matcher p_default accepts]; rewrite Eg; apply (geometry_iff of_float m (Ra _ _ Eg)); eauto|].
      split; [eapply req_iff'; [exact (size_denotes of_float)|exact Ra|exact B2]|]. split; [eapply opt_iff; [exact (vector_denotes of_float)|exact Ra|exact zeros_regular|exact (zeros_vector of_float)|congruence|exact B3]|].
      split; [eapply opt_iff; [exact maybe_denotes|exact Ra|exact Reg_none|exact none_written|exact some_axis_inj|exact B4]|]. split; [eapply opt_iff; [exact maybe_denotes|exact Ra|exact Reg_none|exact none_written|exact some_axis_inj|exact B5]|].
      split; [eapply opt_iff; [exact points_denote|exact Ra|exact empty_regular|exact no_points_written|congruence|exact B6]|exact Logic.I].
    + apply all_cons. split; [|constructor]. unfold validate_axes. gets. apply Ax. exact F.
    + gets. unfold as_script. cbn [script as_shape as_real as_arr as_bulk obind]. rewrite !as_axis_some. cbn [obind]. rewrite Bu. reflexivity.
Qed.

(** *** Texts *)
Variable erange : list Z -> bool.
Theorem match_geometry_iff s cs : match_geometry of_float erange s = Some cs <-> exists n g, parse erange s = Ok n /\ written of_float g n /\ cs = compile g.
Proof.
  unfold match_geometry. destruct (parse erange s) as [n| |] eqn:E; [|split; [discriminate|intros (n & g & X & _); discriminate]|split; [discriminate|intros (n & g & X & _); discriminate]]. pose proof (geometry_iff of_float n (parse_regular erange s n E)) as G. split.
  - destruct (mt_match any (geometry of_float) n) as [v| |] eqn:M; try discriminate. intros H. apply c_script in H. subst v. apply (proj1 (G cs)) in M. destruct M as (g & W & ->). eauto.
  - intros (n' & g & X & W & ->). injection X as <-. rewrite (proj2 (G (compile g))) by eauto. reflexivity.
Qed.
Theorem geometry_accepted s : match_geometry of_float erange s <> None <-> exists n g, parse erange s = Ok n /\ written of_float g n.
Proof.
  split.
  - destruct (match_geometry of_float erange s) as [cs|] eqn:E; [intros _|contradiction]. apply match_geometry_iff in E. destruct E as (n & g & P & W & _). eauto.
  - intros (n & g & P & W). rewrite (proj2 (match_geometry_iff s (compile g))) by eauto. discriminate.
Qed.
Theorem geometry_bodies s n g : parse erange s = Ok n -> written of_float g n ->
  exists cs x, match_geometry of_float erange s = Some cs /\ build cs = Some x /\ shaped (directions_of (unplaced g)) x (body_of (unplaced g)) /\ (points_at_origin g -> covered x (body_of (unplaced g))).
Proof. intros P W. destruct (compile_builds g (written_valid of_float g n W)) as (x & B & H). exists (compile g), x. split; [apply match_geometry_iff; eauto|]. split; [exact B|exact H]. Qed.
Theorem match_convex_iff s c : match_convex of_float erange s = Some c <->
  exists n g, parse erange s = Ok n /\ convex_written of_float n g (cx_primary c) (cx_secondary c) (cx_origin c) (cx_volume c) (cx_points c) /\ build (compile g) = Some (cx_geometry c).
Proof.
  unfold match_convex. destruct (parse erange s) as [n| |] eqn:E; [|split; [discriminate|intros (n & g & X & _); discriminate]|split; [discriminate|intros (n & g & X & _); discriminate]]. pose proof (convex_iff n c (parse_regular erange s n E)) as G. split.
  - destruct (mt_match any (generic_convex_class of_float) n) as [v| |] eqn:M; try discriminate. intros H. apply c_obs in H. subst v. destruct (proj1 G eq_refl) as (g & W). eauto.
  - intros (n' & g & X & W). injection X as <-. rewrite (proj2 G) by eauto. reflexivity.
Qed.
Theorem convex_accepted s : match_convex of_float erange s <> None <-> exists n g pa sa o v ps, parse erange s = Ok n /\ convex_written of_float n g pa sa o v ps.
Proof.
  split.
  - destruct (match_convex of_float erange s) as [c|] eqn:E; [intros _|contradiction]. apply match_convex_iff in E. destruct E as (n & g & P & W & _). eauto 10.
  - intros (n & g & pa & sa & o & v & ps & P & W). destruct (cw_args _ _ _ _ _ _ _ _ W) as (a & _ & (m & _ & Wg) & _). destruct (compile_builds g (written_valid of_float g m Wg)) as (x & B & _). rewrite (proj2 (match_convex_iff s (ConvexShape x pa sa o v ps))); [discriminate|]. exists n, g. auto.
Qed.
Theorem convex_means s n g pa sa o v ps : parse erange s = Ok n -> convex_written of_float n g pa sa o v ps ->
  exists x, match_convex of_float erange s = Some (ConvexShape x pa sa o v ps) /\ shaped (directions_of (unplaced g)) x (body_of (unplaced g)) /\ (points_at_origin g -> covered x (body_of (unplaced g))).
Proof.
  intros P W. destruct (cw_args _ _ _ _ _ _ _ _ W) as (a & _ & (m & _ & Wg) & _). destruct (compile_builds g (written_valid of_float g m Wg)) as (x & B & H). exists x. split; [apply match_convex_iff; exists n, g; auto|exact H].
Qed.
Lemma scaled_squares s x y z : s <> 0%R -> (/ s * x * (/ s * x) + / s * y * (/ s * y) + / s * z * (/ s * z) = (x * x + y * y + z * z) / (s * s))%R.
Proof. intros H. field. exact H. Qed.
Theorem axes_unit s c u : match_convex of_float erange s = Some c -> cx_primary c = Some u \/ cx_secondary c = Some u -> vnorm2 u = 1%R.
Proof.
  intros H U. apply match_convex_iff in H. destruct H as (n & g & _ & W & _). destruct (cw_args _ _ _ _ _ _ _ _ W) as (a & _ & _ & _ & _ & A1 & A2 & _).
  assert (K : forall k o, arg_or a k (or_none axis) None o -> o = Some u -> vnorm2 u = 1%R).
  { intros k o A ->. unfold arg_or in A. destruct (a k) as [m|]; [|discriminate]. destruct A as (w & _ & L & ->). apply norm2_pos in L. unfold vnorm. pose proof (sqrt_lt_R0 _ L). unfold vnorm2, vdot, vscale in *. cbn [vx vy vz] in *.
    set (q := (vx w * vx w + vy w * vy w + vz w * vz w)%R) in *. rewrite scaled_squares by lra. fold q. rewrite sqrt_sqrt by lra. field. lra. }
  destruct U as [U|U]; [exact (K _ _ A1 U)|exact (K _ _ A2 U)].
Qed.
End Shape.
