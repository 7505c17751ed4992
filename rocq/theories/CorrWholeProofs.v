From Coq Require Import Reals ZArith List Bool Lia Lra Permutation.
From Verif Require Import GeomModel GeomProofs BoxModel BoxSpec BoxProofs RFloorModel RotModel PackSpec HistModel HistSpec HistProofs BondModel BondOrderProofs CorrModel CorrSpec CorrProofs CorrEnumProofs CorrHistProofs.
Import ListNotations.
Local Open Scope R_scope.

Lemma Rsum_cons {A} (f : A -> R) a l : Rsum f (a :: l) = f a + Rsum f l. Proof. reflexivity. Qed.
Lemma sum_cong {A} (f g : A -> R) l : (forall x, In x l -> f x = g x) -> Rsum f l = Rsum g l.
Proof. induction l as [|a l IH]; intros H; [reflexivity|]. rewrite !Rsum_cons, IH by (intros x I; apply H; right; exact I). rewrite (H a) by (left; reflexivity). reflexivity. Qed.
(** Renormalization. *)
Definition scale_bins (factors : list R) (h : list ValueCount) : list ValueCount := map (fun x => ((fst (fst x) * snd x)%R, snd (fst x))) (combine h factors).
Lemma scale_nth n factors h k : length h = n -> length factors = n -> (k < n)%nat -> nth k (scale_bins factors h) vc0 = (fst (nth k h vc0) * nth k factors 0, snd (nth k h vc0)).
Proof. intros A B K. unfold scale_bins. rewrite (nth_mapped _ _ (vc0, 0)) by (rewrite combine_length; lia). rewrite combine_nth by lia. reflexivity. Qed.
Lemma scale_length n factors h : length h = n -> length factors = n -> length (scale_bins factors h) = n. Proof. intros A B. unfold scale_bins. rewrite map_length, combine_length. lia. Qed.
Lemma scale_column n factors hs k : Forall (fun h => length h = n) hs -> length factors = n -> (k < n)%nat -> column k (map (scale_bins factors) hs) = (fst (column k hs) * nth k factors 0, snd (column k hs)).
Proof.
  intros F L K. induction F as [|h hs Hh F IH]; [cbn; unfold vc0; f_equal; cbn; ring|]. cbn [map]. rewrite !column_cons, IH. rewrite (scale_nth n) by auto. unfold vc_add. cbn [fst snd]. f_equal. ring.
Qed.
Lemma renormalized g threads factors b : good g threads b -> length factors = size g -> exists b', renormalizeBins factors b = Some b' /\ good g threads b' /\ hb_total b' = hb_total b /\ hb_snapshots b' = hb_snapshots b /\
  forall k, (k < size g)%nat -> column k (hb_current b') = (fst (column k (hb_current b)) * nth k factors 0, snd (column k (hb_current b))).
Proof.
  intros (G1 & G2 & G3) L. unfold renormalizeBins. assert (X : forallb (fun h : list ValueCount => (length factors =? length h)%nat) (hb_current b) = true) by (apply forallb_forall; intros h I; rewrite Forall_forall in G3; apply Nat.eqb_eq; rewrite (G3 h I); exact L). rewrite X. eexists. split; [reflexivity|]. cbn [hb_total hb_current hb_snapshots]. split; [|split; [reflexivity|split; [reflexivity|]]].
  - split; [exact G1|]. split; [cbn [hb_current]; rewrite map_length; exact G2|]. cbn [hb_current]. apply Forall_forall. intros h I. apply in_map_iff in I. destruct I as (h0 & <- & I). rewrite Forall_forall in G3. apply (scale_length (size g)); auto.
  - intros k Hk. apply (scale_column (size g)); auto.
Qed.
(** Densities of pairs. *)
Lemma vnorm_ge v : 0 <= vnorm v. Proof. unfold vnorm. apply sqrt_pos. Qed.
Lemma proper_one d : d_min d < d_max d -> (1 <= d_bins d)%nat -> proper [d]. Proof. intros A B. constructor; [split; assumption|constructor]. Qed.
Lemma density_tidy d x : d_min d = 0 -> tidy [d] (density_pair (d_max d)) x.
Proof.
  intros D0. destruct x as [[i j] v]. unfold tidy, density_pair. destruct (i =? j)%nat; [left; reflexivity|]. destruct (Rltb (d_max d) (vnorm v)) eqn:E; [left; reflexivity|]. apply Rltb_false in E. right. exists [vnorm v], (Some 1). split; [reflexivity|]. constructor; [|constructor]. unfold in_range. pose proof (vnorm_ge v). lra.
Qed.
Definition items (b : binning) (point : vec) (sn : snapshot) : list item := match enumeratePairs b point sn with Some l => l | None => [] end.
Lemma density_hits d b point sn k : d_min d = 0 -> 0 < d_max d -> (k < d_bins d)%nat -> constructed (sn_box sn) -> legal_binning b ->
  let l := filter (is_hit [d] k (density_pair (d_max d))) (items b point sn) in NoDup l /\ (forall x, In x l <-> distinct_in_bin point b d k sn x) /\ Rsum (value_of (density_pair (d_max d))) l = INR (length l).
Proof.
  intros D0 D1 Hk Cb Lb l. destruct (enumerated b point sn Cb Lb) as (its & E & N & M). assert (P : proper [d]) by (apply proper_one; [lra|lia]).
  assert (Hs : (k < size [d])%nat) by (rewrite size_one; exact Hk). assert (T : Forall (tidy [d] (density_pair (d_max d))) its) by (apply Forall_forall; intros x _; apply density_tidy; exact D0).
  assert (El : l = filter (is_hit [d] k (density_pair (d_max d))) its) by (unfold l, items; rewrite E; reflexivity). clearbody l. subst l.
  assert (HI := fun x => hits_in [d] k (density_pair (d_max d)) its x P Hs T). rewrite reshape_one in HI by exact Hk.
  split; [apply NoDup_filter; exact N|]. split.
  - intros x. rewrite HI. destruct x as [[i j] v]. rewrite M. unfold distinct_in_bin, density_pair. split.
    + intros ((H & S) & p & w & F & L). destruct (i =? j)%nat eqn:Q; [discriminate|]. apply Nat.eqb_neq in Q. destruct (Rltb (d_max d) (vnorm v)); [discriminate|]. injection F as <- <-. apply located_one in L. split; [lia|]. split; assumption.
    + intros (H & S & L). split; [split; [lia|exact S]|]. pose proof (bin_range d k _ ltac:(lra) L) as R. exists [vnorm v], (Some 1). assert (Q : (i =? j)%nat = false) by (apply Nat.eqb_neq; lia). rewrite Q. rewrite (proj2 (Rltb_false _ _)) by lra. split; [reflexivity|]. apply located_one. exact L.
  - transitivity (Rsum (fun _ : item => 1) (filter (is_hit [d] k (density_pair (d_max d))) its)); [|rewrite Rsum_const; ring]. apply sum_cong. intros x I. apply HI in I. destruct I as (_ & p & w & F & _). unfold value_of. rewrite F. destruct x as [[i j] v]. unfold density_pair in F. destruct (i =? j)%nat; [discriminate|]. destruct (Rltb _ _); [discriminate|]. injection F as _ <-. reflexivity.
Qed.
Lemma density_step d b point threads sn s h : d_min d = 0 -> 0 < d_max d -> (1 <= d_bins d)%nat -> legal_binning b -> density_scheduled d b point threads (sn, s) -> good [d] threads h ->
  (forall k, (k < d_bins d)%nat -> column k (hb_current h) = (0, 0%nat)) ->
  exists h', density_snapshot d b sn s h = Some h' /\ good [d] threads h' /\ hb_snapshots h' = (hb_snapshots h + 1)%nat /\ (forall k, (k < d_bins d)%nat -> column k (hb_current h') = (0, 0%nat)) /\
    forall k, (k < d_bins d)%nat -> exists x, density_part d b point k (sn, s) x /\
      nth k (hb_total h') vc0 = (fst (nth k (hb_total h) vc0) + relative_density sn (fst x) (snd x), (snd (nth k (hb_total h) vc0) + fst x)%nat).
Proof.
  intros D0 D1 B Lb [Ls (w & W & Sc)] G Z. cbn [fst snd] in *. pose proof Ls as [Cb Ne]. assert (P : proper [d]) by (apply proper_one; [lra|lia]). unfold density_work in W. destruct (enumerated b point sn Cb Lb) as (its & E & N & M). rewrite E in W. cbn [option_map] in W. injection W as <-.
  assert (T : Forall (tidy [d] (density_pair (d_max d))) its) by (apply Forall_forall; intros x _; apply density_tidy; exact D0).
  destruct (schedule_tally [d] threads _ its s P T Sc) as (La & _ & Ta). destruct (adds_column [d] threads _ P La h G) as (h1 & E1 & G1 & T1 & S1 & C1).
  destruct (expected_numbers d b sn D0 D1 B Ls Lb) as (es & E2 & L2 & V2). unfold density_snapshot. rewrite E1, E2.
  assert (X1 : existsb (fun e => Reqb e 0) es = false).
  { destruct (existsb _ es) eqn:Q; [|reflexivity]. apply existsb_exists in Q. destruct Q as (e & I & Q). apply Reqb_true in Q. subst e. apply (In_nth _ _ 0) in I. destruct I as (k & Hk & Ek). rewrite L2 in Hk. destruct (V2 k Hk) as (V & _ & Vp & Ev). rewrite Ek in Ev. pose proof (density_pos sn Ls) as Dp. unfold getNumberDensity in Dp. pose proof (Rmult_lt_0_compat _ _ Dp Vp). lra. }
  assert (X2 : (length (sn_shapes sn) =? 0)%nat = false) by (apply Nat.eqb_neq; destruct (sn_shapes sn); [contradiction|cbn; lia]). rewrite X1, X2. cbn [orb].
  destruct (renormalized [d] threads (map (fun factor => 2 / factor / INR (length (sn_shapes sn))) es) h1 G1) as (h2 & E3 & G2 & T2 & S2 & C2); [rewrite map_length, size_one; exact L2|]. rewrite E3.
  pose proof (next_good [d] threads 0 h2 G2) as G3. exists (nextSnapshot 0 h2). split; [reflexivity|]. split; [exact G3|]. split; [cbn [nextSnapshot hb_snapshots]; lia|]. split.
  - intros k Hk. destruct G2 as (_ & A & F). cbn [nextSnapshot hb_current]. rewrite (clear_column (size [d])) by (auto; rewrite size_one; exact Hk). f_equal. ring.
  - intros k Hk. assert (Hs : (k < size [d])%nat) by (rewrite size_one; exact Hk). destruct (V2 k Hk) as (V & Sh & Vp & Ev). destruct (density_hits d b point sn k D0 D1 Hk Cb Lb) as (Nh & Mh & Sh1). unfold items in *. rewrite E in *. set (l := filter _ its) in *. exists (length l, V). split; [split; [exists l; auto|exact Sh]|].
    destruct (Ta k Hs) as [Tk _]. specialize (C1 k _ _ Hs Tk). fold l in C1. rewrite Z in C1 by exact Hk. cbn [fst snd] in C1. specialize (C2 k Hs). rewrite C1 in C2. cbn [fst snd] in C2. cbn [nextSnapshot hb_total]. destruct G2 as (A1 & A2 & A3). rewrite (proj1 (total_nth (size [d]) k (hb_current h2) A3 Hs (hb_total h2) A1)), C2, T2, T1. unfold vc_add. cbn [fst snd]. f_equal. f_equal. rewrite (nth_mapped _ _ 0) by (rewrite L2; exact Hk). rewrite Sh1, Ev. unfold relative_density.
    apply constructed_valid in Cb. pose proof (volume_pos _ Cb). apply Nat.eqb_neq in X2. assert (0 < INR (length (sn_shapes sn))) by (apply lt_0_INR; lia). cbv zeta. field. repeat split; lra.
Qed.
Lemma density_loop d b point threads history : d_min d = 0 -> 0 < d_max d -> (1 <= d_bins d)%nat -> legal_binning b -> Forall (density_scheduled d b point threads) history -> forall h, good [d] threads h ->
  (forall k, (k < d_bins d)%nat -> column k (hb_current h) = (0, 0%nat)) ->
  exists h', density_run d b history h = Some h' /\ good [d] threads h' /\ hb_snapshots h' = (hb_snapshots h + length history)%nat /\
    forall k, (k < d_bins d)%nat -> exists parts, Forall2 (density_part d b point k) history parts /\
      nth k (hb_total h') vc0 = (fst (nth k (hb_total h) vc0) + density_terms history parts, (snd (nth k (hb_total h) vc0) + list_sum (map fst parts))%nat).
Proof.
  intros D0 D1 B Lb F. induction F as [|[sn s] history Hh F IH]; intros h G Z; cbn [density_run].
  - exists h. split; [reflexivity|]. split; [exact G|]. split; [cbn; lia|]. intros k Hk. exists []. split; [constructor|]. destruct (nth k (hb_total h) vc0). unfold density_terms. cbn. f_equal; [lra|lia].
  - destruct (density_step d b point threads sn s h D0 D1 B Lb Hh G Z) as (h1 & E1 & G1 & S1 & Z1 & C1). rewrite E1. destruct (IH h1 G1 Z1) as (h' & E' & G' & S' & C'). exists h'. split; [exact E'|]. split; [exact G'|]. split; [rewrite S', S1; cbn [length]; lia|]. intros k Hk. destruct (C1 k Hk) as (x & Px & Ex). destruct (C' k Hk) as (parts & Pp & Ep). exists (x :: parts). split; [constructor; assumption|]. rewrite Ep, Ex. unfold density_terms. cbn [combine map list_sum fst snd]. rewrite Rsum_cons. cbn [fst snd list_sum fold_right]. f_equal; [lra|]. unfold list_sum. cbn [fold_right]. lia.
Qed.
Theorem density_spec d b point threads history : d_min d = 0 -> 0 < d_max d -> (1 <= d_bins d)%nat -> legal_binning b -> Forall (density_scheduled d b point threads) history -> history <> [] ->
  exists h0 h, build [d] threads 0 = Some h0 /\ density_run d b history h0 = Some h /\ length (dumpHistogram 0 SUM h) = d_bins d /\
    forall k, (k < d_bins d)%nat -> exists parts, Forall2 (density_part d b point k) history parts /\
      nth k (dumpHistogram 0 SUM h) (None, 0%nat) = (Some (density_terms history parts / INR (length history)), list_sum (map fst parts)).
Proof.
  intros D0 D1 B Lb F Ne. assert (P : proper [d]) by (apply proper_one; [lra|lia]). destruct (create_some [d] 0 P) as [Ec _]. unfold build. rewrite Ec. eexists. set (h0 := Builder _ _ _). destruct (density_loop d b point threads history D0 D1 B Lb F h0) as (h & E & G & S & C).
  - split; [apply repeat_length|]. split; [apply repeat_length|]. apply Forall_forall. intros x I. apply repeat_spec in I. subst. apply repeat_length.
  - intros k Hk. unfold h0. cbn [hb_current]. rewrite column_repeat by (rewrite size_one; exact Hk). f_equal. ring.
  - exists h. split; [reflexivity|]. split; [exact E|]. assert (Sn : (hb_snapshots h =? 0)%nat = false) by (apply Nat.eqb_neq; rewrite S; cbn; destruct history; [contradiction|cbn; lia]). split.
    + unfold dumpHistogram. rewrite Sn, map_length. destruct G as (G & _). etransitivity; [exact G|apply size_one].
    + intros k Hk. destruct (C k Hk) as (parts & Pp & Ep). exists parts. split; [exact Pp|]. rewrite dumped by (destruct G as (G & _); rewrite G, size_one; exact Hk). rewrite Sn, Ep, S. unfold h0. cbn [hb_total hb_snapshots]. rewrite nth_repeat_lt by (rewrite size_one; exact Hk). cbn [fst snd]. rewrite Rplus_0_l, Nat.add_0_l. reflexivity.
Qed.
