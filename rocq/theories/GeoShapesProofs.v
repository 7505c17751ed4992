From Coq Require Import Reals ZArith List Bool FinFun Lia Lra Psatz.
From Verif Require Import OptModel TextModel TextProofs GeomModel GeomProofs PbcModel PackSpec RotSpec SegModel SegSpec SegErrorProofs ShapesModel ShapesSpec GeoModel GeoSpec GeoProofs.
Import ListNotations.
Open Scope R_scope.

Definition bead_own (data : list bead) : points := map (fun e => (115%Z :: index_text (fst e), bd_pos (snd e))) (indexed data).
Definition rod_own (data : list rod) : points :=
  flat_map (fun e => [(111%Z :: index_text (fst e), rd_pos (snd e)); (98%Z :: index_text (fst e), vsub (rd_pos (snd e)) (rd_half (snd e)));
                           (101%Z :: index_text (fst e), vadd (rd_pos (snd e)) (rd_half (snd e)))]) (indexed data).
Lemma bead_own_in data n v : In (n, v) (bead_own data) <-> bead_point data n v.
Proof.
  unfold bead_own, bead_point. rewrite in_map_iff. split.
  - intros ([i d]&E&I). cbn in E. injection E as <- <-. exists i, d. apply indexed_in in I. auto.
  - intros (i&d&N&->&->). exists (i, d). split; [reflexivity|]. apply indexed_in, N.
Qed.
Lemma rod_own_in data n v : In (n, v) (rod_own data) <-> rod_point data n v.
Proof.
  unfold rod_own, rod_point. rewrite in_flat_map. split.
  - intros ([i d]&I&E). apply indexed_in in I. exists i, d. split; [exact I|]. cbn [fst snd In] in E. destruct E as [E|[E|[E|[]]]]; injection E as <- <-; auto.
  - intros (i&d&N&E). exists (i, d). split; [apply indexed_in, N|]. cbn [fst snd In]. destruct E as [(->&->)|[(->&->)|(->&->)]]; auto.
Qed.
Lemma bead_own_names data : names (bead_own data) = map (numbered 115) (seq 0 (length data)).
Proof. unfold names, bead_own. rewrite map_map, <- indexed_indices, map_map. reflexivity. Qed.
Lemma bead_own_distinct data : NoDup (names (bead_own data)).
Proof. rewrite bead_own_names. apply Injective_map_NoDup; [|apply seq_NoDup]. intros i j E. apply numbered_inj in E. tauto. Qed.
Lemma rod_own_distinct data : NoDup (names (rod_own data)).
Proof.
  unfold names, rod_own. rewrite flat_map_concat_map, concat_map, map_map, <- flat_map_concat_map.
  apply (NoDup_flat_map (fun e => index_text (fst e)) _ (fun n => tl n)).
  - rewrite <- (map_map fst index_text), indexed_indices. apply Injective_map_NoDup; [|apply seq_NoDup]. intros i j E. apply decimal_nat_inj, E.
  - intros [i d] _. cbn. repeat constructor; cbn; intros H; repeat destruct H as [H|H]; try discriminate H; exact H.
  - intros [i d] y _ Y. cbn in Y. destruct Y as [<-|[<-|[<-|[]]]]; reflexivity.
Qed.
Lemma some_pair_spec {A} (test : A -> A -> bool) l : some_pair test l = true <-> exists i j x y, (i < j)%nat /\ nth_error l i = Some x /\ nth_error l j = Some y /\ test x y = true.
Proof.
  induction l as [|a l IH]; cbn [some_pair].
  - split; [discriminate|]. intros (i&j&x&y&_&H&_). destruct i; discriminate.
  - rewrite orb_true_iff, IH, existsb_exists. split.
    + intros [(y&Y&T)|(i&j&x&y&L&X&Y&T)].
      * apply In_nth_error in Y. destruct Y as (j&J). exists 0%nat, (S j), a, y. repeat split; auto. lia.
      * exists (S i), (S j), x, y. repeat split; auto. lia.
    + intros (i&j&x&y&L&X&Y&T). destruct j as [|j]; [lia|]. destruct i as [|i].
      * left. cbn in X. injection X as ->. exists y. split; [eapply nth_error_In; exact Y|exact T].
      * right. exists i, j, x, y. repeat split; auto. lia.
Qed.
Lemma beads_touch_spec d1 d2 : beads_touch d1 d2 = false <-> (bd_radius d1 + bd_radius d2) ^ 2 <= (1 + / 10 ^ 12) * distance (bd_pos d1) (bd_pos d2) ^ 2.
Proof.
  unfold beads_touch. rewrite Rltb_false. unfold distance. replace (vnorm (vsub (bd_pos d1) (bd_pos d2)) ^ 2) with (vnorm2 (vsub (bd_pos d1) (bd_pos d2))) by (rewrite <- vnorm_sqr; ring).
  set (t := / 10 ^ 12). clearbody t. lra.
Qed.
Lemma overlap_apart data : spheresOverlap data = false <-> apart data.
Proof.
  unfold spheresOverlap. split.
  - intros H i j d1 d2 L X Y. apply beads_touch_spec. destruct (beads_touch d1 d2) eqn:T; [|reflexivity]. assert (some_pair beads_touch data = true) by (apply some_pair_spec; exists i, j, d1, d2; auto). congruence.
  - intros H. destruct (some_pair beads_touch data) eqn:E; [|reflexivity]. apply some_pair_spec in E. destruct E as (i&j&x&y&L&X&Y&T). specialize (H i j x y L X Y). apply beads_touch_spec in H. congruence.
Qed.
Lemma fold_sum {A} (f : A -> R) l : forall s, fold_left (fun v d => v + f d) l s = s + Rsum f l.
Proof. induction l as [|x l IH]; intros s; cbn [fold_left]; [unfold Rsum; cbn; ring|]. rewrite IH. unfold Rsum. cbn [fold_right]. ring. Qed.
Lemma beads_volume_spec data : (beads_volume data <> None <-> apart data) /\ forall v, beads_volume data = Some v -> v = Rsum (fun d => ball_volume (bd_radius d)) data.
Proof.
  unfold beads_volume. pose proof (overlap_apart data) as O. destruct (spheresOverlap data) eqn:E.
  - split; [|discriminate]. split; [congruence|]. intros H. apply O in H. discriminate.
  - split; [split; [intros _; apply O; reflexivity|discriminate]|]. intros v H. injection H as <-.
    rewrite (fold_sum (fun d => 4 * PI / 3 * bd_radius d * bd_radius d * bd_radius d)). rewrite Rplus_0_l. unfold Rsum. clear E O. induction data as [|d data IH]; cbn [fold_right]; [reflexivity|]. rewrite IH. unfold ball_volume. f_equal. field.
Qed.
Lemma positive_beads data : forallb (fun d => Rltb 0 (bd_radius d)) data = true <-> Forall (fun d => 0 < bd_radius d) data.
Proof. rewrite forallb_forall, Forall_forall. split; intros H x X; apply Rltb_true, H, X. Qed.
Lemma positive_rods data : forallb (fun d => Rltb 0 (rd_radius d)) data = true <-> Forall (fun d => 0 < rd_radius d) data.
Proof. rewrite forallb_forall, Forall_forall. split; intros H x X; apply Rltb_true, H, X. Qed.

Lemma polysphere_geometry_spec data primary secondary origin volume custom :
  ((exists g, polysphere_geometry data primary secondary origin volume custom = Some g) <->
   data <> [] /\ Forall (fun d => 0 < bd_radius d) data /\ proper_axes primary secondary /\ (volume = None -> apart data) /\
   NoDup (names custom) /\ forall i, (i < length data)%nat -> ~ In (numbered 115 i) (names custom)) /\
  forall g, polysphere_geometry data primary secondary origin volume custom = Some g ->
    g_data g = data /\ direction_of primary (g_primary g) /\ direction_of secondary (g_secondary g) /\ g_origin g = origin /\
    g_volume g = (match volume with Some v => v | None => Rsum (fun d => ball_volume (bd_radius d)) data end) /\
    getNamedPoints g = ([111%Z], mvec mid origin) :: map (fun e => (numbered 115 (fst e), bd_pos (snd e))) (combine (seq 0 (length data)) data) ++ custom /\ NoDup (names (g_points g)).
Proof.
  unfold polysphere_geometry. destruct (forallb (fun d => Rltb 0 (bd_radius d)) data) eqn:F.
  2: { split; [split; [intros (?&?); discriminate|]|discriminate]. intros (_&P&_). apply positive_beads in P. congruence. }
  apply positive_beads in F. fold (bead_own data).
  destruct (make_spec data primary secondary origin volume (beads_volume data) (bead_own data) custom (bead_own_distinct data)) as (M1&M2). destruct (beads_volume_spec data) as (V1&V2). split.
  - rewrite M1. rewrite V1. rewrite bead_own_names. split.
    + intros (A&B&C&D&E). split; [exact A|]. split; [exact F|]. split; [exact B|]. split; [exact C|]. split; [exact D|]. intros i L. apply E. apply in_map, in_seq. lia.
    + intros (A&_&B&C&D&E). split; [exact A|]. split; [exact B|]. split; [exact C|]. split; [exact D|]. intros n I. apply in_map_iff in I. destruct I as (i&<-&I). apply E. apply in_seq in I. lia.
  - intros g H. destruct (M2 g H) as (A&B&C&D&E&G&N). split; [exact A|]. split; [exact B|]. split; [exact C|]. split; [exact D|]. split; [|split; [|exact N]].
    + destruct volume as [v|]; [congruence|]. apply V2. symmetry. exact E.
    + unfold getNamedPoints, getGeometricOrigin. rewrite D, G. reflexivity.
Qed.
Lemma named_point_spec {D} (g : geometry D) own origin custom : NoDup (names (g_points g)) -> (forall n v, In (n, v) (g_points g) <-> own n v \/ In (n, v) custom) -> g_origin g = origin ->
  forall name v, getNamedPoint g name = Some v <-> point_called own origin custom name v.
Proof.
  intros N P O name v. unfold getNamedPoint, point_called. destruct (text_eqb name o_name) eqn:E.
  - apply text_eqb_eq in E. unfold getGeometricOrigin. cbn [default_shape sh_rot]. rewrite O. replace (mvec mid origin) with origin by (apply vec_ext; cbn; ring). split.
    + intros H. injection H as <-. left. auto.
    + intros [(_&->)|(X&_)]; [reflexivity|contradiction].
  - assert (NE : name <> [111%Z]). { intros ->. discriminate. } split.
    + intros H. right. split; [exact NE|]. apply P. pose proof (find_spec name (g_points g)) as S. rewrite H in S. exact S.
    + intros [(X&_)|(_&X)]; [contradiction|]. apply find_in; [exact N|]. apply P, X.
Qed.
Lemma polysphere_named data primary secondary origin volume custom g : polysphere_geometry data primary secondary origin volume custom = Some g ->
  forall name v, getNamedPoint g name = Some v <-> point_called (bead_point data) origin custom name v.
Proof.
  intros H. destruct (polysphere_geometry_spec data primary secondary origin volume custom) as (_&M). destruct (M g H) as (_&_&_&O&_&P&N).
  apply named_point_spec; [exact N| |exact O]. unfold getNamedPoints in P. apply (f_equal (@tl _)) in P. cbn [tl] in P. intros n v. rewrite P, in_app_iff. pose proof (bead_own_in data n v) as B. unfold bead_own, indexed in B. change (fun e : nat * bead => (115%Z :: index_text (fst e), bd_pos (snd e))) with (fun e : nat * bead => (numbered 115 (fst e), bd_pos (snd e))) in B. tauto.
Qed.
Lemma has_named {D} (g : geometry D) name : hasNamedPoint g name = true <-> exists v, getNamedPoint g name = Some v.
Proof. unfold hasNamedPoint, getNamedPoint. destruct (text_eqb name o_name); [split; eauto|]. destruct (find_point name (g_points g)); split; intros H; eauto; try discriminate. destruct H as (?&H); discriminate. Qed.
Lemma named_rigid {D} (g : geometry D) n1 n2 s p1 p2 q1 q2 : rotation (sh_rot s) -> getNamedPoint g n1 = Some p1 -> getNamedPoint g n2 = Some p2 ->
  getNamedPointForShape g n1 s = Some q1 -> getNamedPointForShape g n2 s = Some q2 -> distance q1 q2 = distance p1 p2.
Proof.
  intros (Rot&_) E1 E2. unfold getNamedPointForShape. rewrite E1, E2. cbn [OptModel.obind]. intros H1 H2. injection H1 as <-. injection H2 as <-. unfold distance, vnorm. f_equal.
  unfold vnorm2. replace (vsub (vadd (sh_pos s) (mvec (sh_rot s) p1)) (vadd (sh_pos s) (mvec (sh_rot s) p2))) with (mvec (sh_rot s) (vsub p1 p2)) by (apply vec_ext; cbn; ring). apply Rot.
Qed.
(** *** The mass centre *)
Lemma Rsum_scale {A} (f : A -> R) k l : Rsum (fun x => k * f x) l = k * Rsum f l.
Proof. unfold Rsum. induction l as [|x l IH]; cbn [fold_right]; [ring|]. rewrite IH. ring. Qed.
Lemma Rsum_add {A} (f h : A -> R) l : Rsum (fun x => f x + h x) l = Rsum f l + Rsum h l.
Proof. unfold Rsum. induction l as [|x l IH]; cbn [fold_right]; [ring|]. rewrite IH. ring. Qed.
Lemma Rsum_ext {A} (f h : A -> R) l : (forall x, In x l -> f x = h x) -> Rsum f l = Rsum h l.
Proof. unfold Rsum. induction l as [|x l IH]; cbn [fold_right]; [reflexivity|]. intros H. rewrite IH by (intros; apply H; right; auto). rewrite H by (left; auto). reflexivity. Qed.
Lemma fold_vec {A} (f : A -> vec) a l : forall s, vget (fold_left (fun v d => vadd v (f d)) l s) a = vget s a + Rsum (fun d => vget (f d) a) l.
Proof. induction l as [|x l IH]; intros s; cbn [fold_left]; [unfold Rsum; cbn; ring|]. rewrite IH, vget_vadd. unfold Rsum. cbn [fold_right]. ring. Qed.
Lemma weight_positive data : data <> [] -> Forall (fun d => 0 < bd_radius d) data -> 0 < Rsum (fun d => bd_radius d * bd_radius d * bd_radius d) data.
Proof.
  intros N F. destruct data as [|d data]; [congruence|]. inversion F as [|? ? F1 F2]; subst. unfold Rsum. cbn [fold_right].
  assert (G : 0 <= fold_right (fun x s => bd_radius x * bd_radius x * bd_radius x + s) 0 data).
  { clear - F2. induction F2 as [|x l X F2 IH]; cbn [fold_right]; [lra|]. assert (0 < bd_radius x * bd_radius x * bd_radius x) by (repeat apply Rmult_lt_0_compat; auto). lra. }
  assert (0 < bd_radius d * bd_radius d * bd_radius d) by (repeat apply Rmult_lt_0_compat; auto). lra.
Qed.
Lemma mass_centre_get data a : vget (calculateMassCentre data) a = / Rsum (fun d => bd_radius d * bd_radius d * bd_radius d) data * Rsum (fun d => bd_radius d * bd_radius d * bd_radius d * vget (bd_pos d) a) data.
Proof.
  unfold calculateMassCentre. rewrite (fold_sum (fun d => bd_radius d * bd_radius d * bd_radius d)), Rplus_0_l. rewrite vget_vscale, (fold_vec (fun d => vscale _ (bd_pos d))). f_equal.
  transitivity (0 + Rsum (fun d => bd_radius d * bd_radius d * bd_radius d * vget (bd_pos d) a) data); [|ring]. f_equal; [destruct a; reflexivity|]. apply Rsum_ext. intros d _. apply vget_vscale.
Qed.
Lemma mass_centre_middle data : data <> [] -> Forall (fun d => 0 < bd_radius d) data -> middle data (calculateMassCentre data).
Proof.
  intros N F a. pose proof (weight_positive data N F) as W. rewrite (Rsum_ext _ (fun d => (4 / 3 * PI) * (bd_radius d * bd_radius d * bd_radius d * vget (bd_pos d) a) + (- (4 / 3 * PI) * vget (calculateMassCentre data) a) * (bd_radius d * bd_radius d * bd_radius d))).
  2: { intros d _. unfold ball_volume. ring. }
  rewrite Rsum_add, !Rsum_scale, mass_centre_get. field. lra.
Qed.
Lemma middle_unique data c c' : data <> [] -> Forall (fun d => 0 < bd_radius d) data -> middle data c -> middle data c' -> c = c'.
Proof.
  intros N F M M'. pose proof (weight_positive data N F) as W. pose proof PI_RGT_0 as Pi.
  assert (G : forall c, middle data c -> forall a, Rsum (fun d => bd_radius d * bd_radius d * bd_radius d * vget (bd_pos d) a) data = vget c a * Rsum (fun d => bd_radius d * bd_radius d * bd_radius d) data).
  { intros x X a. specialize (X a). rewrite (Rsum_ext _ (fun d => (4 / 3 * PI) * (bd_radius d * bd_radius d * bd_radius d * vget (bd_pos d) a) + (- (4 / 3 * PI) * vget x a) * (bd_radius d * bd_radius d * bd_radius d))) in X by (intros; unfold ball_volume; ring).
    rewrite Rsum_add, !Rsum_scale in X. apply (Rmult_eq_reg_l (4 / 3 * PI)); [lra|lra]. }
  apply vec_ext_axis. intros a. pose proof (G c M a) as E. rewrite (G c' M' a) in E. apply Rmult_eq_reg_r in E; [auto|lra].
Qed.
