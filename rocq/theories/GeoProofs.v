From Coq Require Import Reals ZArith NArith DecimalN List Bool Lia Lra Psatz.
From Verif Require Import OptModel TextModel TextProofs GeomModel GeomProofs PbcModel PackSpec RotSpec SegModel SegSpec SegErrorProofs ShapesModel ShapesSpec GeoModel GeoSpec.
Import ListNotations.
Open Scope R_scope.

(** *** Vectors *)
Lemma vnorm2_zero v : vnorm2 v = 0 <-> v = vzero.
Proof.
  split; [|intros ->; unfold vnorm2, vdot; cbn; ring]. intros H. unfold vnorm2, vdot in H.
  pose proof (Rle_0_sqr (vx v)). pose proof (Rle_0_sqr (vy v)). pose proof (Rle_0_sqr (vz v)). unfold Rsqr in *. apply vec_ext; cbn; nra.
Qed.
Lemma Reqb_iff x y : Reqb x y = true <-> x = y.
Proof. unfold Reqb. destruct (Req_EM_T x y); split; intros; congruence. Qed.
Lemma normalized_spec v : match normalized v with Some u => v <> vzero /\ vnorm u = 1 /\ v = vscale (vnorm v) u | None => v = vzero end.
Proof.
  unfold normalized. destruct (Reqb (vnorm2 v) 0) eqn:E.
  - apply Reqb_iff, vnorm2_zero in E. exact E.
  - assert (N : v <> vzero). { intros ->. assert (Reqb (vnorm2 vzero) 0 = true) by (apply Reqb_iff, vnorm2_zero; reflexivity). congruence. }
    assert (P : 0 < vnorm v).
    { destruct (vnorm_nonneg v) as [P|P]; [exact P|]. exfalso. apply N, vnorm2_zero. rewrite <- vnorm_sqr, <- P. ring. }
    split; [exact N|]. split.
    + rewrite vnorm_scale, Rabs_pos_eq by (apply Rlt_le, Rinv_0_lt_compat, P). field. lra.
    + apply vec_ext; cbn; field; lra.
Qed.
Lemma axis_spec a : (a <> Some vzero -> exists u, normalized_axis a = Some u /\ direction_of a u) /\ (forall u, normalized_axis a = Some u -> a <> Some vzero /\ direction_of a u).
Proof.
  destruct a as [v|]; cbn [normalized_axis].
  - pose proof (normalized_spec v) as S. destruct (normalized v) as [u|]; cbn [OptModel.obind].
    + destruct S as (N&U&E). assert (D : direction_of (Some v) (Some u)).
      { split; [exact U|]. exists (vnorm v). split; [|exact E]. destruct (vnorm_nonneg v) as [P|P]; [exact P|]. exfalso. apply N. rewrite E, <- P. apply vec_ext; cbn; ring. }
      split; [intros _; eauto|]. intros u' H. injection H as <-. split; [congruence|exact D].
    + split; [intros N; congruence|intros u H; discriminate].
  - split; [intros _; exists None; split; [reflexivity|exact I]|]. intros u H. injection H as <-. split; [discriminate|exact I].
Qed.
(** *** Named points *)
Lemma find_spec name ps : match find_point name ps with Some v => In (name, v) ps | None => ~ In name (names ps) end.
Proof.
  induction ps as [|[n v] ps IH]; [intros []|]. cbn [find_point]. destruct (text_eqb n name) eqn:E.
  - apply text_eqb_eq in E. subst. left. reflexivity.
  - destruct (find_point name ps) as [w|]; [right; exact IH|]. intros [H|H]; [|exact (IH H)]. cbn in H. subst. rewrite text_eqb_refl in E. discriminate.
Qed.
Lemma find_in name v ps : NoDup (names ps) -> In (name, v) ps -> find_point name ps = Some v.
Proof.
  intros N I. pose proof (find_spec name ps) as S. destruct (find_point name ps) as [w|].
  - f_equal. induction ps as [|[n u] ps IH]; [destruct I|]. cbn in N. inversion N as [|? ? N1 N2]; subst. destruct I as [I|I], S as [S|S].
    + congruence.
    + injection I as <- <-. exfalso. apply N1. apply (in_map fst) in S. exact S.
    + injection S as <- <-. exfalso. apply N1. apply (in_map fst) in I. exact I.
    + auto.
  - exfalso. apply S. apply (in_map fst) in I. exact I.
Qed.
Lemma NoDup_app_comm_cons {A} (l : list A) x r : NoDup (l ++ x :: r) <-> ~ In x l /\ NoDup ((l ++ [x]) ++ r) .
Proof. rewrite <- app_assoc. cbn [app]. split; [|tauto]. intros H. split; [|exact H]. pose proof (NoDup_remove_2 l r x H) as R. rewrite in_app_iff in R. tauto. Qed.
Lemma register_spec new : forall ps r, NoDup (names ps) -> (registerNamedPoints ps new = Some r <-> NoDup (names (ps ++ new)) /\ r = ps ++ new).
Proof.
  induction new as [|p new IH]; intros ps r N; cbn [registerNamedPoints].
  - rewrite app_nil_r. split; [intros H; injection H as <-; auto|intros (_&->); reflexivity].
  - unfold registerNamedPoint. pose proof (find_spec (fst p) ps) as S. destruct (find_point (fst p) ps) as [v|]; cbn [OptModel.obind].
    + split; [discriminate|]. intros (D&_). exfalso. unfold names in D. rewrite map_app in D. cbn [map] in D. apply NoDup_app_comm_cons in D. apply (proj1 D). apply (in_map fst) in S. exact S.
    + assert (NN : NoDup (names (ps ++ [p]))).
      { unfold names. rewrite map_app. cbn [map]. apply (NoDup_Add (a := fst p) (l := map fst ps)); [|split; auto]. rewrite <- (app_nil_r (map fst ps)) at 1. apply Add_app. }
      rewrite IH by exact NN. rewrite <- app_assoc. reflexivity.
Qed.
(** *** Indices *)
Lemma uint_text_inj u : forall v, uint_text u = uint_text v -> u = v.
Proof. induction u; intros v E; destruct v; cbn in E; try discriminate; auto; injection E as E; f_equal; auto. Qed.
Lemma decimal_nat_inj i j : decimal (Z.of_nat i) = decimal (Z.of_nat j) -> i = j.
Proof. unfold decimal. intros H. apply uint_text_inj, Unsigned.to_uint_inj in H. lia. Qed.
Lemma numbered_inj a b i j : numbered a i = numbered b j -> a = b /\ i = j.
Proof. unfold numbered. intros H. injection H as H1 H2. split; [exact H1|apply decimal_nat_inj, H2]. Qed.
Lemma indexed_in {A} (l : list A) i x : In (i, x) (indexed l) <-> nth_error l i = Some x.
Proof.
  unfold indexed. assert (G : forall k, In (i, x) (combine (seq k (length l)) l) <-> (k <= i)%nat /\ nth_error l (i - k) = Some x).
  { induction l as [|y l IH]; intros k; cbn [length seq combine].
    - split; [intros []|]. intros (_&H). destruct (i - k)%nat; discriminate.
    - cbn [In]. rewrite IH. split.
      + intros [H|(H&E)]; [injection H as <- <-; rewrite Nat.sub_diag; auto|]. split; [lia|]. replace (i - k)%nat with (S (i - S k)) by lia. exact E.
      + intros (H&E). destruct (Nat.eq_dec k i) as [->|N]; [left; rewrite Nat.sub_diag in E; injection E as ->; reflexivity|]. right. split; [lia|]. replace (i - k)%nat with (S (i - S k)) in E by lia. exact E. }
  rewrite G. rewrite Nat.sub_0_r. split; [tauto|]. intros H. split; [lia|exact H].
Qed.
Lemma indexed_indices {A} (l : list A) : map fst (indexed l) = seq 0 (length l).
Proof. unfold indexed. generalize 0%nat. induction l as [|x l IH]; intros k; cbn; [reflexivity|]. rewrite IH. reflexivity. Qed.
Lemma NoDup_flat_map {A B C} (key : A -> C) (f : A -> list B) (back : B -> C) l : NoDup (map key l) -> (forall x, In x l -> NoDup (f x)) -> (forall x y, In x l -> In y (f x) -> back y = key x) -> NoDup (flat_map f l).
Proof.
  induction l as [|x l IH]; intros N F K; [constructor|]. cbn [map flat_map] in *. inversion N as [|? ? N1 N2]; subst.
  assert (D : NoDup (flat_map f l)) by (apply IH; [exact N2|intros; apply F; right; auto|intros; apply K; [right; auto|auto]]).
  assert (X : forall y, In y (f x) -> ~ In y (flat_map f l)).
  { intros y Y Z. apply in_flat_map in Z. destruct Z as (z&Z1&Z2). apply N1. rewrite <- (K x y (or_introl eq_refl) Y), (K z y (or_intror Z1) Z2). apply in_map, Z1. }
  specialize (F x (or_introl eq_refl)). clear K IH. induction (f x) as [|y ys IHy]; cbn [app]; [exact D|]. inversion F; subst. constructor.
  - rewrite in_app_iff. intros [H|H]; [contradiction|]. apply (X y); [left; reflexivity|exact H].
  - apply IHy; auto. intros z Z. apply X. right. exact Z.
Qed.
(** *** Construction *)
Lemma NoDup_split {A} (l r : list A) : NoDup (l ++ r) <-> NoDup l /\ NoDup r /\ forall x, In x l -> ~ In x r.
Proof.
  induction l as [|x l IH]; cbn [app]; [split; [intros H; repeat split; auto; constructor|tauto]|]. split.
  - intros H. inversion H as [|? ? H1 H2]; subst. apply IH in H2. destruct H2 as (A1&A2&A3). rewrite in_app_iff in H1. split; [constructor; tauto|]. split; [exact A2|]. intros y [<-|Y]; [tauto|auto].
  - intros (A1&A2&A3). inversion A1; subst. constructor.
    + rewrite in_app_iff. intros [Y|Y]; [contradiction|]. apply (A3 x); [left; reflexivity|exact Y].
    + apply IH. split; [auto|]. split; [auto|]. intros y Y. apply A3. right. exact Y.
Qed.
Lemma make_spec {D} (data : list D) primary secondary origin volume automatic own custom : NoDup (names own) ->
  ((exists g, make_geometry data primary secondary origin volume automatic own custom = Some g) <->
   data <> [] /\ proper_axes primary secondary /\ (volume = None -> automatic <> None) /\ NoDup (names custom) /\ (forall n, In n (names own) -> ~ In n (names custom))) /\
  forall g, make_geometry data primary secondary origin volume automatic own custom = Some g ->
    g_data g = data /\ direction_of primary (g_primary g) /\ direction_of secondary (g_secondary g) /\ g_origin g = origin /\
    Some (g_volume g) = (match volume with Some v => Some v | None => automatic end) /\ g_points g = own ++ custom /\ NoDup (names (g_points g)).
Proof.
  intros N. unfold make_geometry. destruct data as [|x data]; [split; [split; [intros (?&?); discriminate|intros (?&_); congruence]|discriminate]|].
  destruct (match primary, secondary with None, Some _ => true | _, _ => false end) eqn:E.
  { split; [split; [intros (?&?); discriminate|]|discriminate]. intros (_&(P&_)&_). destruct primary; [discriminate|]. rewrite P in E by reflexivity. discriminate. }
  destruct (axis_spec primary) as (P1&P2), (axis_spec secondary) as (S1&S2).
  assert (R0 : registerNamedPoints [] own = Some own) by (apply register_spec; [constructor|auto]).
  destruct (normalized_axis primary) as [p|] eqn:EP; cbn [OptModel.obind].
  2: { split; [split; [intros (?&?); discriminate|]|discriminate]. intros (_&(_&Q&_)&_). destruct (P1 Q) as (?&?&_). discriminate. }
  destruct (P2 p eq_refl) as (P3&P4).
  destruct (normalized_axis secondary) as [s|] eqn:ES; cbn [OptModel.obind].
  2: { split; [split; [intros (?&?); discriminate|]|discriminate]. intros (_&(_&_&Q)&_). destruct (S1 Q) as (?&?&_). discriminate. }
  destruct (S2 s eq_refl) as (S3&S4).
  destruct (match volume with Some v => Some v | None => automatic end) as [v|] eqn:EV; cbn [OptModel.obind].
  2: { split; [split; [intros (?&?); discriminate|]|discriminate]. intros (_&_&Q&_). destruct volume; [discriminate|]. destruct (Q eq_refl). exact EV. }
  rewrite R0. cbn [OptModel.obind].
  assert (PA : proper_axes primary secondary). { split; [|split; [exact P3|exact S3]]. intros ->. destruct secondary; [discriminate|reflexivity]. }
  assert (VA : volume = None -> automatic <> None). { intros ->. congruence. }
  destruct (registerNamedPoints own custom) as [ps|] eqn:ER; cbn [OptModel.obind].
  - apply (register_spec custom own ps N) in ER. destruct ER as (ND&->). split.
    + split; [intros _|intros _; eauto]. unfold names in ND. rewrite map_app in ND. apply NoDup_split in ND. destruct ND as (_&A2&A3). repeat split; auto; try discriminate; apply PA.
    + intros g H. injection H as <-. cbn. repeat split; auto.
  - split; [split; [intros (?&?); discriminate|]|discriminate]. intros (_&_&_&A2&A3).
    assert (X : registerNamedPoints own custom = Some (own ++ custom)). { apply register_spec; [exact N|]. split; [|reflexivity]. unfold names. rewrite map_app. apply NoDup_split. auto. }
    congruence.
Qed.
