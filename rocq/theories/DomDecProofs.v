(** The whole decomposition: which particles are in which domain, and how far apart domains are. *)
From Coq Require Import Reals ZArith List Bool Lia Lra.
From Verif Require Import GeomModel BoxModel BoxSpec RFloorModel PbcModel PbcSpec NGModel NGSpec GeomProofs BoxProofs RFloorProofs PbcProofs NGListProofs NGProofs.
From Verif Require Import PackModel PackSpec PackCountProofs DomModel DomSpec DomProofs.
Import ListNotations.
Open Scope R_scope.

(** *** Indices *)
Lemma coordToIdx_valid div c : valid_coords div c ->
  coordToIdx div c = Some (div AZ * (div AY * c AX + c AY) + c AZ)%nat /\
  (div AZ * (div AY * c AX + c AY) + c AZ < num_domains div)%nat.
Proof.
  intros H. pose proof (H AX). pose proof (H AY). pose proof (H AZ). unfold coordToIdx, num_domains.
  destruct (Nat.ltb_spec (c AX) (div AX)); [|lia]. destruct (Nat.ltb_spec (c AY) (div AY)); [|lia].
  destruct (Nat.ltb_spec (c AZ) (div AZ)); [|lia]. cbn [andb]. rewrite Nat.mul_0_r, Nat.add_0_l. split; auto.
  assert (E : (S (div AY * c AX + c AY) <= div AX * div AY)%nat).
  { pose proof (Nat.mul_le_mono_l (S (c AX)) (div AX) (div AY) ltac:(lia)). lia. }
  pose proof (Nat.mul_le_mono_l _ _ (div AZ) E). lia.
Qed.
Lemma digits_inj q a b a' b' : (b < q)%nat -> (b' < q)%nat -> (q * a + b = q * a' + b')%nat -> a = a' /\ b = b'.
Proof. intros Hb Hb' E. assert (a = a') by nia. nia. Qed.
Lemma coordToIdx_inj div c c' i : valid_coords div c -> valid_coords div c' ->
  coordToIdx div c = Some i -> coordToIdx div c' = Some i -> forall a, c a = c' a.
Proof.
  intros H H' E E'. rewrite (proj1 (coordToIdx_valid div c H)) in E. rewrite (proj1 (coordToIdx_valid div c' H')) in E'.
  assert (X : (div AZ * (div AY * c AX + c AY) + c AZ = div AZ * (div AY * c' AX + c' AY) + c' AZ)%nat) by congruence.
  apply digits_inj in X; auto. destruct X as [X Z]. apply digits_inj in X; auto. destruct X as [X Y]. intros [| |]; auto.
Qed.
Lemma coordToIdx_surj div d : (d < num_domains div)%nat -> exists c, valid_coords div c /\ coordToIdx div c = Some d.
Proof.
  unfold num_domains. intros H. assert (0 < div AX /\ 0 < div AY /\ 0 < div AZ)%nat as (HX & HY & HZ) by nia.
  set (c := fun a => match a with AX => (d / div AZ / div AY)%nat | AY => ((d / div AZ) mod div AY)%nat | AZ => (d mod div AZ)%nat end).
  assert (V : valid_coords div c).
  { intros [| |]; cbn [c].
    - apply Nat.div_lt_upper_bound; [lia|]. apply Nat.div_lt_upper_bound; [lia|]. nia.
    - apply Nat.mod_upper_bound. lia.
    - apply Nat.mod_upper_bound. lia. }
  exists c. split; auto. rewrite (proj1 (coordToIdx_valid div c V)). f_equal. cbn [c].
  rewrite <- Nat.div_mod by lia. rewrite <- Nat.div_mod by lia. reflexivity.
Qed.

(** *** Distribution of particles *)
Lemma push_all_spec doms : forall regions, (forall i d, In (i, Some d) doms -> (d < length regions)%nat) ->
  exists r, push_all doms regions = Some r /\ length r = length regions /\
  forall d l, nth_error regions d = Some l ->
    nth_error r d = Some (l ++ map fst (filter (fun x => match snd x with Some e => Nat.eqb e d | None => false end) doms)).
Proof.
  induction doms as [|[i [d|]] doms IH]; intros regions H; cbn [push_all].
  - exists regions. split; auto. split; auto. intros d l Hl. simpl. rewrite app_nil_r. auto.
  - pose proof (H i d (or_introl eq_refl)) as Hd. destruct (nth_error regions d) as [l0|] eqn:E0; [|apply nth_error_None in E0; lia].
    cbn [obind]. destruct (set_nth_Some regions d (l0 ++ [i]) Hd) as (r' & Er). rewrite Er. cbn [obind].
    pose proof (set_nth_length _ _ _ _ Er) as Lr.
    destruct (IH r') as (r & E & L & G). { intros i' d' H'. rewrite Lr. apply (H i' d'). right; auto. }
    exists r. split; auto. split; [congruence|]. intros d' l Hl. cbn [filter snd].
    pose proof (set_nth_get _ _ _ _ d' Er) as Hg. destruct (Nat.eqb_spec d' d) as [->|Hne].
    + rewrite Nat.eqb_refl. cbn [map fst]. rewrite (G d _ Hg). assert (l = l0) as -> by congruence. rewrite <- app_assoc. reflexivity.
    + destruct (Nat.eqb_spec d d'); [congruence|]. apply G. congruence.
  - destruct (IH regions) as (r & E & L & G). { intros i' d' H'. apply (H i' d'). right; auto. }
    exists r. split; auto.
Qed.

Lemma filter_enum {A} (f : A -> bool) (l : list A) d m :
  map fst (filter (fun x : nat * A => f (snd x)) (combine (seq m (length l)) l)) =
  filter (fun i => f (nth (i - m) l d)) (seq m (length l)).
Proof.
  revert m. induction l as [|x l IH]; intros m; auto. cbn [length seq combine filter snd].
  assert (E : filter (fun i => f (nth (i - m) (x :: l) d)) (seq (S m) (length l)) = filter (fun i => f (nth (i - S m) l d)) (seq (S m) (length l))).
  { apply filter_ext_in. intros i Hi. apply in_seq in Hi. replace (i - m)%nat with (S (i - S m)) by lia. reflexivity. }
  rewrite E, <- IH, Nat.sub_diag. cbn [nth]. destruct (f x); reflexivity.
Qed.

(** *** Active regions *)
Section Dec.
Variables (b : box) (div : axis -> nat) (bs : axis -> list bounds) (ng : axis -> Z) (g : axis -> R) (originRel : vec)
  (cells : axis -> nat -> Z).
Hypothesis Hdiv : forall a, (1 <= div a)%nat.
Hypothesis Hng : forall a, (1 <= ng a)%Z.
Hypothesis Hg : forall a, 1 / IZR (ng a) <= g a.
Hypothesis Ho : forall a, 0 <= vget originRel a < 1.
Hypothesis HD : forall a, (2 <= div a)%nat -> axis_done (vget originRel a) (g a) (div a) (ng a) (bs a) (cells a).

Definition act (a : axis) (k : nat) (x : R) : bool :=
  if Nat.ltb (div a) 2 then true else match nth_error (bs a) k with Some bd => between bd x | None => false end.
Lemma axis_active_act v c a : (c a < div a)%nat -> axis_active div bs v c a = Some (act a (c a) (vget v a)).
Proof.
  intros Hc. unfold axis_active, act. destruct (Nat.ltb_spec (c a) (div a)); [|lia]. cbn [negb].
  destruct (Nat.ltb_spec (div a) 2); auto. destruct (HD a ltac:(lia)) as (_ & _ & _ & H'). destruct (H' (c a) Hc) as (bd & -> & _). reflexivity.
Qed.
Lemma region_act v c : valid_coords div c ->
  isRelativeVectorInActiveRegion div bs v c = Some (act AX (c AX) (vx v) && act AY (c AY) (vy v) && act AZ (c AZ) (vz v))%bool.
Proof.
  intros Hc. unfold isRelativeVectorInActiveRegion. rewrite !axis_active_act by auto. cbn [obind vget].
  destruct (act AX (c AX) (vx v)); cbn [negb andb]; auto. destruct (act AY (c AY) (vy v)); reflexivity.
Qed.
Lemma act_spec a k x : (k < div a)%nat -> 0 <= x < 1 ->
  act a k x = true <-> ((2 <= div a)%nat -> between_ghosts (ng a) (cells a) (g a) k x).
Proof.
  intros Hk Hx. unfold act. destruct (Nat.ltb_spec (div a) 2) as [H2|H2]; [split; intros; [lia|auto]|].
  destruct (HD a H2) as (_ & _ & _ & H'). destruct (H' k Hk) as (bd & -> & Hb). rewrite (Hb x Hx). tauto.
Qed.
Lemma coord_valid r : valid_coords div (domain_coord div originRel r).
Proof.
  intros a. unfold domain_coord. pose proof (Hdiv a). set (n := Z.of_nat (div a)).
  assert (Hn : (0 < n)%Z) by (unfold n; lia). pose proof (Z.mod_pos_bound (Rfl ((vget r a - vget originRel a) * IZR n) + n) n Hn). unfold n in *. lia.
Qed.
Lemma act_coord a k r : (k < div a)%nat -> 0 <= vget r a < 1 -> act a k (vget r a) = true -> domain_coord div originRel r a = k.
Proof.
  intros Hk Hx H. destruct (Nat.lt_ge_cases (div a) 2) as [H2|H2].
  - assert (E : div a = 1%nat) by (pose proof (Hdiv a); lia). pose proof (coord_valid r a). lia.
  - apply act_spec in H; auto. destruct (HD a H2) as (HG & _ & Hgap & _).
    unfold domain_coord. apply (d_coord (vget originRel a) (g a) (div a) (ng a) (cells a)); auto.
Qed.

Definition in_region (c : axis -> nat) (p : vec) : bool :=
  let r := absoluteToRelative b p in (act AX (c AX) (vx r) && act AY (c AY) (vy r) && act AZ (c AZ) (vz r))%bool.
Lemma in_region_act c p : in_region c p = true <-> forall a, act a (c a) (vget (absoluteToRelative b p) a) = true.
Proof.
  unfold in_region. cbv zeta. rewrite !andb_true_iff. split.
  - intros [[H1 H2] H3] [| |]; auto.
  - intros H. split; [split|]; [apply (H AX)|apply (H AY)|apply (H AZ)].
Qed.
Lemma region_coord c p : valid_coords div c -> in_box b p -> in_region c p = true ->
  forall a, domain_coord div originRel (absoluteToRelative b p) a = c a.
Proof. intros Hc Hp H a. rewrite in_region_act in H. apply act_coord; auto. Qed.

Lemma particle_domain_spec p : in_box b p ->
  exists od, particle_domain b div bs originRel p = Some od /\
    match od with
    | Some i => (i < num_domains div)%nat
    | None => True
    end /\
    forall c, valid_coords div c -> forall i, coordToIdx div c = Some i ->
      (match od with Some e => Nat.eqb e i | None => false end) = in_region c p.
Proof.
  intros Hp. unfold particle_domain. cbv zeta. set (r := absoluteToRelative b p). pose proof (coord_valid r) as Hv.
  rewrite (region_act r _ Hv). cbn [obind]. destruct (coordToIdx_valid div _ Hv) as [Ei Hi].
  change (act AX (domain_coord div originRel r AX) (vx r) && act AY (domain_coord div originRel r AY) (vy r) &&
          act AZ (domain_coord div originRel r AZ) (vz r))%bool with (in_region (domain_coord div originRel r) p).
  assert (Hne : forall c, valid_coords div c -> in_region c p = true -> in_region (domain_coord div originRel r) p = true).
  { intros c Hc H. rewrite in_region_act in *. intros a. rewrite (act_coord a (c a)); auto. }
  destruct (in_region (domain_coord div originRel r) p) eqn:E.
  - rewrite Ei. cbn [obind]. eexists. split; [reflexivity|]. split; auto. intros c Hc i Hci.
    destruct (in_region c p) eqn:Ec.
    + apply Nat.eqb_eq. rewrite (proj1 (coordToIdx_valid div c Hc)) in Hci.
      pose proof (region_coord c p Hc Hp Ec) as R. fold r in R. rewrite !R. congruence.
    + apply Nat.eqb_neq. intros X. pose proof (coordToIdx_inj div _ c i Hv Hc ltac:(rewrite Ei, X; auto) Hci) as R.
      enough (in_region c p = true) by congruence. rewrite in_region_act in *. intros a. rewrite <- R. auto.
  - eexists. split; [reflexivity|]. split; auto. intros c Hc i Hci. destruct (in_region c p) eqn:Ec; auto.
    discriminate (Hne c Hc Ec).
Qed.

Lemma populate_spec ps : (forall p, In p ps -> in_box b p) ->
  exists r, populateDomains b div bs originRel ps = Some r /\ length r = num_domains div /\
  forall c i, valid_coords div c -> coordToIdx div c = Some i ->
    nth_error r i = Some (filter (fun j => in_region c (nth j ps vzero)) (seq 0 (length ps))).
Proof.
  intros Hps.
  set (h := fun p => match particle_domain b div bs originRel p with Some od => od | None => None end).
  unfold populateDomains. rewrite (map_opt_all _ h).
  2: { intros p Hp. destruct (particle_domain_spec p (Hps p Hp)) as (od & E & _). unfold h. rewrite E. reflexivity. }
  cbn [obind].
  destruct (push_all_spec (enumerate (map h ps)) (repeat [] (num_domains div))) as (r & E & L & G).
  { intros i d Hin. rewrite repeat_length. unfold enumerate in Hin. apply in_combine_r in Hin. apply in_map_iff in Hin.
    destruct Hin as (p & Ep & Hp). destruct (particle_domain_spec p (Hps p Hp)) as (od & E & Hb & _).
    unfold h in Ep. rewrite E in Ep. subst od. exact Hb. }
  exists r. rewrite repeat_length in L. split; auto. split; auto. intros c i Hc Hi.
  rewrite (G i []).
  2: { pose proof (coordToIdx_valid div c Hc) as [X Y]. rewrite Hi in X. injection X as ->.
       rewrite nth_error_repeat; auto. }
  f_equal. rewrite app_nil_l. unfold enumerate.
  rewrite (filter_enum (fun od => match od with Some e => Nat.eqb e i | None => false end) (map h ps) None 0).
  rewrite map_length. apply filter_ext_in. intros j Hj. apply in_seq in Hj. rewrite Nat.sub_0_r.
  assert (Hin : In (nth j ps vzero) ps) by (apply nth_In; lia).
  rewrite (nth_indep _ None (h vzero)) by (rewrite map_length; lia). rewrite map_nth.
  destruct (particle_domain_spec _ (Hps _ Hin)) as (od & Eod & _ & Hod). unfold h. rewrite Eod. apply Hod; auto.
Qed.

Lemma bounds_spec r c : valid_coords div c ->
  exists ad, getActiveDomainBounds (Decomp b div bs r) c = Some ad /\ ad_box ad = b /\ forall p, isInside ad p = in_region c p.
Proof.
  intros Hc. unfold getActiveDomainBounds.
  assert (A : forall a, exists ob, axis_bounds (Decomp b div bs r) c a = Some ob /\
            forall x, (match ob with None => true | Some bd => between bd x end) = act a (c a) x).
  { intros a. unfold axis_bounds, act; cbn [dd_div dd_bounds]. pose proof (Hc a).
    destruct (Nat.ltb_spec (c a) (div a)); [|lia]. cbn [negb]. destruct (Nat.ltb_spec (div a) 2).
    - exists None. auto.
    - destruct (HD a ltac:(lia)) as (_ & _ & _ & H'). destruct (H' (c a) ltac:(auto)) as (bd & -> & _). cbn [obind]. exists (Some bd). auto. }
  destruct (A AX) as (x & -> & X). destruct (A AY) as (y & -> & Y). destruct (A AZ) as (z & -> & Z). cbn [obind].
  eexists. split; [reflexivity|]. split; [reflexivity|]. intros p. unfold isInside, in_region. cbn [ad_box ad_bounds vget]. cbv zeta.
  rewrite X, Y, Z. reflexivity.
Qed.
End Dec.
