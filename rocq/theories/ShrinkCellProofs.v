From Coq Require Import ZArith Reals List Bool Arith Permutation Sorting.Sorted Lra Lia Psatz.
From Verif Require Import TextModel GeomModel GeomProofs BoxModel BoxSpec BoxProofs PbcModel PbcSpec LatticeModel LatticeSpec LatticeProofs LatticeNormProofs PackModel RotModel TransModel TransSpec TransProofs DistModel ShrinkModel ShrinkSpec ShrinkProofs.
Import ListNotations.
Local Open Scope R_scope.

Lemma abind_value {A B} (f : nat -> option (answer A)) (g : A -> nat -> option (answer B)) a r : terminates_with f (Value a) -> terminates_with (g a) r -> terminates_with (fun n => abind (f n) (fun x => g x n)) r.
Proof. intros [n F] [m G]. exists (n + m)%nat. intros fuel L. rewrite F by lia. apply G. lia. Qed.
Lemma abind_violated {A B} (f : nat -> option (answer A)) (g : A -> nat -> option (answer B)) : terminates_with f Violated -> terminates_with (fun n => abind (f n) (fun x => g x n)) Violated.
Proof. intros [n F]. exists n. intros fuel L. rewrite F by exact L. reflexivity. Qed.
Lemma at_once {A} (r : answer A) : terminates_with (fun _ : nat => Some r) r.
Proof. exists O. reflexivity. Qed.
Lemma all_axes_iff p : all_axes p = true <-> forall a, p a = true.
Proof. unfold all_axes. rewrite !andb_true_iff. split; [intros [[X Y] W] []; assumption|auto]. Qed.
Lemma all_axes_false p : all_axes p = false -> exists a, p a = false.
Proof. unfold all_axes. destruct (p AX) eqn:X; [|eauto]. destruct (p AY) eqn:Y; [|eauto]. destruct (p AZ) eqn:W; [|eauto]. discriminate. Qed.
Lemma touching_positive P least f : 0 < least -> touching P least f -> 0 < f.
Proof. intros L [T _]. lra. Qed.
Lemma least_positive range b a : 0 < range -> constructed b -> 0 < least_factor range b a.
Proof. intros R0 C. unfold least_factor. apply Rdiv_lt_0_compat; [apply Rmult_lt_0_compat; [exact R0|exact margin_pos]|]. apply height_pos, constructed_valid, C. Qed.

Lemma no_order s : parseAxisOrder s = None -> ~ (exists a0 a1 a2, (a0 <> a1 /\ a0 <> a2 /\ a1 <> a2) /\ s = [axis_letter a0; axis_letter a1; axis_letter a2]).
Proof. intros P (a0&a1&a2&D&Q). pose proof (proj2 (parse_order s a0 a1 a2) (conj D Q)). congruence. Qed.

Section Pack.
Variables (hard : bool) (range : R) (overlaps : box -> list shape -> bool).
Hypothesis range_pos : 0 < range.

Lemma stages b shapes axes : constructed b -> (forall a, margin * range < box_height b a) -> NoDup axes -> forall g b1, factors_positive g -> scaled b g b1 -> (forall a, In a axes -> vget g a = 1) ->
  let rel := map (fun s => Shape (absoluteToRelative b (sh_pos s)) (sh_rot s)) shapes in
  exists r, terminates_with (fun fuel => fold_left (fun r a => x <-! r ;; shrink_axis range overlaps fuel (box_height b) rel x a) axes (Some (Value b1))) r /\
  match r with Value b2 => exists g', shrunk range overlaps b shapes axes g (Some g') /\ factors_positive g' /\ scaled b g' b2 | Violated => shrunk range overlaps b shapes axes g None end.
Proof.
  intros C H N. induction N as [|a axes NI N IH]; intros g b1 P S1 O rel.
  - exists (Value b1). split; [apply at_once|]. exists g. split; [constructor|auto].
  - assert (HP : 0 < box_height b a) by (apply height_pos, constructed_valid, C).
    assert (LF : least_factor range b a < 1). { unfold least_factor. apply (Rmult_lt_reg_r (box_height b a)); [exact HP|]. unfold Rdiv. rewrite Rmult_assoc, Rinv_l by lra. specialize (H a). lra. }
    destruct (shrink_axis_spec range overlaps range_pos b shapes C g b1 a P S1 (O a (or_introl eq_refl)) HP LF) as (r&T&R0). fold rel in T. destruct r as [b2|].
    + destruct R0 as (f&OV&TG&NM&S2). pose proof (touching_positive _ _ _ (least_positive range b a range_pos C) TG) as FP.
      destruct (IH (put g a (f * margin)) b2) as (r&T'&R1); [apply put_positive; [exact P|apply Rmult_lt_0_compat; [exact FP|exact margin_pos]]|exact S2|intros a' I; rewrite get_put_other by (intros ->; contradiction); apply O; right; exact I|].
      exists r. split.
      * destruct T as [n T], T' as [m T']. exists (n + m)%nat. intros fuel L. cbn [fold_left abind]. rewrite T by lia. apply T'. lia.
      * destruct r as [b3|]; [destruct R1 as (g'&R1&R2&R3); exists g'; split; [econstructor; eassumption|auto]|econstructor; eassumption].
    + exists Violated. split.
      * destruct T as [n T]. exists n. intros fuel L. cbn [fold_left abind]. rewrite T by exact L. clear. induction axes as [|x l IH]; [reflexivity|exact IH].
      * destruct R0 as [R0|(f&TG&M)]; [apply shrunk_loose, R0|eapply shrunk_margin; eassumption].
Qed.
Lemma shrinkPacking_spec b shapes order : constructed b -> exists r, terminates_with (fun fuel => shrinkPacking hard range overlaps fuel b shapes order) r /\
  match r with
  | Value b' => exists a0 a1 a2 g, hard = true /\ different a0 a1 a2 /\ order = [axis_letter a0; axis_letter a1; axis_letter a2] /\ (forall a, margin * range < box_height b a) /\ overlaps b shapes = false /\
      shrunk range overlaps b shapes [a0; a1; a2] (V3 1 1 1) (Some g) /\ factors_positive g /\ scaled b g b'
  | Violated => hard = false \/ ~ (exists a0 a1 a2, (a0 <> a1 /\ a0 <> a2 /\ a1 <> a2) /\ order = [axis_letter a0; axis_letter a1; axis_letter a2]) \/ (exists a, box_height b a <= margin * range) \/ overlaps b shapes = true \/
      exists a0 a1 a2, different a0 a1 a2 /\ order = [axis_letter a0; axis_letter a1; axis_letter a2] /\ (forall a, margin * range < box_height b a) /\ overlaps b shapes = false /\ shrunk range overlaps b shapes [a0; a1; a2] (V3 1 1 1) None
  end.
Proof.
  intros C. unfold shrinkPacking. destruct hard eqn:HE; cbn [validate abind]; [|exists Violated; split; [apply at_once|auto]].
  destruct (all_axes _) eqn:H; cbn [validate abind].
  2:{ exists Violated. split; [apply at_once|]. apply all_axes_false in H as [a H]. apply Rltb_false in H. right. right. left. exists a. exact H. }
  assert (HH : forall a, margin * range < box_height b a) by (intros a; apply Rltb_true; exact (proj1 (all_axes_iff _) H a)).
  destruct (overlaps b shapes) eqn:OV; cbn [negb validate abind]; [exists Violated; split; [apply at_once|auto]|].
  destruct (parseAxisOrder order) as [[[a0 a1] a2]|] eqn:P; cbn [may_throw abind]; [|exists Violated; split; [apply at_once|right; left; apply no_order, P]].
  apply parse_order in P as [D P].
  assert (N : NoDup [a0; a1; a2]) by (destruct D as (D1&D2&D3); repeat (constructor; [cbn; intuition congruence|]); constructor).
  assert (S1 : scaled b (V3 1 1 1) b) by (split; [exact C|intros []; apply vec_ext; cbn; ring]).
  destruct (stages b shapes [a0; a1; a2] C HH N (V3 1 1 1) b one_positive S1 ltac:(intros [] _; reflexivity)) as (r&T&R0). cbn zeta in T.
  exists r. split.
  - destruct T as [n T]. exists n. intros fuel L. specialize (T fuel L). cbn [fold_left abind] in T.
    destruct (shrink_axis range overlaps fuel (box_height b) _ b a0) as [[b0|]|]; cbn [abind] in *; exact T.
  - destruct r as [b'|].
    + destruct R0 as (g&R1&R2&R3). exists a0, a1, a2, g. auto 10.
    + right. right. right. right. exists a0, a1, a2. auto 10.
Qed.

Lemma transformed_box b lb d nb G b' : constructed b -> (forall a, (0 < iget d a)%nat) -> lattice_box_sides b lb d -> constructed lb -> scaled lb G nb -> scaled b G b' -> box_transform (mmul (dims nb) (invdims lb)) b = Some b'.
Proof.
  intros C D SL CL [CN SN] [CB SB]. unfold box_transform. replace (mmul (mmul (dims nb) (invdims lb)) (dims b)) with (dims b').
  { apply valid_box_of_matrix, constructed_valid, CB. }
  apply mat_ext. intros i j. assert (E : mcol (dims b') j = mcol (mmul (mmul (dims nb) (invdims lb)) (dims b)) j); [|apply (f_equal (fun v => vget v i)) in E; destruct i, j; exact E].
  rewrite <- side_col, SB.
  assert (M : forall m m', mcol (mmul m m') j = mvec m (mcol m' j)) by (intros m m'; destruct j; apply vec_ext; cbn; ring). rewrite M, <- side_col, mvec_mmul.
  assert (I0 : INR (iget d j) <> 0) by (apply Rgt_not_eq, lt_0_INR, D).
  assert (Q : box_side b j = vscale (/ INR (iget d j)) (box_side lb j)) by (rewrite SL; apply vec_ext; cbn; field; exact I0).
  rewrite Q at 2. rewrite !mvec_scale. change (mvec (invdims lb) (box_side lb j)) with (absoluteToRelative lb (box_side lb j)).
  assert (U : exists e, box_side lb j = relativeToAbsolute lb e /\ box_side nb j = relativeToAbsolute nb e) by (destruct j; eexists; split; reflexivity). destruct U as (e&U1&U2).
  rewrite U1 at 1. rewrite rel_abs by (apply constructed_valid, CL). change (mvec (dims nb) e) with (relativeToAbsolute nb e). rewrite <- U2, SN, SL. apply vec_ext; cbn; field; exact I0.
Qed.

Lemma cell_spec l b d k order sp : built l b d k -> exists lb molecules r, getLatticeBox l = Some lb /\ generateMolecules l = Some molecules /\ terminates_with (fun fuel => cell_optimization hard range overlaps fuel order sp l) r /\
  match r with
  | Value l' => exists a0 a1 a2 g b', hard = true /\ (a0 <> a1 /\ a0 <> a2 /\ a1 <> a2) /\ order = [axis_letter a0; axis_letter a1; axis_letter a2] /\ (forall c s, in_range c d -> In s (k c) -> in_unit s) /\
      (forall a, margin * range < box_height lb a) /\ overlaps lb molecules = false /\ shrunk range overlaps lb molecules [a0; a1; a2] (V3 1 1 1) (Some g) /\
      (forall a, 0 < vget g a * box_height b a + vget sp a) /\ built l' b' d k /\ lat_regular l' = lat_regular l /\
      (forall a, box_side b' a = vscale (vget g a + vget sp a / box_height b a) (box_side b a)) /\ (forall a, box_height b' a = vget g a * box_height b a + vget sp a)
  | Violated => hard = false \/ ~ (exists a0 a1 a2, (a0 <> a1 /\ a0 <> a2 /\ a1 <> a2) /\ order = [axis_letter a0; axis_letter a1; axis_letter a2]) \/ ~ (forall c s, in_range c d -> In s (k c) -> in_unit s) \/
      (exists a, box_height lb a <= margin * range) \/ overlaps lb molecules = true \/
      exists a0 a1 a2 o, (a0 <> a1 /\ a0 <> a2 /\ a1 <> a2) /\ order = [axis_letter a0; axis_letter a1; axis_letter a2] /\ (forall a, margin * range < box_height lb a) /\ overlaps lb molecules = false /\
        shrunk range overlaps lb molecules [a0; a1; a2] (V3 1 1 1) o /\ match o with Some g => exists a, vget g a * box_height b a + vget sp a <= 0 | None => True end
  end.
Proof.
  intros B. pose proof (built_valid _ _ _ _ B) as V. pose proof (v_constructed _ _ _ _ V) as C. destruct (lattice_box_valid _ _ _ _ V) as (lb&LB&CL&SL). pose proof (generate_valid _ _ _ _ V) as GM.
  set (molecules := contents b k (grid d)) in *. exists lb, molecules.
  pose proof no_order as NP.
  unfold cell_optimization. destruct (parseAxisOrder order) as [o|] eqn:PO; cbn [may_throw abind].
  2:{ exists Violated. repeat split; auto using at_once. }
  destruct hard eqn:HE; cbn [validate abind]; [|exists Violated; repeat split; auto using at_once].
  destruct (isNormalized l) eqn:NM; cbn [validate abind].
  2:{ exists Violated. split; [exact LB|]. split; [exact GM|]. split; [apply at_once|]. right. right. left. intros U. apply (normalized_iff _ _ _ _ V) in U. congruence. }
  rewrite LB, GM. cbn [may_throw abind]. destruct (shrinkPacking_spec lb molecules order CL) as (r&T&R0). rewrite HE in T. destruct r as [nb|].
  2:{ exists Violated. split; [reflexivity|]. split; [reflexivity|]. split.
      - destruct T as [n T]. exists n. intros fuel L. rewrite T by exact L. reflexivity.
      - destruct R0 as [R0|[R0|[R0|[R0|(a0&a1&a2&D&O&H&OV&SH)]]]]; [congruence|auto 10|auto 10|auto 10|]. do 5 right. exists a0, a1, a2, None. auto 10. }
  destruct R0 as (a0&a1&a2&g&_&D&O&H&OV&SH&GP&SN).
  assert (DP : forall a, (0 < iget d a)%nat) by (pose proof (v_positive _ _ _ _ V) as (X&Y&Z); intros []; assumption).
  assert (IP : forall a, 0 < INR (iget d a)) by (intros a; apply lt_0_INR, DP).
  assert (HB : forall a, 0 < box_height b a) by (intros a; apply height_pos, constructed_valid, C).
  assert (HL : forall a, box_height lb a = INR (iget d a) * box_height b a).
  { intros a. rewrite (scaled_heights b (V3 (INR (ix d)) (INR (iy d)) (INR (iz d))) lb C); [destruct a; reflexivity|intros []; [apply (IP AX)|apply (IP AY)|apply (IP AZ)]|]. split; [exact CL|]. intros []; [apply (SL AX)|apply (SL AY)|apply (SL AZ)]. }
  assert (HN : forall a, box_height nb a = vget g a * (INR (iget d a) * box_height b a)) by (intros a; rewrite (scaled_heights lb g nb CL GP SN), HL; reflexivity).
  assert (HNP : forall a, 0 < box_height nb a) by (intros a; rewrite HN; apply Rmult_lt_0_compat; [apply GP|apply Rmult_lt_0_compat; auto]).
  assert (SUM : forall a, box_height nb a + vget sp a * INR (iget d a) = INR (iget d a) * (vget g a * box_height b a + vget sp a)) by (intros a; rewrite HN; ring).
  assert (SG : forall a, 0 < box_height nb a + vget sp a * INR (iget d a) <-> 0 < vget g a * box_height b a + vget sp a).
  { intros a. rewrite SUM. split; [|apply Rmult_lt_0_compat, IP]. intros Q. apply (Rmult_lt_reg_l (INR (iget d a))); [apply IP|]. rewrite Rmult_0_r. exact Q. }
  destruct (all_axes (fun a => Rltb 0 (box_height nb a + vget sp a * INR (iget (lat_dims l) a)))) eqn:AA.
  2:{ exists Violated. split; [reflexivity|]. split; [reflexivity|]. split.
      - destruct T as [n T]. exists n. intros fuel L. rewrite T by exact L. cbn [abind]. rewrite AA. reflexivity.
      - do 5 right. exists a0, a1, a2, (Some g). split; [exact D|]. split; [exact O|]. split; [exact H|]. split; [exact OV|]. split; [exact SH|].
        apply all_axes_false in AA as [a AA]. apply Rltb_false in AA. exists a. rewrite (v_dims _ _ _ _ V) in AA. apply Rnot_lt_le. intros Q. apply SG in Q. lra. }
  assert (POS : forall a, 0 < vget g a * box_height b a + vget sp a) by (intros a; apply SG; apply Rltb_true; rewrite <- (v_dims _ _ _ _ V); exact (proj1 (all_axes_iff _) AA a)).
  set (G := vmake (fun a => vget g a + vget sp a / box_height b a)).
  assert (GG : forall a, vget G a = vget g a + vget sp a / box_height b a) by (intros a; apply vget_vmake).
  assert (GPP : factors_positive G). { intros a. rewrite GG. replace (vget g a + vget sp a / box_height b a) with ((vget g a * box_height b a + vget sp a) / box_height b a) by (field; apply Rgt_not_eq, HB). apply Rdiv_lt_0_compat; auto. }
  destruct (scaled_exists b G C GPP) as (b'&_&SB&HB').
  set (F := vmake (fun a => (box_height nb a + vget sp a * INR (iget d a)) / box_height nb a)).
  assert (FF : forall a, vget F a = (box_height nb a + vget sp a * INR (iget d a)) / box_height nb a) by (intros a; apply vget_vmake).
  assert (FP : factors_positive F) by (intros a; rewrite FF; apply Rdiv_lt_0_compat; [apply SG, POS|apply HNP]).
  destruct (scaled_exists nb F (proj1 SN) FP) as (nb2&EN&SN2&_).
  assert (SNL : scaled lb G nb2).
  { pose proof (scaled_trans _ _ _ _ _ SN SN2) as TR. replace G with (vmake (fun a => vget g a * vget F a)); [exact TR|]. apply vec_ext; unfold vmake; cbn [vx vy vz].
    - change (vx G) with (vget G AX). rewrite FF, GG, SUM, HN. pose proof (GP AX). pose proof (IP AX). pose proof (HB AX). field. repeat split; lra.
    - change (vy G) with (vget G AY). rewrite FF, GG, SUM, HN. pose proof (GP AY). pose proof (IP AY). pose proof (HB AY). field. repeat split; lra.
    - change (vz G) with (vget G AZ). rewrite FF, GG, SUM, HN. pose proof (GP AZ). pose proof (IP AZ). pose proof (HB AZ). field. repeat split; lra. }
  exists (Value (modifyCellBox l b')). split; [reflexivity|]. split; [reflexivity|]. split.
  - destruct T as [n T]. exists n. intros fuel L. rewrite T by exact L. cbn [abind]. rewrite AA. cbn [validate abind]. rewrite (v_dims _ _ _ _ V).
    assert (SE : spaced_box nb d sp = Some nb2) by exact EN. rewrite SE. cbn [may_throw abind].
    rewrite (proj1 (constructed_valid lb) CL). cbn [may_throw abind]. rewrite (v_box _ _ _ _ V), (transformed_box b lb d nb2 G b' C DP SL CL SNL SB). reflexivity.
  - exists a0, a1, a2, g, b'. repeat (split; [assumption || exact (proj1 (normalized_iff _ _ _ _ V) NM) || reflexivity|]).
    split; [apply (built_box l b d k b' B (proj1 SB))|]. split; [reflexivity|]. split.
    + intros a. rewrite (proj2 SB a), GG. reflexivity.
    + intros a. rewrite HB', GG. field. apply Rgt_not_eq, HB.
Qed.
End Pack.
