(** Interaction centres kept by a packing are those of its shapes after every history, for every interaction. *)
From Coq Require Import Reals ZArith List Bool Lia.
From Verif Require Import GeomModel GeomProofs BoxModel BoxSpec BoxProofs PbcModel PbcSpec PbcTotalModel NGModel PackModel PackSpec NGListProofs PackSumProofs PackProofs PackInvProofs PackHistProofs WallSpec.
Import ListNotations.
Open Scope nat_scope.

Section Keep.
Variable inter : interaction.
Definition centred (p : particle) : Prop := pt_rel p = map (mvec (pt_rot p)) (in_centres inter).
Record kept (walls : axis -> bool) (pk : packing) : Prop := Kept {
  k_box : valid_box (pk_box pk);
  k_no : pk_k pk = length (in_centres inter);
  k_parts : Forall centred (pk_parts pk);
  k_wall : forall a, pk_wall pk a = walls a }.

Ltac inv_some :=
  repeat match goal with
  | H : obind ?x _ = Some _ |- _ => destruct x eqn:?; cbn [obind] in H; [|discriminate H]
  | H : Some _ = Some _ |- _ => injection H as H; subst
  | H : None = Some _ |- _ => discriminate H
  | H : (if ?c then _ else _) = Some _ |- _ => destruct c eqn:?
  end.

Lemma rebuild_keeps pk pk' : rebuildNeighbourGrid pk = Some pk' -> exists g, pk' = set_ng pk g.
Proof.
  unfold rebuildNeighbourGrid. cbv zeta. intros H. inv_some; eauto.
Qed.
Lemma setup_keeps walls pk pk' : valid_box (pk_box pk) -> (forall a, pk_wall pk a = walls a) -> setupForInteraction inter pk = Some pk' -> kept walls pk'.
Proof.
  intros V W H. unfold setupForInteraction in H. inv_some;
  match goal with E : rebuildNeighbourGrid _ = Some _ |- _ => destruct (rebuild_keeps _ _ E) as (g&->) end; (split; cbn; auto).
  all: unfold setup_parts; apply Forall_forall; intros p P; apply in_map_iff in P; destruct P as (q&<-&_); reflexivity.
Qed.
Lemma reset_keeps walls shapes b pk pk' : valid_box b -> (forall a, pk_wall pk a = walls a) -> pk_reset shapes b inter pk = Some pk' -> kept walls pk'.
Proof.
  intros V W H. unfold pk_reset in H. destruct (Reqb _ _); [discriminate|]. destruct (negb _); [discriminate|]. destruct shapes; [discriminate|]. destruct (negb _); [discriminate|].
  revert H. apply setup_keeps; auto.
Qed.
Lemma temps_keep walls pk t : kept walls pk -> kept walls (set_temps pk t).
Proof. intros []. split; auto. Qed.
Lemma keep_part walls pk i p : kept walls pk -> nth_error (pk_parts pk) i = Some p -> centred p.
Proof. intros [] H. rewrite Forall_forall in k_parts0. apply k_parts0. eapply nth_error_In; eauto. Qed.
Lemma replace_keeps walls pk touch i p p' d pk' : kept walls pk -> centred p' -> replace_particle pk touch i p p' d = Some pk' -> kept walls pk'.
Proof.
  intros K C H. unfold replace_particle in H.
  destruct (set_nth (pk_parts pk) i p') as [parts|] eqn:E; cbn [obind] in H; [|discriminate].
  assert (F : Forall centred parts) by (eapply set_nth_forall; [apply K|exact C|exact E]).
  assert (K1 : forall g, kept walls (set_ng (set_parts pk parts) g)) by (intros g; destruct K; split; auto).
  assert (K2 : kept walls (set_parts pk parts)) by (destruct K; split; auto).
  cbv zeta in H. destruct (pk_ng pk) as [g|].
  - destruct touch; inv_some; cbn; try (apply K1 || apply K2).
    + destruct (pk_counting _); [|apply K1]. specialize (K1 (Some g1)). destruct K1; split; auto.
    + destruct (pk_counting _); [|apply K2]. destruct K2; split; auto.
  - inv_some. destruct (pk_counting _); [|apply K2]. destruct K2; split; auto.
Qed.

(** The temporary particle left by a successful try *)
Lemma finish_leaves pk th i p tmp d pk1 e : finish_try pk inter th i p tmp d = Some (pk1, e) ->
  exists temps d', pk1 = set_temps pk temps /\ nth_error temps th = Some (Temp i d' tmp).
Proof.
  unfold finish_try. intros H. cbv zeta in H.
  destruct (set_nth (pk_temps pk) th (Temp i d tmp)) eqn:E1; cbn [obind] in H; [|discriminate].
  destruct (calculateMoveOverlapEnergy _ _ _ _ _ _) as [[e0 d']|]; cbn [obind fst snd] in H; [|discriminate].
  destruct (set_nth (pk_temps pk) th (Temp i d' tmp)) as [temps|] eqn:E2; cbn [obind] in H; [|discriminate].
  exists temps, d'. split.
  - destruct e0; [congruence| |congruence].
    destruct (calculateParticleEnergy _ _ _ p); cbn [obind] in H; [|discriminate]. destruct (calculateParticleEnergy _ _ _ tmp); cbn [obind] in H; [|discriminate]. congruence.
  - rewrite (set_nth_get _ _ _ _ th E2), Nat.eqb_refl. reflexivity.
Qed.
Lemma translated_rot b t s : sh_rot (translated b t s) = sh_rot s.
Proof. reflexivity. Qed.
Lemma rotated_centred p r q : centred p -> pt_rot q = mmul r (pt_rot p) -> pt_rel q = map (mvec r) (pt_rel p) -> centred q.
Proof. unfold centred. intros -> E ->. rewrite E, map_map. apply map_ext. intros c. symmetry. apply mvec_mmul. Qed.
Lemma accepted walls o pk pk1 e pk2 : kept walls pk -> (match o with DoTranslation _ _ _ _ _ | DoRotation _ _ _ _ | DoMove _ _ _ _ _ _ => True | _ => False end) ->
  try_op inter o pk = Some (pk1, e) -> passed (op_wanted o) e = true -> accept_op o pk1 = Some pk2 -> kept walls pk2.
Proof.
  intros K O T P A.
  assert (NP : e <> PosInf) by (intros ->; unfold passed in P; rewrite andb_false_r in P; discriminate).
  assert (RF : forall th i tm s, refuse pk th i tm s = Some (pk1, e) -> False).
  { intros th i tm s H. unfold refuse in H. destruct (set_nth _ _ _); cbn [obind] in H; [|discriminate]. congruence. }
  destruct o; try contradiction; cbn [try_op accept_op] in T, A.
  - unfold tryTranslation in T. destruct (negb _); [discriminate|].
    destruct (nth_error (pk_parts pk) i) as [p|] eqn:Ep; cbn [obind] in T; [|discriminate].
    destruct (nth_error (pk_temps pk) thread) as [tm|] eqn:Et; cbn [obind] in T; [|discriminate]. cbv zeta in T.
    destruct (match inside with Some f => _ | None => _ end); [destruct (RF _ _ _ _ T)|].
    destruct (finish_leaves _ _ _ _ _ _ _ _ T) as (temps&d'&->&N).
    unfold acceptTranslation in A. cbn [pk_temps set_temps] in A. rewrite N in A. cbn [obind tm_last tm_part tm_delta] in A. cbn [pk_parts set_temps] in A. rewrite Ep in A. cbn [obind] in A.
    eapply replace_keeps; [apply (temps_keep walls pk temps K)| |exact A]. apply (keep_part walls pk i p K Ep).
  - unfold tryRotation in T. destruct (negb _); [discriminate|].
    destruct (nth_error (pk_parts pk) i) as [p|] eqn:Ep; cbn [obind] in T; [|discriminate].
    destruct (nth_error (pk_temps pk) thread) as [tm|] eqn:Et; cbn [obind] in T; [|discriminate]. cbv zeta in T.
    destruct (finish_leaves _ _ _ _ _ _ _ _ T) as (temps&d'&->&N).
    unfold acceptRotation in A. cbn [pk_temps set_temps] in A. rewrite N in A. cbn [obind tm_last tm_part tm_delta] in A. cbn [pk_parts set_temps] in A. rewrite Ep in A. cbn [obind] in A.
    eapply replace_keeps; [apply (temps_keep walls pk temps K)| |exact A]. eapply rotated_centred; [apply (keep_part walls pk i p K Ep)|reflexivity|reflexivity].
  - unfold tryMove in T. destruct (negb _); [discriminate|].
    destruct (nth_error (pk_parts pk) i) as [p|] eqn:Ep; cbn [obind] in T; [|discriminate].
    destruct (nth_error (pk_temps pk) thread) as [tm|] eqn:Et; cbn [obind] in T; [|discriminate]. cbv zeta in T.
    destruct (match inside with Some f => _ | None => _ end); [destruct (RF _ _ _ _ T)|].
    destruct (finish_leaves _ _ _ _ _ _ _ _ T) as (temps&d'&->&N).
    unfold acceptMove in A. cbn [pk_temps set_temps] in A. rewrite N in A. cbn [obind tm_last tm_part tm_delta] in A. cbn [pk_parts set_temps] in A. rewrite Ep in A. cbn [obind] in A.
    eapply replace_keeps; [apply (temps_keep walls pk temps K)| |exact A]. eapply rotated_centred; [apply (keep_part walls pk i p K Ep)|reflexivity|reflexivity].
Qed.
(** Without acceptance only temporary particles change. *)
Lemma try_leaves o pk pk1 e : (match o with DoTranslation _ _ _ _ _ | DoRotation _ _ _ _ | DoMove _ _ _ _ _ _ => True | _ => False end) ->
  try_op inter o pk = Some (pk1, e) -> exists temps, pk1 = set_temps pk temps.
Proof.
  intros O T.
  assert (RF : forall th i tm s, refuse pk th i tm s = Some (pk1, e) -> exists temps, pk1 = set_temps pk temps).
  { intros th i tm s H. unfold refuse in H. destruct (set_nth _ _ _) as [t|]; cbn [obind] in H; [|discriminate]. exists t. congruence. }
  assert (FT : forall th i p tmp d, finish_try pk inter th i p tmp d = Some (pk1, e) -> exists temps, pk1 = set_temps pk temps).
  { intros th i p tmp d H. destruct (finish_leaves _ _ _ _ _ _ _ _ H) as (t&_&E&_). eauto. }
  destruct o; try contradiction; cbn [try_op] in T; [unfold tryTranslation in T|unfold tryRotation in T|unfold tryMove in T];
  (destruct (negb _); [discriminate|]; destruct (nth_error (pk_parts pk) i) as [p|] eqn:Ep; cbn [obind] in T; [|discriminate];
   destruct (nth_error (pk_temps pk) thread) as [tm|] eqn:Et; cbn [obind] in T; [|discriminate]; cbv zeta in T); eauto;
  destruct (match inside with Some f => _ | None => _ end); eauto.
Qed.
Lemma scaling_leaves walls b pk pk1 e : kept walls pk -> valid_box b -> tryScaling b inter pk = Some (pk1, e) ->
  kept walls pk1 /\ kept walls (revertScaling pk1).
Proof.
  intros K V T. unfold tryScaling in T. destruct (Reqb _ _); [discriminate|]. destruct (negb (Rleb _ _)); [discriminate|].
  destruct (getTotalEnergy pk inter) as [e0|]; cbn [obind] in T; [|discriminate]. cbv zeta in T.
  match type of T with obind ?x _ = _ => destruct x as [pk2|] eqn:R; cbn [obind] in T; [|discriminate] end.
  destruct (rebuild_keeps _ _ R) as (g&E2).
  assert (G : forall n, (kept walls (set_overlaps pk2 n) /\ kept walls (revertScaling (set_overlaps pk2 n))) /\ kept walls pk2 /\ kept walls (revertScaling pk2)).
  { intros n. destruct K as [K1 K2 K3 K4]. assert (F : Forall centred (recalculate_all b (map (fun p => Particle (rescaled (pk_box pk) b (pt_shape p)) (pt_rel p) (pt_abs p)) (pk_parts pk)))).
    { rewrite Forall_forall in *. intros p P. unfold recalculate_all in P. rewrite map_map in P. apply in_map_iff in P. destruct P as (q&<-&Q). apply (K3 q Q). }
    assert (F' : Forall centred (pk_parts (revertScaling pk2))).
    { subst pk2. cbn [revertScaling pk_parts pk_lastBox pk_lastShapes set_ng]. unfold recalculate_all. rewrite map_map, combine_map_l || idtac. clear -K3.
      revert K3. induction (pk_parts pk) as [|p l IH]; intros K3; cbn; constructor; inversion K3; subst; auto. }
    subst pk2. split; split; (split; cbn [set_ng set_overlaps revertScaling pk_box pk_k pk_wall pk_parts pk_lastBox]; auto). }
  assert (S : forall pk', obind (getTotalEnergy pk' inter) (fun f => Some (pk', Fin (f - e0)%R)) = Some (pk1, e) -> pk1 = pk').
  { intros pk' H. destruct (getTotalEnergy pk' inter); cbn [obind] in H; [|discriminate]. congruence. }
  destruct (negb (in_hard inter)); [rewrite (S _ T); apply (G 0%Z)|].
  destruct (pk_counting pk2).
  - destruct (countTotalOverlaps pk2 inter false) as [n|]; cbn [obind] in T; [|discriminate].
    destruct (_ <? 0)%Z; [injection T as <- _; apply (G (Z.of_nat n))|]. destruct (0 <? _)%Z; [injection T as <- _; apply (G (Z.of_nat n))|]. rewrite (S _ T); apply (G (Z.of_nat n)).
  - destruct (_ && _)%bool; [rewrite (S _ T); apply (G 0%Z)|]. destruct (countTotalOverlaps pk2 inter true) as [n|]; cbn [obind] in T; [|discriminate].
    destruct (0 <? n); [injection T as <- _; apply (G 0%Z)|rewrite (S _ T); apply (G 0%Z)].
Qed.
Lemma renormalize_one_keeps walls th i pk r : kept walls pk -> renormalize_one th inter i pk = Some r -> kept walls (fst r).
Proof.
  intros K H. unfold renormalize_one in H. destruct (nth_error (pk_parts pk) i) as [p|] eqn:Ep; cbn [obind] in H; [|discriminate].
  destruct (nth_error (pk_temps pk) th) as [tm|]; cbn [obind] in H; [|discriminate]. cbv zeta in H.
  destruct (set_nth _ _ _) as [t1|]; cbn [obind] in H; [|discriminate]. destruct (calculateMoveOverlapEnergy _ _ _ _ _ _) as [[e d]|]; cbn [obind fst snd] in H; [|discriminate].
  destruct (set_nth _ _ _) as [t2|] eqn:E2; cbn [obind] in H; [|discriminate].
  assert (A : forall pk3, acceptRotation th (set_temps pk t2) = Some pk3 -> kept walls pk3).
  { intros pk3 A. unfold acceptRotation in A. cbn [pk_temps set_temps] in A. rewrite (set_nth_get _ _ _ _ th E2), Nat.eqb_refl in A. cbn [obind tm_last tm_part tm_delta] in A. cbn [pk_parts set_temps] in A. rewrite Ep in A. cbn [obind] in A.
    eapply replace_keeps; [apply (temps_keep walls pk t2 K)| |exact A]. reflexivity. }
  destruct e; [| |injection H as <-; apply temps_keep, K]; (destruct (acceptRotation _ _) as [pk3|] eqn:E3; cbn [obind] in H; [|discriminate]; injection H as <-; apply A; auto).
Qed.
Lemma renormalize_loop_keeps walls th is : forall pk r, kept walls pk -> renormalize_loop th inter is pk = Some r -> kept walls (fst r).
Proof.
  induction is as [|i is IH]; cbn [renormalize_loop]; intros pk r K H; [injection H as <-; exact K|].
  destruct (renormalize_one th inter i pk) as [r1|] eqn:E; cbn [obind] in H; [|discriminate]. destruct (renormalize_loop th inter is (fst r1)) as [r2|] eqn:E'; cbn [obind] in H; [|discriminate].
  injection H as <-. cbn [fst]. apply (IH (fst r1) r2); auto. eapply renormalize_one_keeps; eauto.
Qed.
Definition step_wall (o : pack_op) (walls : axis -> bool) (a : axis) : bool :=
  match o with DoWall a' present => if same_axis a a' then present else walls a | _ => walls a end.
Lemma run_op_keeps n threads c walls o pk pk' : kept walls pk -> legal_pack_op n threads c o -> run_op inter o pk = Some pk' -> kept (step_wall o walls) pk'.
Proof.
  intros K L H.
  assert (M : (match o with DoTranslation _ _ _ _ _ | DoRotation _ _ _ _ | DoMove _ _ _ _ _ _ => True | _ => False end) ->
    match try_op inter o pk with Some (pk1, e) => if passed (op_wanted o) e then accept_op o pk1 else Some (reject_op o pk1) | None => None end = Some pk' -> kept walls pk').
  { intros O H'. destruct (try_op inter o pk) as [[pk1 e]|] eqn:T; [|discriminate]. destruct (passed (op_wanted o) e) eqn:P.
    - exact (accepted walls o pk pk1 e pk' K O T P H').
    - destruct (try_leaves o pk pk1 e O T) as (t&->). injection H' as <-. destruct o; try contradiction; apply temps_keep, K. }
  destruct o; cbn [run_op] in H; [exact (M I H)|exact (M I H)|exact (M I H)|clear M|clear M|clear M|clear M].
  - cbn [try_op] in H. destruct (tryScaling newBox inter pk) as [[pk1 e]|] eqn:T; [|discriminate]. cbn in L. apply constructed_valid in L.
    destruct (scaling_leaves walls newBox pk pk1 e K L T) as [K1 K2]. destruct (passed _ e); cbn [accept_op reject_op] in H; injection H as <-; assumption.
  - unfold toggleOverlapCounting in H. cbv zeta in H. destruct on; [destruct (countTotalOverlaps _ _ _); cbn [obind] in H; [|discriminate]|]; injection H as <-; destruct K; split; auto.
  - injection H as <-. destruct K as [? ? ? W]. split; auto. intros b. cbn. rewrite W. destruct b, a; reflexivity.
  - destruct (renormalizeOrientations thread inter allowOverlaps pk) as [[pk2 m]|] eqn:E; [|discriminate]. injection H as <-. unfold renormalizeOrientations in E. destruct allowOverlaps.
    + match type of E with obind ?x _ = _ => destruct x as [pk3|] eqn:R; cbn [obind] in E; [|discriminate] end. injection E as <- _. eapply reset_keeps; [apply K| |exact R]. apply K.
    + change pk2 with (fst (pk2, m)). eapply renormalize_loop_keeps; [exact K|exact E].
Qed.
Lemma run_ops_keep n threads os : forall c walls pk pk', kept walls pk -> legal_pack_ops n threads c os -> run_ops inter os pk = Some pk' ->
  kept (fun a => fold_left (fun w o => match o with DoWall a' present => if same_axis a a' then present else w | _ => w end) os (walls a)) pk'.
Proof.
  induction os as [|o os IH]; cbn [run_ops legal_pack_ops fold_left]; intros c walls pk pk' K L H; [injection H as <-; exact K|]. destruct L as [L1 L2].
  destruct (run_op inter o pk) as [pk1|] eqn:E; [|discriminate]. pose proof (run_op_keeps n threads c walls o pk pk1 K L1 E) as K1.
  exact (IH _ _ pk1 pk' K1 L2 H).
Qed.
Lemma reachable_kept threads shapes b os pk : reachable threads shapes b inter os pk -> kept (wall_after os) pk.
Proof.
  intros ((C&_)&L&pk0&E0&E). apply constructed_valid in C.
  refine (run_ops_keep _ _ os _ (fun _ => false) pk0 pk _ L E). eapply reset_keeps; [exact C| |exact E0]. reflexivity.
Qed.
End Keep.
