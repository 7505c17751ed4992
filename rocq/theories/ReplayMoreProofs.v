(** The trajectory mode: names of files, parameters, the check of parameters (C76). *)
From Coq Require Import Reals ZArith List Bool Lia ZifyBool ZifyNat.
From Verif Require Import TextModel TextProofs LoadModel SimModel TrjModel TrjSpec TrjPlayProofs DynModel ReplayModel ReplaySpec OptModel.
Import ListNotations.
Open Scope Z_scope.

(** *** Names of bulk files *)
Lemma split_braces : forall len t, (length t <= len)%nat -> exists p ps, Forall no_braces (p :: ps) /\ t = interleave (p :: ps) [123; 125] /\
  (forall name, replaceBraces t name = interleave (p :: ps) name) /\ hasBraces t = negb (is_nil ps).
Proof.
  assert (N0 : no_braces []) by (intros [|? ?] b; discriminate).
  induction len as [|len IH]; intros t Hl.
  - destruct t; [|cbn in Hl; lia]. exists [], []. split; [constructor; [exact N0|constructor]|]. split; [reflexivity|]. split; reflexivity.
  - destruct t as [|c t]; [exists [], []; split; [constructor; [exact N0|constructor]|]; split; [reflexivity|]; split; reflexivity|].
    destruct t as [|d t]. { exists [c], []. split; [constructor; [|constructor]|]; [intros [|? [|? ?]] b; discriminate|]. split; [reflexivity|]. split; reflexivity. }
    cbn [length] in Hl. destruct ((c =? 123) && (d =? 125)) eqn:E.
    + apply andb_true_iff in E. destruct E as [E1 E2]. apply Z.eqb_eq in E1, E2. subst c d. destruct (IH t ltac:(lia)) as (q & qs & F & Et & Er & _).
      exists [], (q :: qs). split; [constructor; assumption|]. split; [cbn [interleave app]; rewrite Et at 1; reflexivity|]. split; [|reflexivity].
      intros name. cbn [replaceBraces Z.eqb Pos.eqb andb]. rewrite Er. reflexivity.
    + destruct (IH (d :: t) ltac:(cbn [length]; lia)) as (q & qs & F & Et & Er & Eh). exists (c :: q), qs. inversion F as [|q' qs' Nq Fq]; subst. split.
      { constructor; [|assumption]. intros a b Ea. destruct a as [|x a]; cbn [app] in Ea.
        - injection Ea as -> Eq. subst q. destruct qs; cbn [interleave app] in Et; injection Et as -> _; cbn in E; discriminate.
        - injection Ea as _ Eq. apply (Nq a b). exact Eq. }
      split. { destruct qs; cbn [interleave] in *; rewrite Et; reflexivity. }
      split. { intros name. change (replaceBraces (c :: d :: t) name) with (if (c =? 123) && (d =? 125) then name ++ replaceBraces t name else c :: replaceBraces (d :: t) name).
        rewrite E, Er. destruct qs; reflexivity. }
      change (hasBraces (c :: d :: t)) with (((c =? 123) && (d =? 125)) || hasBraces (d :: t)). rewrite E, Eh. reflexivity.
Qed.
Lemma no_braces_suffix : forall t name, hasBraces t = false -> replaceBraces (t ++ bulk_suffix) name = t ++ [95] ++ name ++ [46; 116; 120; 116].
Proof.
  induction t as [|c t IH]; intros name Hb; [reflexivity|]. destruct t as [|d t].
  - cbn [app]. change (replaceBraces (c :: bulk_suffix) name) with (if (c =? 123) && (95 =? 125) then name ++ replaceBraces (tl bulk_suffix) name else c :: replaceBraces bulk_suffix name).
    rewrite andb_false_r. reflexivity.
  - change (hasBraces (c :: d :: t)) with (((c =? 123) && (d =? 125)) || hasBraces (d :: t)) in Hb. apply orb_false_iff in Hb. destruct Hb as [H1 H2].
    cbn [app]. change (replaceBraces (c :: d :: t ++ bulk_suffix) name) with (if (c =? 123) && (d =? 125) then name ++ replaceBraces (t ++ bulk_suffix) name else c :: replaceBraces ((d :: t) ++ bulk_suffix) name).
    rewrite H1, IH by exact H2. reflexivity.
Qed.
Lemma bulk_named pattern name : bulk_name pattern name (bulkName pattern name).
Proof.
  unfold bulkName. destruct (split_braces (length pattern) pattern (le_n _)) as (p & ps & F & Et & Er & Eh). destruct (hasBraces pattern) eqn:E.
  - right. exists (p :: ps). split; [destruct ps; [discriminate|cbn [length]; lia]|]. split; [exact F|]. split; [exact Et|]. apply Er.
  - left. destruct ps; [|discriminate]. cbn [interleave] in Et. subst p. inversion F; subst. split; [assumption|]. apply no_braces_suffix. exact E.
Qed.

(** *** The input is spared *)
Lemma until_app_spares {V} input : forall (l : list (@stage V)), (forall out x, In (inr out) l -> In x out -> spares input x) -> Forall (spares input) (fst (until l)).
Proof.
  induction l as [|[e|out] l IH]; intros A; cbn [until fst]; [constructor|constructor|]. apply Forall_app. split.
  - apply Forall_forall. intros x Ix. apply (A out x); [left; reflexivity|exact Ix].
  - apply IH. intros o x Io Ix. apply (A o x); [right; exact Io|exact Ix].
Qed.
Lemma spared {Par Smp Scl V} (value : Par -> Z -> Z -> option V) zero step ss (e : @environment Par Smp Scl) input o n result :
  expected value zero step ss e input o n result -> Forall (spares input) (fst result).
Proof.
  unfold expected. destruct (match truncation step ss o with inl _ => true | inr _ => false end); [intros ->; constructor|].
  intros (cs & rows & _ & _ & ->). apply until_app_spares. intros out x I Ix. unfold stages in I. destruct I as [I|I].
  { unfold truncation in I. destruct (op_truncate o); [destruct (_ && _)|]; try discriminate; injection I as <-; destruct Ix. }
  apply in_app_or in I. destruct I as [I|I]. { apply in_map_iff in I. destruct I as (p & Ep & _). unfold trajectory_stage in Ep. destruct (text_eqb (snd p) input) eqn:Et; [discriminate|].
    injection Ep as <-. apply text_eqb_neq in Et. destruct Ix as [<-|[]]. destruct (fst p); exact Et. }
  apply in_app_or in I. destruct I as [I|I]. { unfold observables_stage in I. destruct (op_observables o) as [[name obs]|]; [|destruct I]. destruct I as [I|[]]. destruct (is_nil obs); [discriminate|].
    destruct rows; [|discriminate]. injection I as <-. destruct Ix as [<-|[]]. exact Logic.I. }
  apply in_app_or in I. destruct I as [I|I]. { unfold bulk_stage in I. destruct (op_bulk o) as [[pattern obs]|]; [|destruct I]. destruct (op_averagingStart o); [|destruct I as [I|[]]; discriminate].
    destruct I as [I|[]]. destruct (_ || _); [discriminate|]. injection I as <-. apply in_map_iff in Ix. destruct Ix as (m & <- & _). exact Logic.I. }
  unfold snapshot_stage in I. destruct (op_snapshots o) as [|m names]; [destruct I|]. destruct (rev _) as [|f r]; [destruct I as [I|[]]; discriminate|].
  apply in_map_iff in I. destruct I as (q & Eq & _). destruct (text_eqb q input) eqn:Et; [discriminate|]. injection Eq as <-. destruct Ix as [<-|[]]. apply text_eqb_neq in Et. exact Et.
Qed.

(** *** Values of parameters *)
Lemma upper_bound_in c l x : In x (fst (upper_bound c l)) -> In x l.
Proof. induction l as [|y l IH]; cbn [upper_bound]; [auto|]. destruct (c <? fst y); cbn [fst]; [intros []|]. intros [<-|I]; [left; reflexivity|right; auto]. Qed.
Lemma same_value p : written_parameter p -> forall c t1 t2 v w, p c t1 = Some v -> p c t2 = Some w -> v = w.
Proof.
  induction 1 as [a|a b|a b|l us _ IH P]; intros c t1 t2 v w E1 E2.
  - unfold constant in *. congruence.
  - unfold linear in *. congruence.
  - unfold exponential in *. rewrite E1 in E2; injection E2 as E2; exact E2.
  - unfold piecewise_value in *. destruct (negb (c <=? t1)); [discriminate|]. destruct (negb (c <=? t2)); [discriminate|].
    destruct (negb (fst (last us (0, constant 0)) <=? t1)); [discriminate|]. destruct (negb (fst (last us (0, constant 0)) <=? t2)); [discriminate|].
    destruct (rev (fst (upper_bound c us))) as [|u r] eqn:Er; [discriminate|].
    assert (Iu : In u us). { apply (upper_bound_in c). apply in_rev. rewrite Er. left. reflexivity. }
    unfold piecewise in P. destruct l as [|x0 l0] eqn:El; [discriminate|]. rewrite <- El in *. destruct (negb (fst x0 =? 0)); [discriminate|]. destruct (negb (is_sorted l)); [discriminate|]. injection P as <-.
    apply in_map_iff in Iu. destruct Iu as (x & <- & Ix). cbn [snd] in E1, E2. unfold shifted in E1, E2. destruct (0 <? as_long (fst x)).
    + repeat match goal with Q : (if ?b then None else _) = Some _ |- _ => destruct b; [discriminate|] end. apply (IH x Ix _ _ _ _ _ E1 E2).
    + repeat match goal with Q : (if ?b then None else _) = Some _ |- _ => destruct b; [discriminate|] end. apply (IH x Ix _ _ _ _ _ E1 E2).
Qed.
Lemma same_state {Smp Scl} (e : @environment parameter Smp Scl) zero : written_environment e -> forall c t1 t2 T P T' P',
  state_at (fun x => x) zero e c t1 T P -> state_at (fun x => x) zero e c t2 T' P' -> T = T' /\ P = P'.
Proof.
  intros [Wt Wp] c t1 t2 T P T' P' [(x & Ex & Vx) A] [(y & Ey & Vy) B]. rewrite Ex in Ey. injection Ey as <-. split; [apply (same_value x (Wt x Ex) _ _ _ _ _ Vx Vy)|].
  destruct e as [tm pr sm sc]. cbn [ev_scaler ev_pressure ev_temperature] in *. destruct sc as [| |sc]; [rewrite A, B; reflexivity|rewrite A, B; reflexivity|]. destruct A as (p & Ep & Vp), B as (q & Eq & Vq). rewrite Ep in Eq. injection Eq as <-. apply (same_value p (Wp p Ep) _ _ _ _ _ Vp Vq).
Qed.

(** *** The check *)
Lemma constant_on_ok {V} (same : V -> V -> bool) (value : Z -> Z -> option V) : (forall a b, same a b = true <-> a = b) -> forall m c total v,
  constant_on same value m c total v = Go tt <-> (forall j, (j < m)%nat -> value (c + Z.of_nat j) total = Some v).
Proof.
  intros Sm. induction m as [|m IH]; intros c total v; cbn [constant_on]; [split; [intros; lia|reflexivity]|]. split.
  - destruct (value c total) as [w|] eqn:E; [|discriminate]. destruct (same w v) eqn:Q; [|discriminate]. apply Sm in Q. subst w. intros A j Hj. destruct j as [|j]; [replace (c + Z.of_nat 0) with c by lia; exact E|].
    replace (c + Z.of_nat (S j)) with (c + 1 + Z.of_nat j) by lia. apply (proj1 (IH _ _ _) A). lia.
  - intros A. pose proof (A 0%nat ltac:(lia)) as E. replace (c + Z.of_nat 0) with c in E by lia. rewrite E. assert (same v v = true) as -> by (apply Sm; reflexivity).
    apply IH. intros j Hj. replace (c + 1 + Z.of_nat j) with (c + Z.of_nat (S j)) by lia. apply A. lia.
Qed.
Lemma verified {V} (same : V -> V -> bool) (value : Z -> Z -> option V) (th av : option Z) offset : (forall a b, same a b = true <-> a = b) ->
  0 <= value_or0 th -> 0 < value_or0 av -> 0 <= offset -> value_or0 th + offset + value_or0 av < 2 ^ 64 ->
  let first := value_or0 th + offset in let total := first + value_or0 av in
  (verifyDynamicParameter same value th av offset = Go tt <-> exists v, forall c, first <= c < total -> value c total = Some v).
Proof.
  intros Sm A B C D first total.
  assert (E : verifyDynamicParameter same value th av offset =
    match value first total with None => Stop Violated | Some v => constant_on same value (Z.to_nat (total - (first + 1))) (first + 1) total v end).
  { assert (W1 : wrap (value_or0 th + offset) = first) by (apply wrap_small; unfold first; lia). assert (W2 : wrap (first + value_or0 av) = total) by (apply wrap_small; unfold total, first; lia).
    assert (W3 : wrap (first + 1) = first + 1) by (apply wrap_small; unfold first; lia). unfold verifyDynamicParameter.
    destruct av as [[|q|q]|]; cbn [value_or0] in *; try lia; cbv zeta; change LoadModel.wrap with wrap; rewrite ?W1, ?W2, ?W3; reflexivity. }
  rewrite E. assert (Hlt : first < total) by (unfold total; lia). destruct (value first total) as [v|] eqn:Ev.
  - rewrite (constant_on_ok same value Sm). split.
    + intros Q. exists v. intros c Hc. destruct (Z.eq_dec c first) as [->|Hne]; [exact Ev|]. specialize (Q (Z.to_nat (c - (first + 1))) ltac:(lia)). replace (first + 1 + Z.of_nat (Z.to_nat (c - (first + 1)))) with c in Q by lia. exact Q.
    + intros (w & Q) j Hj. pose proof (Q first ltac:(lia)) as Q0. rewrite Ev in Q0. injection Q0 as <-. apply Q. lia.
  - split; [discriminate|]. intros (w & Q). specialize (Q first ltac:(lia)). congruence.
Qed.
