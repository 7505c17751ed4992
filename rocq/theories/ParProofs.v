From Coq Require Import Reals ZArith List Bool Lia Permutation.
From Verif Require Import GeomModel PbcModel NGModel PackModel PackSpec ParModel.
From Verif Require Import PackSumProofs NGPairProofs PackGridProofs PackCountProofs PackTotalProofs PackProofs PackInvProofs.
Import ListNotations.
Open Scope nat_scope.

Section P.
Variables (A : Type) (ee : bool) (f : A -> option nat) (v : A -> nat).

Definition todo_sum (ws : list (worker A)) : nat := fold_right (fun w r => esum false v (wk_todo w) + r) 0 ws.
Lemma reduction_app fl ws1 w ws2 : reduction A (PState fl (ws1 ++ w :: ws2)) = wk_acc w + reduction A (PState fl (ws1 ++ ws2)).
Proof. unfold reduction. simpl. induction ws1; simpl; lia. Qed.
Lemma todo_sum_app ws1 w ws2 : todo_sum (ws1 ++ w :: ws2) = esum false v (wk_todo w) + todo_sum (ws1 ++ ws2).
Proof. unfold todo_sum. simpl. induction ws1; simpl; lia. Qed.

Definition steps_left (w : worker A) : nat := 2 * length (wk_todo w) - (if wk_busy w then 1 else 0).
Definition total_left (s : pstate A) : nat := fold_right (fun w r => steps_left w + r) 0 (ps_workers s).
Lemma step_measure s s' : pstep A ee f s s' -> total_left s' < total_left s.
Proof.
  intros [fl fl' ws1 w ws2 w' H].
  assert (K : steps_left w' < steps_left w) by (destruct H; unfold steps_left; simpl; lia).
  unfold total_left. simpl. induction ws1; simpl; lia.
Qed.

Lemma started_red chunks : reduction A (started A chunks) = 0.
Proof. unfold started, reduction. simpl. induction chunks; simpl; auto. Qed.
Lemma started_todo chunks : todo_sum (ps_workers (started A chunks)) = esum false v (concat chunks).
Proof. unfold started, todo_sum. simpl. induction chunks; simpl; auto. rewrite esum_app. unfold ethen. simpl. lia. Qed.
Lemma finished_todo s : finished A s -> todo_sum (ps_workers s) = 0.
Proof.
  unfold finished, todo_sum. induction (ps_workers s) as [|w ws IH]; simpl; intros H; auto.
  rewrite (H w) by auto. simpl. apply IH. intros; apply H; auto.
Qed.

(** Invariant: [all] elements known to have values. *)
Variable total : nat.
Hypothesis Hf : forall x n, f x = Some n -> n = v x.
Definition pinv (s : pstate A) : Prop :=
  reduction A s + todo_sum (ps_workers s) <= total /\
  (ps_flag s = false -> reduction A s + todo_sum (ps_workers s) = total) /\
  (ps_flag s = true -> ee = true /\ 0 < reduction A s).
Lemma pinv_step s s' : pstep A ee f s s' -> pinv s -> pinv s'.
Proof.
  intros [fl fl' ws1 w ws2 w' H] (I1 & I2 & I3). unfold pinv. cbn [ps_flag ps_workers] in *.
  rewrite reduction_app, todo_sum_app in *. destruct H; cbn [wk_acc wk_todo esum andb] in *.
  - split; [lia|]. split; [discriminate|]. intros _. split; auto. destruct (I3 eq_refl). auto.
  - split; [lia|]. split; [auto|]. intros E. destruct (I3 E). split; auto.
  - apply Hf in H. subst n. change (reduction A {| ps_flag := fl || ee && (0 <? v x); ps_workers := ws1 ++ ws2 |}) with
      (reduction A {| ps_flag := fl; ps_workers := ws1 ++ ws2 |}).
    split; [lia|]. split.
    + intros E. apply orb_false_iff in E. destruct E as [E _]. specialize (I2 E). lia.
    + intros E. apply orb_true_iff in E. destruct E as [E|E].
      * destruct (I3 E). split; auto. lia.
      * apply andb_true_iff in E. destruct E as [E1 E2]. apply Nat.ltb_lt in E2. split; auto. lia.
Qed.
Lemma pinv_steps s s' : psteps A ee f s s' -> pinv s -> pinv s'.
Proof. induction 1; auto. intros Hi. apply IHpsteps. eapply pinv_step; eauto. Qed.
End P.

Lemma esum_perm {A} (v : A -> nat) l l' : Permutation l l' -> esum false v l = esum false v l'.
Proof. induction 1; simpl; lia. Qed.

Lemma parallel_for_result {A} ee (f : A -> option nat) v all r : (forall x n, f x = Some n -> n = v x) ->
  parallel_for A ee f all r ->
  (ee = false -> r = esum false v all) /\ (r = 0 <-> esum false v all = 0).
Proof.
  intros Hf (chunks & s & Hp & Hs & Hfin & <-).
  assert (I : pinv A ee v (esum false v all) (started A chunks)).
  { unfold pinv. rewrite (started_red A), (started_todo A v), (esum_perm v _ _ Hp). simpl. split; auto. split; auto. discriminate. }
  apply (pinv_steps A ee f v (esum false v all) Hf _ _ Hs) in I. destruct I as (I1 & I2 & I3).
  rewrite (finished_todo A v s Hfin) in *. destruct (ps_flag s).
  - destruct (I3 eq_refl) as [E1 E2]. split; [intros; congruence|]. lia.
  - specialize (I2 eq_refl). split; intros; lia.
Qed.

(** Some worker can always go on, and every run ends. *)
Definition computable {A} (f : A -> option nat) (s : pstate A) : Prop :=
  forall w x, In w (ps_workers s) -> In x (wk_todo w) -> exists n, f x = Some n.
Lemma computable_step {A} ee (f : A -> option nat) s s' : pstep A ee f s s' -> computable f s -> computable f s'.
Proof.
  intros [fl fl' ws1 w ws2 w' H] Hc w0 x Hw Hx. cbn [ps_workers] in *. apply in_app_iff in Hw.
  assert (K : forall y, In y (wk_todo w') -> In y (wk_todo w)) by (destruct H; simpl; auto).
  destruct Hw as [Hw|[<-|Hw]].
  - apply (Hc w0 x); auto. simpl. apply in_app_iff; auto.
  - apply (Hc w x); auto. simpl. apply in_app_iff; simpl; auto.
  - apply (Hc w0 x); auto. simpl. apply in_app_iff; simpl; auto.
Qed.
Lemma parallel_progress {A} ee (f : A -> option nat) s : computable f s -> finished A s \/ exists s', pstep A ee f s s'.
Proof.
  intros Hf. destruct s as [fl ws].
  destruct (forallb (fun w => match wk_todo w with [] => true | _ => false end) ws) eqn:E.
  - left. intros w Hw. rewrite forallb_forall in E. specialize (E w Hw). destruct (wk_todo w); auto; discriminate.
  - right. assert (X : exists w, In w ws /\ wk_todo w <> []).
    { clear Hf. induction ws as [|w ws IH]; simpl in *; [discriminate|]. destruct (wk_todo w) eqn:Ew.
      - destruct (IH E) as (w' & H1 & H2). exists w'; auto.
      - exists w. split; auto. congruence. }
    destruct X as ([todo busy acc] & Hin & Hne). destruct (in_split _ _ Hin) as (ws1 & ws2 & ->).
    cbn [wk_todo] in Hne. destruct todo as [|x l]; [congruence|]. destruct busy.
    + destruct (Hf (Worker (x :: l) true acc) x) as (n & Hn); simpl; auto.
      eexists. constructor. apply (step_compute A ee f fl x l acc n Hn).
    + eexists. constructor. apply step_start.
Qed.
Lemma parallel_ends {A} ee (f : A -> option nat) : forall s, computable f s -> exists s', psteps A ee f s s' /\ finished A s'.
Proof.
  intros s. remember (total_left A s) as m. revert s Heqm. induction m as [m IH] using (well_founded_induction lt_wf). intros s -> Hc.
  destruct (parallel_progress ee f s Hc) as [H|(s' & H)].
  - exists s. split; auto. constructor.
  - destruct (IH _ (step_measure A ee f (fun _ => 0) s s' H) s' eq_refl (computable_step ee f s s' H Hc)) as (s'' & H1 & H2).
    exists s''. split; auto. econstructor; eauto.
Qed.
Lemma parallel_for_some {A} ee (f : A -> option nat) all : (forall x, In x all -> exists n, f x = Some n) -> exists r, parallel_for A ee f all r.
Proof.
  intros H. destruct (parallel_ends ee f (started A [all])) as (s & H1 & H2).
  - intros w x [<-|[]] Hx. auto.
  - exists (reduction A s), [all], s. simpl. rewrite app_nil_r. auto.
Qed.
(** Values of a loop known to run sequentially. *)
Definition valof {A} (f : A -> option nat) (x : A) : nat := match f x with Some n => n | None => 0 end.
Lemma sum_exit_valof {A} ee (f : A -> option nat) l r : sum_exit ee f l = Some r ->
  (ee = false -> r = esum false (valof f) l) /\ (r = 0 <-> esum false (valof f) l = 0).
Proof.
  revert r. induction l as [|x l IH]; simpl; intros r; [intros E; injection E as <-; tauto|]. unfold valof at 1 3.
  destruct (f x) as [n|]; cbn [obind]; [|discriminate]. destruct (ee && (0 <? n)) eqn:B.
  - intros E. injection E as <-. apply andb_true_iff in B. destruct B as [-> B]. apply Nat.ltb_lt in B. split; [discriminate|lia].
  - destruct (sum_exit ee f l) as [m|]; cbn [obind]; [|discriminate]. intros E. injection E as <-. destruct (IH m eq_refl) as [I1 I2].
    split; [intros ->; rewrite I1; auto|lia].
Qed.

Section Pack.
Variables (inter : interaction) (ov : law bool) (en : law R).
Hypothesis HL : lawful inter ov en.

Lemma parallel_walls pk ee n : parallelWallOverlaps pk inter ee n ->
  (ee = false -> n = walls pk inter false) /\ (n = 0 <-> walls pk inter false = 0).
Proof.
  unfold parallelWallOverlaps. destruct (hasAnyWalls pk) eqn:E; cbn [negb].
  - intros H. apply (parallel_for_result ee _ (wallv pk inter ee)) in H.
    2: { intros x m Hm. rewrite wall_total in Hm. congruence. }
    destruct H as [H1 H2]. split.
    + intros ->. apply H1; auto.
    + rewrite H2. unfold walls. rewrite !esum_zero. split; intros K p Hp; apply (wallv_zero _ _ ee false); auto.
  - intros ->. assert (W : walls pk inter false = 0) by (apply esum_zero; intros; apply wallv_none; auto). rewrite W. split; tauto.
Qed.

Lemma parallel_total pk ee n : pgood pk -> (in_rangeRadius inter <= pk_range pk)%R -> parallelTotalOverlaps pk inter ee n ->
  (ee = false -> n = tot pk inter + walls pk inter false) /\ (n = 0 <-> tot pk inter + walls pk inter false = 0).
Proof.
  intros Hg Hr (m & Hm & Hn).
  assert (M : (ee = false -> m = tot pk inter) /\ (m = 0 <-> tot pk inter = 0)).
  { destruct (pk_ng pk) as [g|] eqn:E.
    - apply (parallel_for_result ee _ (valof (cell_overlaps pk g inter ee))) in Hm.
      2: { intros x k Hk. unfold valof. rewrite Hk. auto. }
      pose proof (grid_overlaps_value pk inter Hg ee g E) as V. apply sum_exit_valof in V.
      rewrite (esum_ext ee (cellv pk (ovf inter)) (tv 0 (ovf inter) pk)) in V by (intros; eapply cellv_tv; eauto).
      assert (T : total_list pk = all_terms g) by (unfold total_list; rewrite E; auto). rewrite <- T in V.
      pose proof (esum_ee_zero ee false (tv 0 (ovf inter) pk) (total_list pk)) as Q. fold (tot pk inter) in Q.
      destruct Hm as [M1 M2], V as [V1 V2]. split.
      + intros ->. rewrite (M1 eq_refl), <- (V1 eq_refl). reflexivity.
      + rewrite M2, <- V2, Q. tauto.
    - rewrite (all_pairs_value pk inter Hg ee (pk_parts pk) 0 E) in Hm by reflexivity. fold (pk_size pk) in Hm. injection Hm as <-.
      assert (T : total_list pk = flat_map (fun ij => expand (dims_of pk) (fst ij) (snd ij)) (pairs_from 0 (pk_size pk)))
        by (unfold total_list; rewrite E; auto). rewrite <- T.
      pose proof (esum_ee_zero ee false (tv 0 (ovf inter) pk) (total_list pk)) as Q. fold (tot pk inter) in Q.
      split; [intros ->; reflexivity|exact Q]. }
  destruct M as [M1 M2]. destruct (ee && (0 <? m)) eqn:B.
  - apply andb_true_iff in B. destruct B as [-> B]. apply Nat.ltb_lt in B. split; [discriminate|].
    assert (0 < n) by (destruct (pk_ng pk); lia). lia.
  - destruct Hn as (w & Hw & ->). destruct (parallel_walls pk ee w Hw) as [W1 W2]. split.
    + intros E. rewrite M1, W1; auto.
    + lia.
Qed.
Lemma parallel_total_some pk ee : pgood pk -> exists n, parallelTotalOverlaps pk inter ee n.
Proof.
  intros Hg. assert (W : exists w, parallelWallOverlaps pk inter ee w).
  { unfold parallelWallOverlaps. destruct (negb _); [eauto|]. apply parallel_for_some. intros p _. rewrite wall_total. eauto. }
  destruct W as (w & Hw).
  assert (M : exists m, match pk_ng pk with
    | Some g => parallel_for cvec ee (cell_overlaps pk g inter ee) (all_cells (getCellDivisions g)) m
    | None => all_pairs_overlaps pk inter ee (pk_parts pk) = Some m
    end).
  { destruct (pk_ng pk) as [g|] eqn:E.
    - apply parallel_for_some. intros c Hc. destruct (cell_overlaps_value pk inter Hg ee g c E Hc) as (l & -> & _). eauto.
    - rewrite (all_pairs_value pk inter Hg ee (pk_parts pk) 0 E) by reflexivity. eauto. }
  destruct M as (m & Hm). unfold parallelTotalOverlaps. destruct (ee && (0 <? m)) eqn:B.
  - exists (match pk_ng pk with Some _ => 1 | None => m end), m. rewrite B. auto.
  - exists (m + w), m. rewrite B. eauto.
Qed.
End Pack.
