(** Plans made by the samplers, counters, what a cycle does to the packing. *)
From Coq Require Import Reals ZArith List Bool Lia Lra Permutation.
From Verif Require Import GeomModel BoxModel BoxSpec RFloorModel RFloorProofs PbcModel PbcSpec NGModel GeomProofs BoxProofs NGListProofs.
From Verif Require Import PackModel PackSpec PackSumProofs PackGridProofs PackCountProofs PackTotalProofs PackProofs PackInvProofs PackHistProofs PackFinalProofs.
From Verif Require Import DomModel DomSpec DomFinalProofs DomRunProofs DomRunFinalProofs DomMoreProofs RotModel RotSpec RotProofs RotFlipProofs SimModel SimSpec SimMoveProofs SimStateProofs.
Import ListNotations.
Open Scope nat_scope.

(** *** Lists *)
Lemma map_opt_F2 {A B} (f : A -> option B) l r : map_opt f l = Some r -> Forall2 (fun x y => f x = Some y) l r.
Proof.
  revert r. induction l as [|x l IH]; simpl; intros r H; [injection H as <-; constructor|].
  destruct (f x) as [y|] eqn:E; [|discriminate]. destruct (map_opt f l) as [r'|]; [|discriminate]. injection H as <-. constructor; auto.
Qed.
Lemma map_opt_total {A B} (f : A -> option B) l : (forall x, In x l -> f x <> None) -> exists r, map_opt f l = Some r.
Proof.
  induction l as [|x l IH]; intros H; [exists []; reflexivity|]. destruct (IH (fun y Hy => H y (or_intror Hy))) as (r & E).
  simpl. rewrite E. destruct (f x) eqn:Ex; [eauto|]. destruct (H x (or_introl eq_refl) Ex).
Qed.
Lemma F2_In_r {A B} (P : A -> B -> Prop) l r y : Forall2 P l r -> In y r -> exists x, In x l /\ P x y.
Proof. induction 1; simpl; [tauto|]. intros [->|Hy]; eauto. destruct (IHForall2 Hy) as (z & ? & ?). eauto. Qed.

(** *** Samplers *)
Lemma rot_isometry v a : v <> vzero -> isometry (mrot_axis (vnormalized v) a).
Proof. intros H. apply rotation_isometry, rot_rotation, normalized_unit; auto. Qed.
Definition good_op (thread i : nat) (inside : option (vec -> bool)) (o : pack_op) : Prop :=
  match o with
  | DoTranslation th j _ ins _ => th = thread /\ j = i /\ ins = inside
  | DoRotation th j r _ => th = thread /\ j = i /\ isometry r
  | DoMove th j _ r ins _ => th = thread /\ j = i /\ ins = inside /\ isometry r
  | _ => False
  end.
Lemma sampled_good b s thread i inside d f : good_sampler s -> good_draw d -> sampled_op b s thread i inside d = Some f ->
  forall sh, isometry (sh_rot sh) -> good_op thread i inside (f sh).
Proof.
  intros Hs (_ & Hax & _) E sh Hsh. destruct s as [st mx im|st|ts rs mx im|ev fl]; cbn [sampled_op] in E.
  - injection E as <-. simpl. auto.
  - injection E as <-. simpl. split; [auto|split; [auto|]]. apply rot_isometry; auto.
  - destruct rs as [r|]; [|discriminate]. cbn [obind] in E. injection E as <-. simpl. split; [auto|split; [auto|split; [auto|]]]. apply rot_isometry; auto.
  - destruct fl as [f'|]; [|discriminate]. cbn [obind] in E. injection E as <-. destruct Hs as [_ (f2 & E2 & Hu)]. injection E2 as <-.
    assert (Hi : isometry (flip_rotation f' sh)).
    { apply rot_isometry. apply unit_nonzero. rewrite Hsh. exact Hu. }
    unfold sampleFlip. destruct (fl_originZero f'); simpl; auto.
Qed.
Lemma sampled_total b s thread i inside d : good_sampler s -> exists f, sampled_op b s thread i inside d = Some f.
Proof.
  intros Hs. destruct s as [st mx im|st|ts rs mx im|ev fl]; cbn [sampled_op good_sampler] in *; eauto.
  - destruct Hs as [_ (r & -> & _)]. cbn [obind]. eauto.
  - destruct Hs as [_ (f & -> & _)]. cbn [obind]. eauto.
Qed.
Lemma pick_In particles d i : pick_particle particles d = Some i -> In i particles.
Proof. apply nth_error_In. Qed.
Lemma pick_total particles d : particles <> [] -> exists i, pick_particle particles d = Some i.
Proof.
  intros H. unfold pick_particle. destruct (nth_error particles _) as [i|] eqn:E; [eauto|]. apply nth_error_None in E.
  assert (length particles <> 0) by (destruct particles; [congruence|discriminate]). pose proof (Nat.mod_upper_bound (dr_pick d) (length particles)). lia.
Qed.
Lemma metropolis_refuses u T : (0 < u)%R -> metropolis u T PosInf = false.
Proof. intros H. simpl. apply Rleb_false. exact H. Qed.

Lemma accumulations_length ss n : forall acc l, accumulations ss n acc = Some l -> length l = length ss.
Proof.
  induction ss as [|s ss IH]; simpl; intros acc l H; [injection H as <-; reflexivity|]. destruct (requested s n) as [m|]; [|discriminate].
  cbn [obind] in H. destruct (accumulations ss n (acc + m)) as [l'|] eqn:E; [|discriminate]. injection H as <-. simpl. f_equal. eauto.
Qed.
Lemma accumulations_total ss n acc : Forall (enough_particles n) ss -> exists l, accumulations ss n acc = Some l.
Proof.
  intros H. revert acc. induction H as [|s ss Hs _ IH]; intros acc; [exists []; reflexivity|]. simpl.
  assert (exists m, requested s n = Some m) as (m & ->).
  { destruct s as [st mx im|st|ts rs mx im|ev fl]; simpl in *; eauto. destruct (Nat.ltb_spec ev n); [eauto|lia]. }
  cbn [obind]. destruct (IH (acc + m)) as (l & ->). cbn [obind]. eauto.
Qed.
Fixpoint requested_sum (ss : list sampler) (n : nat) : nat :=
  match ss with [] => 0 | s :: ss' => match requested s n with Some m => m | None => 0 end + requested_sum ss' n end.
Lemma accumulations_last ss n : forall acc l, accumulations ss n acc = Some l -> ss <> [] -> last l 0 = acc + requested_sum ss n.
Proof.
  induction ss as [|s ss IH]; simpl; intros acc l H Hne; [congruence|]. destruct (requested s n) as [m|]; [|discriminate].
  cbn [obind] in H. destruct (accumulations ss n (acc + m)) as [l'|] eqn:E; [|discriminate]. injection H as <-.
  destruct ss as [|s' ss']; [simpl in E; injection E as <-; simpl; lia|].
  pose proof (accumulations_length _ _ _ _ E) as Hl. destruct l' as [|x l']; [discriminate|].
  change (last (acc + m :: x :: l') 0) with (last (x :: l') 0). rewrite (IH (acc + m) (x :: l') E) by discriminate. lia.
Qed.
Lemma move_type_bound accs x : x < last accs 0 -> move_type accs x < length accs.
Proof.
  induction accs as [|a accs IH]; simpl; [lia|]. intros H. destruct (Nat.ltb_spec x a); [lia|].
  destruct accs as [|a' accs']; [lia|]. specialize (IH H). simpl in *. lia.
Qed.

Section Plans.
Variables (b : box) (samplers : list sampler) (accs particles : list nat) (thread : nat) (inside : option (vec -> bool)) (T : R).
Hypothesis Hs : Forall good_sampler samplers.
Lemma make_plan_good d g pl : good_draw d -> make_plan b samplers accs particles thread inside T d = Some (g, pl) ->
  g < length samplers /\ In (pl_i pl) particles /\ pl_accept pl = metropolis (dr_u d) T /\
  forall sh, isometry (sh_rot sh) -> good_op thread (pl_i pl) inside (pl_op pl sh).
Proof.
  intros Hd. unfold make_plan. cbv zeta. set (gr := move_type _ _). destruct (nth_error samplers gr) as [s|] eqn:Es; [|discriminate]. cbn [obind].
  destruct (pick_particle particles d) as [i|] eqn:Ei; [|discriminate]. cbn [obind].
  destruct (sampled_op b s thread i inside d) as [f|] eqn:Ef; [|discriminate]. cbn [obind]. intros E. injection E as <- <-. cbn [pl_i pl_accept pl_op].
  split; [apply nth_error_Some; congruence|]. split; [exact (pick_In _ _ _ Ei)|]. split; [reflexivity|].
  apply (sampled_good b s thread i inside d f); auto. rewrite Forall_forall in Hs. apply Hs. eapply nth_error_In; eauto.
Qed.
Lemma make_plans_total draws : length accs = length samplers -> particles <> [] -> exists pls, make_plans b samplers accs particles thread inside T draws = Some pls.
Proof.
  intros Hl Hp. apply map_opt_total. intros k Hk. apply in_seq in Hk. unfold make_plan. cbv zeta.
  pose proof (move_type_bound accs (dr_type (draws k) mod last accs 0)) as Hm. specialize (Hm (Nat.mod_upper_bound (dr_type (draws k)) (last accs 0) ltac:(lia))).
  destruct (nth_error samplers _) as [s|] eqn:Es; [|apply nth_error_None in Es; lia]. cbn [obind].
  destruct (pick_total particles (draws k) Hp) as (i & ->). cbn [obind].
  destruct (sampled_total b s thread i inside (draws k)) as (f & ->). { rewrite Forall_forall in Hs. apply Hs. eapply nth_error_In; eauto. }
  cbn [obind]. discriminate.
Qed.
Lemma make_plans_good draws pls : (forall k, good_draw (draws k)) -> make_plans b samplers accs particles thread inside T draws = Some pls ->
  length pls = last accs 0 /\ forall g pl, In (g, pl) pls -> g < length samplers /\ In (pl_i pl) particles /\
    (exists u, (0 < u < 1)%R /\ pl_accept pl = metropolis u T) /\ forall sh, isometry (sh_rot sh) -> good_op thread (pl_i pl) inside (pl_op pl sh).
Proof.
  intros Hd E. apply map_opt_F2 in E. split.
  - rewrite <- (Forall2_len _ _ _ E). apply seq_length.
  - intros g pl Hin. destruct (F2_In_r _ _ _ _ E Hin) as (k & _ & Ek). destruct (make_plan_good (draws k) g pl (Hd k) Ek) as (A & B & C & D).
    split; [exact A|]. split; [exact B|]. split; [|exact D]. exists (dr_u (draws k)). split; [apply Hd|exact C].
Qed.
End Plans.
Lemma good_op_plan n thread inside pl u T : pl_i pl < n -> (0 < u)%R -> pl_accept pl = metropolis u T ->
  (forall sh, isometry (sh_rot sh) -> good_op thread (pl_i pl) inside (pl_op pl sh)) -> safe n thread pl.
Proof.
  intros Hi Hu Ha Ho. split; [|rewrite Ha; apply metropolis_refuses; auto]. split; [exact Hi|]. intros s Hs. specialize (Ho s Hs).
  destruct (pl_op pl s); simpl in *; try contradiction.
  - destruct Ho as (-> & -> & _). auto.
  - destruct Ho as (-> & -> & H). auto.
  - destruct Ho as (-> & -> & _ & H). auto.
Qed.

(** *** Counters *)
Definition plus_moves (ms : list (nat * bool)) (k : nat) (c : counter) : counter :=
  Counter (ct_moves c + performed k ms) (ct_accepted c + accepted k ms) (ct_recent c + performed k ms) (ct_recentAccepted c + accepted k ms).
Lemma performed_app k a b : performed k (a ++ b) = performed k a + performed k b.
Proof. unfold performed. rewrite filter_app, app_length. reflexivity. Qed.
Lemma accepted_app k a b : accepted k (a ++ b) = accepted k a + accepted k b.
Proof. unfold accepted. rewrite filter_app, app_length. reflexivity. Qed.
Lemma counter_ext (c c' : counter) : ct_moves c = ct_moves c' -> ct_accepted c = ct_accepted c' -> ct_recent c = ct_recent c' ->
  ct_recentAccepted c = ct_recentAccepted c' -> c = c'.
Proof. destruct c, c'. simpl. congruence. Qed.
Lemma option_map_ext' {A B} (f g : A -> B) o : (forall x, f x = g x) -> option_map f o = option_map g o. Proof. intros H. destruct o; simpl; congruence. Qed.
Lemma increment_at_nth g acc : forall cs k, nth_error (increment_at g acc cs) k = option_map (plus_moves [(g, acc)] k) (nth_error cs k).
Proof.
  intros cs. revert g. induction cs as [|c cs IH]; intros g [|k]; simpl.
  - destruct g; reflexivity.
  - destruct g; reflexivity.
  - destruct g; simpl.
    + f_equal. unfold plus_moves, performed, accepted, increment. destruct acc; simpl; apply counter_ext; simpl; lia.
    + f_equal. unfold plus_moves, performed, accepted. simpl. apply counter_ext; simpl; lia.
  - destruct g; simpl.
    + destruct (nth_error cs k) as [x|]; simpl; [|reflexivity]. f_equal. unfold plus_moves, performed, accepted. simpl. apply counter_ext; simpl; lia.
    + rewrite IH. apply option_map_ext'. intros x. unfold plus_moves, performed, accepted. cbn [filter fst snd Nat.eqb].
      destruct (Nat.eqb g k), acc; reflexivity.
Qed.
Lemma plus_moves_app a b k c : plus_moves b k (plus_moves a k c) = plus_moves (a ++ b) k c.
Proof. unfold plus_moves. rewrite performed_app, accepted_app. simpl. apply counter_ext; simpl; lia. Qed.
Lemma plus_moves_nil k c : plus_moves [] k c = c.
Proof. unfold plus_moves, performed, accepted. simpl. apply counter_ext; simpl; lia. Qed.
Lemma option_map_map {A} (f g : A -> A) o : option_map f (option_map g o) = option_map (fun x => f (g x)) o. Proof. destruct o; reflexivity. Qed.
Lemma option_map_eq {A B} (f g : A -> B) o : (forall x, f x = g x) -> option_map f o = option_map g o. Proof. intros H. destruct o; simpl; congruence. Qed.
Lemma option_map_same {A} (f : A -> A) o : (forall x, f x = x) -> option_map f o = o. Proof. intros H. destruct o; simpl; congruence. Qed.
Lemma count_moves_nth ms : forall cs k, nth_error (count_moves ms cs) k = option_map (plus_moves ms k) (nth_error cs k).
Proof.
  induction ms as [|[g acc] ms IH]; intros cs k.
  - simpl. symmetry. apply option_map_same, plus_moves_nil.
  - unfold count_moves. cbn [fold_left fst snd]. fold (count_moves ms (increment_at g acc cs)). rewrite IH, increment_at_nth, option_map_map.
    apply option_map_eq. intros c. rewrite plus_moves_app. reflexivity.
Qed.
Lemma count_moves_length ms : forall cs, length (count_moves ms cs) = length cs.
Proof.
  induction ms as [|m ms IH]; intros cs; [reflexivity|]. unfold count_moves. cbn [fold_left]. fold (count_moves ms (increment_at (fst m) (snd m) cs)).
  rewrite IH. generalize (fst m). intros g. revert g. induction cs as [|c cs IH2]; intros [|g]; simpl; auto.
Qed.
Lemma accumulate_length a b : length b = length a -> length (accumulateCounters a b) = length a.
Proof. intros H. unfold accumulateCounters. rewrite map_length, combine_length. lia. Qed.
Lemma nth_error_repeat_lt {A} (x : A) n k : k < n -> nth_error (repeat x n) k = Some x.
Proof. revert k. induction n; intros [|k] H; simpl; try lia; auto. apply IHn. lia. Qed.
Lemma accumulate_nth a : forall b k, nth_error (accumulateCounters a b) k =
  match nth_error a k, nth_error b k with Some x, Some y => Some (counter_add x y) | _, _ => None end.
Proof.
  induction a as [|x a IH]; intros [|y b] [|k]; simpl; auto.
  - destruct (nth_error a k); reflexivity.
  - unfold accumulateCounters in IH. rewrite IH. reflexivity.
Qed.
Definition of_thread (moves : list (nat * list (nat * bool))) (th : nat) : list (nat * bool) :=
  concat (map snd (filter (fun tm => Nat.eqb (fst tm) th) moves)).
Lemma fold_private th moves : forall cs,
  let r := fold_left (fun cs (tm : nat * list (nat * bool)) => if Nat.eqb (fst tm) th then count_moves (snd tm) cs else cs) moves cs in
  length r = length cs /\ forall k, nth_error r k = option_map (plus_moves (of_thread moves th) k) (nth_error cs k).
Proof.
  induction moves as [|[t ms] moves IH]; intros cs; simpl.
  - split; [reflexivity|]. intros k. symmetry. apply option_map_same, plus_moves_nil.
  - destruct (IH (if t =? th then count_moves ms cs else cs)) as [A B]. cbv zeta in *. unfold of_thread in *. cbn [filter fst].
    destruct (Nat.eqb_spec t th) as [->|Ht].
    + rewrite count_moves_length in A. split; [exact A|]. intros k. rewrite B, count_moves_nth, option_map_map. cbn [map snd concat].
      apply option_map_eq. intros c. apply plus_moves_app.
    + split; [exact A|exact B].
Qed.
Lemma repeat_length_nth {A} (x : A) n k : nth_error (repeat x n) k = if Nat.ltb k n then Some x else None.
Proof. destruct (Nat.ltb_spec k n); [apply nth_error_repeat_lt; auto|]. apply nth_error_None. rewrite repeat_length. lia. Qed.
Lemma add_plus c ms k : counter_add c (plus_moves ms k zeroCounter) = plus_moves ms k c.
Proof. unfold counter_add, plus_moves. simpl. reflexivity. Qed.
Lemma fold_threads moves n : forall ths cs, length cs = n ->
  let r := fold_left (fun cs th => accumulateCounters cs (private_counters n moves th)) ths cs in
  length r = n /\ forall k, nth_error r k = option_map (plus_moves (concat (map (of_thread moves) ths)) k) (nth_error cs k).
Proof.
  induction ths as [|th ths IH]; intros cs Hn; simpl.
  - split; [exact Hn|]. intros k. symmetry. apply option_map_same, plus_moves_nil.
  - destruct (fold_private th moves (repeat zeroCounter n)) as [A B]. cbv zeta in *. fold (private_counters n moves th) in A, B. rewrite repeat_length in A.
    destruct (IH (accumulateCounters cs (private_counters n moves th))) as [C D].
    { rewrite accumulate_length; congruence. }
    split; [exact C|]. intros k. rewrite D, accumulate_nth, B, repeat_length_nth.
    destruct (nth_error cs k) as [c|] eqn:Ec; [|reflexivity].
    assert (k < n) by (rewrite <- Hn; apply nth_error_Some; congruence). destruct (Nat.ltb_spec k n); [|lia]. cbn [option_map]. rewrite add_plus.
    f_equal. rewrite plus_moves_app. reflexivity.
Qed.
Lemma performed_concat k l : performed k (concat l) = fold_right (fun ms s => performed k ms + s) 0 l.
Proof. induction l as [|x l IH]; simpl; [reflexivity|]. rewrite performed_app, IH. reflexivity. Qed.
Lemma accepted_concat k l : accepted k (concat l) = fold_right (fun ms s => accepted k ms + s) 0 l.
Proof. induction l as [|x l IH]; simpl; [reflexivity|]. rewrite accepted_app, IH. reflexivity. Qed.
Section Threads.
Variable w : list (nat * bool) -> nat.
Hypothesis w_nil : w [] = 0.
Hypothesis w_app : forall a b, w (a ++ b) = w a + w b.
Lemma w_concat l : w (concat l) = fold_right (fun ms s => w ms + s) 0 l.
Proof. induction l as [|x l IH]; simpl; [exact w_nil|]. rewrite w_app, IH. reflexivity. Qed.
Lemma threads_once t ms moves ths : NoDup ths -> In t ths ->
  w (concat (map (of_thread ((t, ms) :: moves)) ths)) = w ms + w (concat (map (of_thread moves) ths)).
Proof.
  intros Hn Hin. induction ths as [|th ths IH]; [destruct Hin|]. cbn [map concat]. rewrite !w_app. inversion Hn as [|? ? Hni Hn' E]. subst.
  assert (O : of_thread ((t, ms) :: moves) th = if Nat.eqb t th then ms ++ of_thread moves th else of_thread moves th).
  { unfold of_thread. cbn [filter fst]. destruct (Nat.eqb t th); reflexivity. }
  rewrite O. destruct (Nat.eqb_spec t th) as [->|Ht].
  - rewrite w_app. assert (E2 : map (of_thread ((th, ms) :: moves)) ths = map (of_thread moves) ths).
    { apply map_ext_in. intros x Hx. unfold of_thread. cbn [filter fst]. destruct (Nat.eqb_spec th x) as [->|]; [contradiction|reflexivity]. }
    rewrite E2. lia.
  - rewrite IH; auto; [lia|]. destruct Hin as [->|H]; [contradiction|exact H].
Qed.
Lemma threads_all moves ths : NoDup ths -> (forall tm, In tm moves -> In (fst tm) ths) ->
  w (concat (map (of_thread moves) ths)) = w (concat (map snd moves)).
Proof.
  intros Hn. induction moves as [|[t ms] moves IH]; intros H.
  - cbn [map concat]. rewrite w_nil, w_concat. clear - w_nil. induction ths as [|x l IH]; simpl; auto. rewrite IH. unfold of_thread. simpl. rewrite w_nil. reflexivity.
  - rewrite threads_once; auto; [|apply (H (t, ms)); left; auto]. cbn [map snd concat]. rewrite w_app, IH; auto. intros tm Htm. apply H. right. exact Htm.
Qed.
End Threads.
Lemma plus_moves_eq a b k c : performed k a = performed k b -> accepted k a = accepted k b -> plus_moves a k c = plus_moves b k c.
Proof. unfold plus_moves. intros -> ->. reflexivity. Qed.
Lemma reduced moves n ths cs k : length cs = n -> NoDup ths -> (forall tm, In tm moves -> In (fst tm) ths) ->
  let temp := fold_left (fun cs th => accumulateCounters cs (private_counters n moves th)) ths (repeat zeroCounter n) in
  length (accumulateCounters cs temp) = n /\
  nth_error (accumulateCounters cs temp) k = option_map (plus_moves (concat (map snd moves)) k) (nth_error cs k).
Proof.
  intros Hn Hd Hc. cbv zeta. destruct (fold_threads moves n ths (repeat zeroCounter n) (repeat_length _ _)) as [A B]. cbv zeta in *.
  split; [rewrite accumulate_length; congruence|]. rewrite accumulate_nth, B, repeat_length_nth.
  destruct (nth_error cs k) as [c|] eqn:Ec; [|reflexivity].
  assert (k < n) by (rewrite <- Hn; apply nth_error_Some; congruence). destruct (Nat.ltb_spec k n); [|lia]. cbn [option_map]. rewrite add_plus. f_equal.
  apply plus_moves_eq.
  - apply (threads_all (performed k)); auto. apply performed_app.
  - apply (threads_all (accepted k)); auto. apply accepted_app.
Qed.
