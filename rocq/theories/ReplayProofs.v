(** The trajectory mode: players and loops (C76). *)
From Coq Require Import ZArith List Bool Lia ZifyBool ZifyNat.
From Verif Require Import TextModel LoadModel SimModel TrjModel TrjSpec TrjProofs TrjPlayProofs TrjRecProofs TrjPropProofs ReplayModel ReplaySpec OptModel.
Import ListNotations.
Open Scope Z_scope.

Section source.
Variables (n step : Z) (ss : list snapshot) (content : list Z) (k : nat).
Hypothesis F : fits n step (Z.of_nat (length ss)).
Hypothesis G : Forall (good_snapshot n) ss.
Hypothesis H : holds n ss content.
Hypothesis K : (k <= length ss)%nat.
Let left_ := firstn k ss.
(** The source shows [left_] as the shelf [s] does. *)
Definition on (src : source) (s : shelf) : Prop :=
  match src with
  | Whole p => rel n step ss content p s /\ k = length ss
  | Cut t => exists s', s = short k s' /\ relT n step ss content k t s'
  end.
Lemma call_on src s nv : on src s -> legal_nav nv -> match shelf_move nv s with
  | Some (s', r) => exists src', call n nv src = Some (src', r) /\ on src' s'
  | None => call n nv src = None end.
Proof using F G H K.
  intros O L. destruct src as [p|t]; cbn [on call] in *.
  - destruct O as [R E]. pose proof (nav_rel n step ss content F G H p s nv R L) as N. destruct (shelf_move nv s) as [[s' r]|].
    + destruct N as (p' & -> & R'). exists (Whole p'). split; [reflexivity|]. split; assumption.
    + rewrite N. reflexivity.
  - destruct O as (s1 & -> & R). pose proof (navT_rel n step ss content F G H k K t s1 nv R L) as N. destruct (shelf_move nv (short k s1)) as [[s' r]|].
    + destruct N as (t' & s2 & -> & -> & R'). exists (Cut t'). split; [reflexivity|]. exists s2. split; [reflexivity|assumption].
    + rewrite N. reflexivity.
Qed.
Lemma on_view src s : on src s ->
  more src = sf_open s && (Z.of_nat (sf_shown s) <? sf_count s) /\ currentCycles src = Z.of_nat (sf_shown s) * sf_step s /\
  totalCycles src = sf_count s * sf_step s /\ cycleStep src = step /\ numMolecules src = n /\ hd_snapshots (py_header (inner src)) = Z.of_nat (length ss) /\
  sf_all s = left_ /\ sf_step s = step.
Proof using F K.
  intros O. destruct src as [p|t]; cbn [on more currentCycles totalCycles cycleStep numMolecules inner] in *.
  - destruct O as [R E]. pose proof (view_rel n step ss content F p s Refused R) as V. unfold shelf_view in V. injection V as V1 V2 V3.
    destruct R as (A1 & A2 & A3 & A4 & A5 & A6 & A7 & A8 & A9 & A10). unfold currentCycles, cycleStep, numMolecules. cbn [inner].
    repeat (split; [assumption|]). split; [|assumption]. unfold left_. rewrite E, firstn_all. exact A5.
  - destruct O as (s1 & -> & R). pose proof (viewT_rel n step ss content F k K t s1 Refused R) as V. unfold shelf_view in V. injection V as V1 V2 V3.
    destruct R as (T1 & (A1 & A2 & A3 & A4 & A5 & A6 & A7 & A8 & A9 & A10) & T3). unfold currentCycles, cycleStep, numMolecules. cbn [inner].
    repeat (split; [assumption|]). cbn [short sf_all sf_step]. split; [|assumption]. rewrite A5. reflexivity.
Qed.
End source.

Lemma skip_cons {A} (s : A) t : forall l i, skipn i l = s :: t -> nth_error l i = Some s /\ skipn (S i) l = t.
Proof.
  induction l as [|y l IH]; intros i E; [destruct i; discriminate|]. destruct i as [|i].
  - cbn [skipn] in E. injection E as -> ->. split; reflexivity.
  - cbn [skipn] in E. destruct (IH i E) as [A1 A2]. split; [exact A1|exact A2].
Qed.
Section loops.
Variables (n step : Z) (ss : list snapshot) (content : list Z) (k : nat).
Hypothesis F : fits n step (Z.of_nat (length ss)).
Hypothesis G : Forall (good_snapshot n) ss.
Hypothesis H : holds n ss content.
Hypothesis K : (k <= length ss)%nat.
Let left_ := firstn k ss.
Let total := cycles_of step left_.
Let at_ (i : nat) : shelf := Shelf left_ step i true.
Notation on' := (on n step ss content k).

Fixpoint run_uses {X} (use : snapshot -> Z -> Z -> X -> option X) (fs : list (snapshot * Z)) (x : X) : option X :=
  match fs with [] => Some x | f :: fs' => x' <- use (fst f) (snd f) total x ;; run_uses use fs' x' end.
Lemma numbered_skip : forall l j m, skipn j (numbered step m l) = numbered step (m + Z.of_nat j) (skipn j l).
Proof.
  clear. induction l as [|x l IH]; intros j m; [destruct j; reflexivity|]. destruct j as [|j].
  - cbn [skipn]. f_equal. lia.
  - cbn [numbered skipn]. rewrite IH. f_equal. lia.
Qed.
Lemma len_left : length left_ = k.
Proof using K. clear - K. unfold left_. rewrite firstn_length. apply Nat.min_l. exact K. Qed.
Lemma replay_runs {X} (use : snapshot -> Z -> Z -> X -> option X) : forall todo i fuel src x,
  skipn i left_ = todo -> on' src (at_ i) -> (length todo <= fuel)%nat -> (i <= k)%nat ->
  match run_uses use (numbered step (Z.of_nat i) todo) x with
  | Some x' => exists src', replay fuel n use src x = Go (src', x') /\ on' src' (at_ k)
  | None => replay fuel n use src x = Stop Violated
  end.
Proof using F G H K.
  induction todo as [|s todo IH]; intros i fuel src x E O Hf Hi.
  - assert (i = k) as ->. { apply (f_equal (@length snapshot)) in E. rewrite skipn_length, len_left in E. cbn [length] in E. lia. }
    cbn [numbered run_uses]. exists src. split; [|exact O]. destruct (on_view n step ss content k F K src _ O) as (V1 & _). unfold replay. destruct fuel; rewrite V1; unfold at_, sf_count; cbn [sf_open sf_shown sf_all]; rewrite len_left, Z.ltb_irrefl; reflexivity.
  - assert (Hlt : (i < k)%nat). { apply (f_equal (@length snapshot)) in E. rewrite skipn_length, len_left in E. cbn [length] in E. lia. }
    destruct (on_view n step ss content k F K src _ O) as (V1 & _).
    assert (M : more src = true). { rewrite V1. unfold at_, sf_count; cbn [sf_open sf_shown sf_all]. rewrite len_left. cbn [andb]. lia. }
    cbn [length] in Hf. destruct fuel as [|fuel]; [lia|]. cbn [replay]. rewrite M. cbn [negb].
    destruct (skip_cons s todo left_ i E) as [N E'].
    pose proof (call_on n step ss content k F G H K src (at_ i) Next O Logic.I) as C. cbn [shelf_move] in C. unfold show in C. cbn [at_ sf_all sf_shown sf_open sf_step] in C.
    rewrite N in C. destruct C as (src' & -> & O').
    destruct (on_view n step ss content k F K src' _ O') as (_ & V2 & V3 & _). cbn [sf_shown sf_step] in V2. unfold sf_count in V3; cbn [sf_all sf_step] in V3.
    rewrite V2, V3. cbn [numbered run_uses fst snd]. change (Z.of_nat (length left_) * step) with total. replace (Z.of_nat (S i)) with (Z.of_nat i + 1) by lia.
    destruct (use s ((Z.of_nat i + 1) * step) total x) as [x'|]; cbn [orElse andThen obind]; [|reflexivity].
    replace (Z.of_nat i + 1) with (Z.of_nat (S i)) by lia. apply IH; [exact E'|exact O'|lia|lia].
Qed.
End loops.
