(** Inheritance of environments. *)
From Coq Require Import Reals ZArith List Bool Lia.
From Verif Require Import PbcModel GeomModel BoxModel NGModel PackModel SimModel SimSpec.
Import ListNotations.
Open Scope nat_scope.

Section Environment.
Context {Par Smp Scl : Type}.
Notation env := (@environment Par Smp Scl).

Lemma combine_empty (e : env) : combineEnv emptyEnv e = e.
Proof. destruct e as [[?|] [?|] [|? ?] [| |?]]; reflexivity. Qed.
Lemma combine_twice (e r : env) : combineEnv e (combineEnv e r) = combineEnv e r.
Proof. destruct e as [[?|] [?|] [|? ?] [| |?]], r as [[?|] [?|] [|? ?] [| |?]]; reflexivity. Qed.
Lemma run_all (runs : list env) : forall e, run_environments e e runs = map (fun k => fold_left combineEnv (firstn (S k) runs) e) (seq 0 (length runs)).
Proof.
  induction runs as [|r runs IH]; intros e; [reflexivity|]. cbn [run_environments length seq map]. rewrite combine_twice. f_equal.
  rewrite IH. rewrite <- seq_shift, map_map. reflexivity.
Qed.

Lemma last_given_app {A} (l : list (option A)) o x : last_given l o -> last_given (l ++ [x]) (match x with Some y => Some y | None => o end).
Proof.
  intros H. destruct x as [y|].
  - exists l, []. split; [reflexivity|constructor].
  - destruct o as [z|]; simpl in *.
    + destruct H as (pre & post & -> & F). exists pre, (post ++ [None]). rewrite <- app_assoc. split; [reflexivity|]. apply Forall_app. split; auto.
    + apply Forall_app. split; auto.
Qed.
Lemma last_given_one {A} (x : option A) : last_given [x] x.
Proof. destruct x as [y|]; simpl; [exists [], []; split; [reflexivity|constructor]|auto]. Qed.
Lemma wins (l : list env) : forall e0 (before : list env), last_one_wins before e0 -> last_one_wins (before ++ l) (fold_left combineEnv l e0).
Proof.
  induction l as [|r l IH]; intros e0 before H; [rewrite app_nil_r; exact H|]. cbn [fold_left].
  replace (before ++ r :: l) with ((before ++ [r]) ++ l) by (rewrite <- app_assoc; reflexivity). apply IH.
  destruct H as (H1 & H2 & H3 & H4). unfold last_one_wins. rewrite !map_app. cbn [map].
  split; [exact (last_given_app _ _ _ H1)|]. split; [exact (last_given_app _ _ _ H2)|]. split.
  - pose proof (last_given_app _ _ (given_samplers r) H3) as X. unfold given_samplers in *. cbn [combineEnv ev_samplers]. destruct (ev_samplers r); exact X.
  - pose proof (last_given_app _ _ (given_scaler r) H4) as X. unfold given_scaler in *. cbn [combineEnv ev_scaler]. destruct (ev_scaler r); exact X.
Qed.
Lemma complete_iff (e : env) : isComplete e = true <-> complete e.
Proof.
  destruct e as [t p sm sc]; unfold complete, given_samplers, given_scaler, isComplete; cbn [ev_temperature ev_pressure ev_samplers ev_scaler].
  destruct t as [?|]; [|split; [destruct sc, p, sm; discriminate|intros [H _]; congruence]].
  destruct sm as [|? ?]; [split; [destruct sc, p; discriminate|intros (_ & H & _); congruence]|].
  destruct sc as [| |sc0].
  - split; [discriminate|]. intros (_ & _ & H & _). congruence.
  - split; [|reflexivity]. intros _. split; [discriminate|]. split; [discriminate|]. split; [discriminate|]. intros (z & H). discriminate.
  - destruct p as [?|].
    + split; [|reflexivity]. intros _. split; [discriminate|]. split; [discriminate|]. split; [discriminate|]. discriminate.
    + split; [discriminate|]. intros (_ & _ & _ & H). exfalso. apply H; [eauto|reflexivity].
Qed.
Lemma fold_firstn (base : env) runs start : forall r, nth_error runs start = Some r ->
  combineEnv (fold_left combineEnv (firstn start runs) base) r = fold_left combineEnv (firstn (S start) runs) base.
Proof.
  intros r H. assert (E : firstn (S start) runs = firstn start runs ++ [r]).
  { revert start H. induction runs as [|x l IH]; intros [|k] H; simpl in *; try discriminate; [injection H as ->; reflexivity|]. f_equal. exact (IH k H). }
  rewrite E, fold_left_app. reflexivity.
Qed.
Lemma recreate_spec (base : env) runs start cont : start < length runs ->
  recreateEnvironment base runs start cont = let e := fold_left combineEnv (firstn (S start) runs) base in if isComplete e then Some e else None.
Proof.
  intros H. unfold recreateEnvironment. destruct (nth_error runs start) as [r|] eqn:E; [|apply nth_error_None in E; lia]. cbn [obind].
  rewrite (fold_firstn base runs start r E). assert (L : (start <? length runs) = true) by (apply Nat.ltb_lt; exact H).
  destruct cont; cbn [obind]; rewrite L, andb_true_r; reflexivity.
Qed.
Lemma firstn_skipn_add {A} (l : list A) a k : firstn a l ++ firstn k (skipn a l) = firstn (a + k) l.
Proof. revert l. induction a as [|a IH]; intros l; [reflexivity|]. destruct l as [|x l]; simpl; [rewrite firstn_nil; reflexivity|]. f_equal. apply IH. Qed.
Lemma environments (base : env) runs start cont l : casino_environments base runs start cont = Some l ->
  start + length l = length runs /\ 0 < length l /\ forall k e, nth_error l k = Some e -> e = fold_left combineEnv (firstn (S (start + k)) runs) base.
Proof.
  unfold casino_environments. destruct (recreateEnvironment base runs start cont) as [e0|] eqn:E; [|discriminate]. cbn [obind].
  assert (H : start < length runs).
  { unfold recreateEnvironment in E. destruct (if cont then _ else _) as [e|] in E; [|discriminate]. cbn [obind] in E. destruct (Nat.ltb_spec start (length runs)); [auto|]. rewrite andb_false_r in E. discriminate. }
  rewrite recreate_spec in E by exact H. cbv zeta in E. destruct (isComplete _); [|discriminate]. apply (f_equal (fun o => match o with Some x => x | None => base end)) in E. subst e0.
  rewrite combine_empty, run_all. set (first := firstn (S start) runs). remember (skipn (S start) runs) as rest eqn:Er.
  assert (Lr : length rest = length runs - S start) by (rewrite Er; apply skipn_length).
  intros X. injection X as <-. cbn [length]. rewrite map_length, seq_length. split; [lia|]. split; [lia|].
  intros [|k] e He.
  - cbn [nth_error] in He. injection He as <-. rewrite Nat.add_0_r. reflexivity.
  - change (nth_error (map (fun k => fold_left combineEnv (firstn (S k) rest) (fold_left combineEnv first base)) (seq 0 (length rest))) k = Some e) in He.
    rewrite nth_error_map in He. destruct (nth_error (seq 0 _) k) as [j|] eqn:Ej; [|discriminate]. cbn [option_map] in He.
    apply (f_equal (fun o => match o with Some x => x | None => base end)) in He. subst e.
    assert (Hk : k < length rest) by (rewrite <- (seq_length (length rest) 0); apply nth_error_Some; congruence).
    assert (j = k). { apply (nth_error_nth _ _ 0) in Ej. rewrite seq_nth in Ej by exact Hk. simpl in Ej. congruence. } subst j.
    rewrite <- fold_left_app. unfold first. rewrite Er, (firstn_skipn_add runs (S start) (S k)). do 2 f_equal; lia.
Qed.
Lemma inherited (base : env) runs start cont l : casino_environments base runs start cont = Some l ->
  start + length l = length runs /\ (forall e, nth_error l 0 = Some e -> complete e) /\
  forall k e, nth_error l k = Some e -> last_one_wins (base :: firstn (S (start + k)) runs) e.
Proof.
  intros E. destruct (environments base runs start cont l E) as (A & B & C). split; [exact A|]. split.
  - intros e He. rewrite (C 0 e He), Nat.add_0_r. apply complete_iff.
    unfold casino_environments in E. assert (H : start < length runs) by lia. rewrite recreate_spec in E by exact H. cbv zeta in E. destruct (isComplete _); [reflexivity|discriminate].
  - intros k e He. assert (W : last_one_wins [base] base) by (unfold last_one_wins; cbn [map]; auto using last_given_one).
    rewrite (C k e He). exact (wins _ base [base] W).
Qed.
Lemma last_given_unique {A} (l : list (option A)) o o' : last_given l o -> last_given l o' -> o = o'.
Proof.
  assert (U : forall (l : list (option A)) x o', last_given l (Some x) -> last_given l o' -> o' = Some x).
  { clear. intros l x o' (pre & post & -> & F) H. destruct o' as [y|].
    - destruct H as (pre' & post' & E & F'). revert post' post F F' E. revert pre'. induction pre as [|a pre IH]; intros [|a' pre'] post' post F F' E; simpl in E.
      + injection E as -> _. reflexivity.
      + injection E as _ E. subst post. apply Forall_app in F. destruct F as [_ F]. inversion F; discriminate.
      + injection E as _ E. subst post'. apply Forall_app in F'. destruct F' as [_ F']. inversion F'; discriminate.
      + injection E as _ E. exact (IH pre' post' post F F' E).
    - simpl in H. apply Forall_app in H. destruct H as [_ H]. inversion H; discriminate. }
  intros H H'. destruct o as [x|]; [symmetry; exact (U l x o' H H')|]. destruct o' as [y|]; [exact (U l y None H' H)|reflexivity].
Qed.
(** When environments are found at all. *)
Lemma found (base : env) runs start cont : start < length runs ->
  ((exists l, casino_environments base runs start cont = Some l) <-> forall e, last_one_wins (base :: firstn (S start) runs) e -> complete e).
Proof.
  intros H. assert (W : last_one_wins [base] base) by (unfold last_one_wins; cbn [map]; auto using last_given_one).
  pose proof (wins (firstn (S start) runs) base [base] W) as W2. unfold casino_environments. rewrite recreate_spec by exact H. cbv zeta. split.
  - intros (l & E). destruct (isComplete _) eqn:C; [|discriminate]. apply complete_iff in C. intros e He.
    destruct W2 as (A1 & A2 & A3 & A4), He as (B1 & B2 & B3 & B4). unfold complete in *.
    rewrite (last_given_unique _ _ _ B1 A1), (last_given_unique _ _ _ B2 A2), (last_given_unique _ _ _ B3 A3), (last_given_unique _ _ _ B4 A4). exact C.
  - intros C. specialize (C _ W2). apply complete_iff in C. rewrite C. cbn [obind]. eauto.
Qed.
Lemma stays_disabled (base : env) runs start cont l k e j r : casino_environments base runs start cont = Some l -> nth_error l k = Some e ->
  nth_error runs j = Some r -> j <= start + k -> ev_scaler r = ScalerDisabled ->
  (forall i r', j < i <= start + k -> nth_error runs i = Some r' -> ev_scaler r' = ScalerUnset) -> ev_scaler e = ScalerDisabled.
Proof.
  intros E Ek Er Hj Hd Hu. destruct (inherited base runs start cont l E) as (_ & _ & W). destruct (W k e Ek) as (_ & _ & _ & Wg).
  assert (X : last_given (map given_scaler (base :: firstn (S (start + k)) runs)) (Some None)).
  { assert (Ef : firstn (S (start + k)) runs = firstn j runs ++ r :: firstn (start + k - j) (skipn (S j) runs)).
    { replace (S (start + k)) with (S j + (start + k - j)) by lia. rewrite <- firstn_skipn_add.
      assert (E1 : firstn (S j) runs = firstn j runs ++ [r]).
      { clear - Er. revert j Er. induction runs as [|x l IH]; intros [|i] H; simpl in *; try discriminate; [injection H as ->; reflexivity|]. f_equal. exact (IH i H). }
      rewrite E1, <- app_assoc. reflexivity. }
    rewrite Ef. exists (map given_scaler (base :: firstn j runs)), (map given_scaler (firstn (start + k - j) (skipn (S j) runs))). split.
    - cbn [map]. rewrite map_app. cbn [map app]. unfold given_scaler at 3. rewrite Hd. reflexivity.
    - apply Forall_forall. intros x Hx. apply in_map_iff in Hx. destruct Hx as (r' & <- & Hin). apply In_nth_error in Hin. destruct Hin as (i & Hi).
      assert (Hl : i < start + k - j). { assert (i < length (firstn (start + k - j) (skipn (S j) runs))) by (apply nth_error_Some; congruence). rewrite firstn_length in *. lia. }
      assert (Hn : nth_error runs (S j + i) = Some r').
      { clear - Hi Hl. assert (A : forall {A} (l : list A) n i, i < n -> nth_error (firstn n l) i = nth_error l i).
        { intros A l. induction l as [|x l IH]; intros [|n] [|m] H; simpl; try lia; try reflexivity. apply IH. lia. }
        rewrite A in Hi by exact Hl. assert (B : forall {A} (l : list A) n i, nth_error (skipn n l) i = nth_error l (n + i)).
        { intros B l. induction l as [|x l IH]; intros [|n] m; simpl; try reflexivity; [destruct m; reflexivity|apply IH]. }
        rewrite B in Hi. exact Hi. }
      unfold given_scaler. rewrite (Hu (S j + i) r'); [reflexivity|lia|exact Hn]. }
  pose proof (last_given_unique _ _ _ Wg X) as Y. unfold given_scaler in Y. destruct (ev_scaler e); try discriminate. reflexivity.
Qed.
End Environment.
