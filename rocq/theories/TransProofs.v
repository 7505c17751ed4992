From Coq Require Import ZArith Reals List Bool Arith Permutation Sorting.Sorted Lra Lia.
From Verif Require Import TextModel GeomModel GeomProofs BoxModel BoxSpec BoxProofs PbcModel PbcSpec RFloorModel LatticeModel LatticeSpec LatticeProofs LatticeNormProofs PackModel RotModel OptModel TransModel TransSpec.
Import ListNotations.
Local Open Scope nat_scope.

(** *** Bins *)
Section Bins.
Context {K : Type}.
Lemma join_fst (near : K -> bool) key i bins : (forall y, In y (map fst bins) -> (near y = true <-> y = key)) ->
  (In key (map fst bins) /\ map fst (join_bin near key i bins) = map fst bins) \/
  (~ In key (map fst bins) /\ map fst (join_bin near key i bins) = map fst bins ++ [key]).
Proof.
  induction bins as [|[y is'] bins IH]; intros H; cbn [join_bin map fst].
  - right. split; [intros []|reflexivity].
  - destruct (near y) eqn:N.
    + left. pose proof (proj1 (H y (or_introl eq_refl)) N) as ->. split; [left; reflexivity|reflexivity].
    + assert (y <> key) as NE by (intros ->; pose proof (proj2 (H key (or_introl eq_refl)) eq_refl); congruence).
      destruct (IH (fun z I => H z (or_intror I))) as [[I E]|[I E]]; cbn [map fst]; rewrite E.
      * left. split; [right; exact I|reflexivity].
      * right. split; [intros [J|J]; [congruence|contradiction]|reflexivity].
Qed.
Lemma join_in (near : K -> bool) key i bins y is' : (forall y, In y (map fst bins) -> (near y = true <-> y = key)) -> NoDup (map fst bins) ->
  In (y, is') (join_bin near key i bins) -> (y <> key /\ In (y, is') bins) \/ (y = key /\ exists is0, In (y, is0) bins /\ is' = is0 ++ [i]) \/
    (y = key /\ ~ In key (map fst bins) /\ is' = [i]).
Proof.
  induction bins as [|[z js] bins IH]; intros H D I; cbn [join_bin map fst] in *.
  - destruct I as [I|[]]. injection I as <- <-. right; right. auto.
  - inversion D as [|? ? NI D']; subst. destruct (near z) eqn:N.
    + pose proof (proj1 (H z (or_introl eq_refl)) N) as ->. destruct I as [I|I].
      * injection I as <- <-. right; left. split; [reflexivity|]. exists js. split; [left; reflexivity|reflexivity].
      * left. split; [|right; exact I]. intros ->. apply NI. apply in_map_iff. exists (key, is'). split; [reflexivity|exact I].
    + assert (z <> key) as NE by (intros ->; pose proof (proj2 (H key (or_introl eq_refl)) eq_refl); congruence).
      destruct I as [I|I].
      * injection I as <- <-. left. split; [exact NE|left; reflexivity].
      * destruct (IH (fun x J => H x (or_intror J)) D' I) as [[A B]|[(A&is0&B&C)|(A&B&C)]].
        -- left. split; [exact A|right; exact B].
        -- right; left. split; [exact A|]. exists is0. split; [right; exact B|exact C].
        -- right; right. split; [exact A|]. split; [|exact C]. intros [J|J]; [congruence|contradiction].
Qed.
Variables (key : shape -> K) (near : K -> K -> bool).
Definition bins_of (done : list (nat * shape)) (bins : list (K * list nat)) : Prop :=
  NoDup (map fst bins) /\ (forall y is', In (y, is') bins -> NoDup is' /\ (exists p, In p done /\ key (snd p) = y) /\ forall i, In i is' <-> exists s, In (i, s) done /\ key s = y) /\
  forall p, In p done -> In (key (snd p)) (map fst bins).
Definition bin_step (bins : list (K * list nat)) (p : nat * shape) := join_bin (fun y => near y (key (snd p))) (key (snd p)) (fst p) bins.
Lemma bins_step done bins p : bins_of done bins -> (forall q, In q (p :: done) -> (near (key (snd q)) (key (snd p)) = true <-> key (snd q) = key (snd p))) ->
  ~ In (fst p) (map fst done) -> bins_of (done ++ [p]) (bin_step bins p).
Proof.
  intros (D&B&C) H F.
  assert (N : forall y, In y (map fst bins) -> (near y (key (snd p)) = true <-> y = key (snd p))).
  { intros y I. apply in_map_iff in I as ([y' is']&<-&I). cbn [fst]. destruct (B y' is' I) as (_&(q&Q&<-)&_). apply H. right; exact Q. }
  assert (I1 : forall q, In q (done ++ [p]) <-> In q done \/ q = p) by (intros q; rewrite in_app_iff; cbn; intuition congruence).
  split; [|split].
  - destruct (join_fst (fun y => near y (key (snd p))) (key (snd p)) (fst p) bins N) as [[_ E]|[I E]]; unfold bin_step; rewrite E; [exact D|].
    apply (Permutation_NoDup (Permutation_cons_append (map fst bins) (key (snd p)))). constructor; assumption.
  - intros y is' I. destruct (join_in _ _ _ _ _ _ N D I) as [[A J]|[(A&is0&J&E)|(A&J&E)]].
    + destruct (B y is' J) as (B1&(q&Q&E)&B2). split; [exact B1|]. split; [exists q; split; [apply I1; left; exact Q|exact E]|].
      intros i. rewrite B2. split; intros (s&S&T); exists s; (split; [|exact T]).
      * apply I1. left; exact S.
      * apply I1 in S as [S|S]; [exact S|]. exfalso. subst p. cbn in A. congruence.
    + destruct (B y is0 J) as (B1&(q&Q&E')&B2). subst is' y. split; [|split].
      * apply (Permutation_NoDup (Permutation_cons_append is0 (fst p))). constructor; [|exact B1]. intros I'. apply B2 in I' as (s&S&_). apply F. apply in_map_iff. exists (fst p, s). auto.
      * exists p. split; [apply I1; right; reflexivity|reflexivity].
      * intros i. rewrite in_app_iff, B2. cbn [In]. split.
        -- intros [(s&S&T)|[<-|[]]]; [exists s; split; [apply I1; left; exact S|exact T]|exists (snd p); split; [apply I1; right; destruct p; reflexivity|reflexivity]].
        -- intros (s&S&T). apply I1 in S as [S|S]; [left; exists s; auto|right; left; subst p; reflexivity].
    + subst is' y. split; [repeat constructor; intros []|]. split; [exists p; split; [apply I1; right; reflexivity|reflexivity]|].
      intros i. cbn [In]. split.
      * intros [<-|[]]. exists (snd p). split; [apply I1; right; destruct p; reflexivity|reflexivity].
      * intros (s&S&T). apply I1 in S as [S|S]; [|left; subst p; reflexivity]. exfalso. apply J. rewrite <- T. apply (C (i, s) S).
  - intros q I. unfold bin_step. destruct (join_fst (fun y => near y (key (snd p))) (key (snd p)) (fst p) bins N) as [[J E]|[J E]]; rewrite E.
    + apply I1 in I as [I| ->]; [apply C, I|exact J].
    + apply in_or_app. apply I1 in I as [I| ->]; [left; apply C, I|right; left; reflexivity].
Qed.
Lemma bins_fold todo : forall done bins, bins_of done bins -> (forall p q, In p (done ++ todo) -> In q (done ++ todo) -> (near (key (snd q)) (key (snd p)) = true <-> key (snd q) = key (snd p))) ->
  NoDup (map fst (done ++ todo)) -> bins_of (done ++ todo) (fold_left bin_step todo bins).
Proof.
  induction todo as [|p todo IH]; intros done bins B H D; cbn [fold_left]; [rewrite app_nil_r; exact B|].
  replace (done ++ p :: todo) with ((done ++ [p]) ++ todo) in * by (rewrite <- app_assoc; reflexivity).
  apply IH; [|exact H|exact D]. apply bins_step; [exact B| |].
  - intros q I. apply H; apply in_or_app; left; apply in_or_app; [right; left; reflexivity|]. destruct I as [<-|I]; [right; left; reflexivity|left; exact I].
  - intros X. rewrite !map_app in D. cbn [map] in D. rewrite <- app_assoc in D. cbn [app] in D. apply (NoDup_remove_2 _ _ _ D). apply in_or_app. left; exact X.
Qed.
Lemma combine_seq_in {A} (l : list A) i x : forall n, In (i, x) (combine (seq n (length l)) l) <-> n <= i /\ nth_error l (i - n) = Some x.
Proof.
  induction l as [|y l IH]; intros n; cbn [length seq combine In].
  - split; [intros []|]. intros [_ H]. destruct (i - n); discriminate.
  - rewrite IH. split.
    + intros [E|[L H]]; [injection E as <- <-; split; [lia|rewrite Nat.sub_diag; reflexivity]|]. split; [lia|]. replace (i - n) with (S (i - S n)) by lia. exact H.
    + intros [L H]. destruct (i - n) as [|m] eqn:E; cbn in H; [left; injection H as <-; f_equal; lia|right; split; [lia|]]. replace (i - S n) with m by lia. exact H.
Qed.
Lemma combine_seq_fst {A} (l : list A) n : map fst (combine (seq n (length l)) l) = seq n (length l).
Proof. revert n. induction l as [|x l IH]; intros n; [reflexivity|]. cbn. f_equal. apply IH. Qed.
Lemma associate_bins cell : (forall s s', In s cell -> In s' cell -> (near (key s) (key s') = true <-> key s = key s')) ->
  bins_of (combine (seq 0 (length cell)) cell) (associate key near cell).
Proof.
  intros H. apply (bins_fold (combine (seq 0 (length cell)) cell) [] []).
  - split; [constructor|]. split; [intros y is' []|intros p []].
  - cbn [app]. intros [i s] [j t] P Q. apply combine_seq_in in P as [_ P], Q as [_ Q]. cbn [snd]. apply H; eapply nth_error_In; eassumption.
  - cbn [app]. rewrite combine_seq_fst. apply seq_NoDup.
Qed.
End Bins.

(** *** Sorted lists *)
Lemma strictly_sorted_unique l l' : StronglySorted Rlt l -> StronglySorted Rlt l' -> (forall x, In x l <-> In x l') -> l = l'.
Proof.
  intros H. revert l'. induction H as [|x l H IH F]; intros l' H' E.
  - destruct l' as [|y l']; [reflexivity|]. destruct (proj2 (E y) (or_introl eq_refl)).
  - destruct H' as [|y l' H' F']; [destruct (proj1 (E x) (or_introl eq_refl))|].
    rewrite Forall_forall in F, F'. assert (x = y) as ->.
    { destruct (proj1 (E x) (or_introl eq_refl)) as [A|A]; [auto|]. destruct (proj2 (E y) (or_introl eq_refl)) as [B|B]; [auto|].
      pose proof (F y B). pose proof (F' x A). lra. }
    f_equal. apply IH; [exact H'|]. intros z. split; intros I.
    + destruct (proj1 (E z) (or_intror I)) as [A|A]; [subst z; pose proof (F y I); lra|exact A].
    + destruct (proj2 (E z) (or_intror I)) as [A|A]; [subst z; pose proof (F' y I); lra|exact A].
Qed.
Lemma below_nth zs n z : StronglySorted Rlt zs -> nth_error zs n = Some z -> layers_below zs z = n.
Proof.
  intros H. revert n. induction H as [|x l H IH F]; intros n E; [destruct n; discriminate|]. unfold layers_below. cbn [filter]. rewrite Forall_forall in F.
  destruct n as [|n]; cbn in E.
  - injection E as ->. destruct (Rlt_dec z z); [lra|]. assert (G : filter (fun z0 => if Rlt_dec z0 z then true else false) l = []); [|rewrite G; reflexivity].
    clear IH H. induction l as [|y l IH]; [reflexivity|]. cbn. destruct (Rlt_dec y z) as [L|L]; [pose proof (F y (or_introl eq_refl)); lra|]. apply IH. intros w I. apply F. right; exact I.
  - destruct (Rlt_dec x z) as [L|L]; [cbn; f_equal; apply IH, E|]. exfalso. apply L, F. eapply nth_error_In, E.
Qed.
Lemma insert_bin_permutation {A} (x : R * A) l : Permutation (insert_bin x l) (x :: l).
Proof. induction l as [|y l IH]; cbn [insert_bin]; [reflexivity|]. destruct (Rltb (fst y) (fst x)); [|reflexivity]. rewrite IH. constructor. Qed.
Lemma sort_bins_permutation {A} (l : list (R * A)) : Permutation (sort_bins l) l.
Proof. induction l as [|x l IH]; [reflexivity|]. cbn. rewrite insert_bin_permutation. constructor. exact IH. Qed.
Lemma insert_bin_sorted {A} (x : R * A) l : StronglySorted Rlt (map fst l) -> ~ In (fst x) (map fst l) -> StronglySorted Rlt (map fst (insert_bin x l)).
Proof.
  induction l as [|y l IH]; intros H N; cbn [insert_bin map]; [repeat constructor|]. cbn [map] in H, N. inversion H as [|? ? H' F]; subst. rewrite Forall_forall in F.
  destruct (Rltb (fst y) (fst x)) eqn:E.
  - apply Rltb_true in E. cbn [map]. constructor; [apply IH; [exact H'|intros I; apply N; right; exact I]|]. rewrite Forall_forall. intros z I.
    apply (Permutation_in _ (Permutation_map fst (insert_bin_permutation x l))) in I. destruct I as [<-|I]; [exact E|apply F, I].
  - apply Rltb_false in E. assert (fst x < fst y)%R by (assert (fst y <> fst x) by (intros G; apply N; left; exact G); lra).
    cbn [map]. constructor; [exact H|]. constructor; [assumption|]. rewrite Forall_forall. intros z I. pose proof (F z I). lra.
Qed.
Lemma sort_bins_sorted {A} (l : list (R * A)) : NoDup (map fst l) -> StronglySorted Rlt (map fst (sort_bins l)).
Proof.
  induction l as [|x l IH]; intros D; [constructor|]. cbn [map] in D. inversion D as [|? ? N D']; subst. cbn. apply insert_bin_sorted; [apply IH, D'|].
  intros I. apply N. apply (Permutation_in _ (Permutation_map fst (sort_bins_permutation l))), I.
Qed.

(** *** Layers of a cell *)
Definition coord (a : axis) (s : shape) : R := vget (sh_pos s) a.
Definition layers_of (a : axis) (cell : list shape) (zs : list R) (layers : list (R * list nat)) : Prop :=
  map fst layers = zs /\ forall q z is', nth_error layers q = Some (z, is') -> nth_error zs q = Some z /\ NoDup is' /\
    forall i, In i is' <-> exists s, nth_error cell i = Some s /\ coord a s = z.
Lemma layers_correct a cell zs : distinct_layers a cell -> layer_coordinates a cell zs -> layers_of a cell zs (getLayerAssociation cell a).
Proof.
  intros D [S Z]. unfold getLayerAssociation.
  assert (B : bins_of (coord a) (combine (seq 0 (length cell)) cell) (associate (coord a) layer_near cell)).
  { apply associate_bins. intros s s' I J. unfold layer_near, LAYER_EPSILON. rewrite Rltb_true. unfold coord. split.
    - intros L. destruct (D s s' I J) as [E|E]; [exact E|]. pose proof (Rlt_not_le _ _ L). contradiction.
    - intros ->. rewrite Rminus_diag_eq, Rabs_R0 by reflexivity. apply Rinv_0_lt_compat, pow_lt. lra. }
  change (fun s : shape => vget (sh_pos s) a) with (coord a). set (bins := associate (coord a) layer_near cell) in *. clearbody bins. destruct B as (N&B&C).
  assert (PE : forall z is', In (z, is') (sort_bins bins) <-> In (z, is') bins) by (intros z is'; split; apply Permutation_in; [|symmetry]; apply sort_bins_permutation).
  assert (M : map fst (sort_bins bins) = zs).
  { apply strictly_sorted_unique; [apply sort_bins_sorted, N|exact S|]. intros x. rewrite Z. split.
    - intros I. apply in_map_iff in I as ([z is']&<-&I). apply PE in I. destruct (B z is' I) as (_&([i s]&P&E)&_). apply combine_seq_in in P as [_ P]. exists s. split; [eapply nth_error_In, P|exact E].
    - intros (s&I&E). apply In_nth_error in I as [i I]. assert (Q : In (i, s) (combine (seq 0 (length cell)) cell)) by (apply combine_seq_in; rewrite Nat.sub_0_r; split; [lia|exact I]).
      pose proof (C (i, s) Q) as J. cbn [snd] in J.
      unfold coord in J. rewrite E in J. apply (Permutation_in _ (Permutation_sym (Permutation_map fst (sort_bins_permutation bins)))), J. }
  split; [exact M|]. intros q z is' E. split; [rewrite <- M, nth_error_map, E; reflexivity|]. apply nth_error_In in E. apply PE in E. destruct (B z is' E) as (B1&_&B2). split; [exact B1|].
  intros i. rewrite B2. split; intros (s&I&G); exists s; (split; [|exact G]).
  - apply combine_seq_in in I as [_ I]. rewrite Nat.sub_0_r in I. exact I.
  - apply combine_seq_in. rewrite Nat.sub_0_r. split; [lia|exact I].
Qed.

(** *** The least common multiple *)
Lemma lcm_loop_spec n1 n2 : 0 < n1 -> 0 < n2 -> forall fuel k, 0 < k -> k * n1 <= Nat.lcm n1 n2 -> Nat.lcm n1 n2 <= (k + fuel) * n1 -> lcm_loop fuel (k * n1) n1 n2 = Some (Nat.lcm n1 n2).
Proof.
  intros P Q. destruct (Nat.divide_lcm_l n1 n2) as [m M]. assert (NZ : Nat.lcm n1 n2 <> 0) by (intros E; apply Nat.lcm_eq_0 in E; lia).
  induction fuel as [|fuel IH]; intros k K L U; cbn [lcm_loop].
  - assert (k * n1 = Nat.lcm n1 n2) as -> by (rewrite Nat.add_0_r in U; lia). destruct (Nat.divide_lcm_r n1 n2) as [w W]. rewrite W at 1. rewrite Nat.mod_mul by lia. reflexivity.
  - destruct (Nat.eqb_spec ((k * n1) mod n2) 0) as [E|E].
    + f_equal. apply Nat.le_antisymm; [exact L|]. apply Nat.divide_pos_le; [nia|]. apply Nat.lcm_least; [exists k; reflexivity|]. apply Nat.mod_divide in E; [exact E|lia].
    + replace (k * n1 + n1) with (S k * n1) by (cbn; lia). apply IH; [lia| |cbn in *; lia]. rewrite M in *. assert (k <> m). { intros ->. apply E. destruct (Nat.divide_lcm_r n1 n2) as [w W]. rewrite <- M, W. apply Nat.mod_mul. lia. }
      apply Nat.mul_le_mono_r. nia.
Qed.
Lemma LCM_correct n1 n2 : LCM n1 n2 = if Nat.ltb 0 n1 && Nat.ltb 0 n2 then Some (Nat.lcm n1 n2) else None.
Proof.
  unfold LCM. destruct (Nat.ltb_spec 0 n1), (Nat.ltb_spec 0 n2); cbn [andb]; try reflexivity.
  assert (G : forall m1 m2, 0 < m1 -> 0 < m2 -> lcm_loop m2 m1 m1 m2 = Some (Nat.lcm m1 m2)).
  { intros m1 m2 P Q. replace m1 with (1 * m1) at 1 by lia. assert (L : m1 <= Nat.lcm m1 m2) by (apply Nat.divide_pos_le; [|apply Nat.divide_lcm_l]; destruct (Nat.lcm m1 m2) eqn:E; [apply Nat.lcm_eq_0 in E; lia|lia]).
    apply lcm_loop_spec; [exact P|exact Q|lia|lia|]. assert (Nat.lcm m1 m2 <= m1 * m2); [|nia]. apply Nat.divide_pos_le; [nia|]. apply Nat.lcm_least; [exists m2; lia|exists m1; lia]. }
  destruct (Nat.ltb n1 n2); rewrite G by assumption; [rewrite Nat.lcm_comm|]; reflexivity.
Qed.

(** *** Lists of replicas *)
Lemma nth_replicas {A B} (F : nat -> A -> B) l f m : 0 < length l -> nth_error (flat_map (fun i => map (F i) l) (seq 0 f)) m =
  if Nat.ltb m (f * length l) then option_map (F (m / length l)) (nth_error l (m mod length l)) else None.
Proof.
  intros P. induction f as [|f IH].
  - cbn. destruct m; reflexivity.
  - rewrite seq_S, flat_map_app. cbn [flat_map]. rewrite app_nil_r.
    assert (L : length (flat_map (fun i => map (F i) l) (seq 0 f)) = f * length l).
    { clear IH. induction f as [|f IH]; [reflexivity|]. rewrite seq_S, flat_map_app, app_length, IH. cbn [flat_map]. rewrite app_nil_r, map_length. lia. }
    destruct (Nat.ltb_spec m (f * length l)) as [Q|Q].
    + rewrite nth_error_app1 by lia. rewrite IH. destruct (Nat.ltb_spec m (S f * length l)) as [_|X]; [reflexivity|cbn in X; lia].
    + rewrite nth_error_app2 by lia. rewrite L, nth_error_map. cbn [plus]. destruct (Nat.ltb_spec m (S f * length l)) as [X|X].
      * assert (m = length l * f + (m - f * length l)) as E by lia. assert (m / length l = f) as ->.
        { symmetry. apply (Nat.div_unique m (length l) f (m - f * length l)); [cbn in X; lia|lia]. }
        assert (m mod length l = m - f * length l) as ->; [|reflexivity]. symmetry. apply (Nat.mod_unique m (length l) f); [cbn in X; lia|lia].
      * replace (nth_error l (m - f * length l)) with (@None A); [reflexivity|]. symmetry. apply nth_error_None. cbn in X. lia.
Qed.
Lemma length_replicas {A B} (F : nat -> A -> B) l f : length (flat_map (fun i => map (F i) l) (seq 0 f)) = f * length l.
Proof. induction f as [|f IH]; [reflexivity|]. rewrite seq_S, flat_map_app, app_length, IH. cbn [flat_map]. rewrite app_nil_r, map_length. lia. Qed.
Lemma nth_ext {A} (l l' : list A) : (forall i, nth_error l i = nth_error l' i) -> l = l'.
Proof.
  revert l'. induction l as [|x l IH]; intros [|y l'] H; [reflexivity|specialize (H 0); discriminate|specialize (H 0); discriminate|].
  pose proof (H 0) as E. cbn in E. injection E as ->. f_equal. apply IH. intros i. apply (H (S i)).
Qed.
Lemma nodup_flat_map {A B} (f : A -> list B) l : NoDup l -> (forall x, In x l -> NoDup (f x)) -> (forall x y z, In x l -> In y l -> In z (f x) -> In z (f y) -> x = y) -> NoDup (flat_map f l).
Proof.
  induction 1 as [|x l N D IH]; intros U E; [constructor|]. cbn [flat_map]. assert (G : forall m, NoDup m -> (forall z, In z m -> ~ In z (flat_map f l)) -> NoDup (m ++ flat_map f l)).
  { intros m Dm F. induction Dm as [|z m Nz Dm IHm]; cbn; [apply IH; [intros y I; apply U; right; exact I|intros a b c I J; apply E; right; assumption]|].
    constructor; [|apply IHm; intros w W; apply F; right; exact W]. intros I. apply in_app_or in I as [I|I]; [contradiction|]. apply (F z (or_introl eq_refl) I). }
  apply G; [apply U; left; reflexivity|]. intros z Z I. apply in_flat_map in I as (y&Y&I). assert (x = y) as <- by (apply (E x y z); [left; reflexivity|right; exact Y|exact Z|exact I]). contradiction.
Qed.

(** *** Changes of single molecules *)
Lemma change_at_spec f i cell : forall s s', nth_error cell i = Some s -> f s = Some s' -> exists cell', change_at i f cell = Some cell' /\
  forall j, nth_error cell' j = if Nat.eqb j i then Some s' else nth_error cell j.
Proof.
  revert cell. induction i as [|i IH]; intros [|x cell] s s' E F; cbn in E; try discriminate; cbn [change_at].
  - injection E as ->. rewrite F. cbn [obind]. exists (s' :: cell). split; [reflexivity|]. intros [|j]; reflexivity.
  - destruct (IH cell s s' E F) as (c&->&H). cbn [obind]. exists (x :: c). split; [reflexivity|]. intros [|j]; [reflexivity|]. cbn. apply H.
Qed.
