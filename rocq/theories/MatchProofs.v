From Coq Require Import ZArith List Bool Sorted Lia.
From Verif Require Import TextModel TextProofs PyonModel MatchModel MatchSpec.
Import ListNotations.
Open Scope Z_scope.

Lemma mbind_match {A B} (r : report A) (f : A -> report B) b : mbind r f = Match b <-> exists a, r = Match a /\ f a = Match b.
Proof. destruct r as [a| |]; cbn; split; intros H; [exists a; auto|destruct H as (x & E & H); injection E as ->; exact H|discriminate|destruct H as (x & E & _); discriminate|discriminate|destruct H as (x & E & _); discriminate]. Qed.
Lemma mbind_throws {A B} (r : report A) (f : A -> report B) : r <> Throws -> (forall a, r = Match a -> f a <> Throws) -> mbind r f <> Throws.
Proof. destruct r as [a| |]; cbn; intros H1 H2; [apply H2; reflexivity|discriminate|congruence]. Qed.
Lemma match_inj {A} (a b : A) : Match a = Match b -> a = b. Proof. intros H. injection H as ->. reflexivity. Qed.
Lemma filtered_iff {A} (fs : list (A -> bool)) a : filtered fs a = true <-> all_true fs a.
Proof. unfold filtered, all_true. rewrite forallb_forall, Forall_forall. reflexivity. Qed.
Lemma filtered_match {A} (fs : list (A -> bool)) (a b : A) : (if filtered fs a then Match a else NoMatch) = Match b <-> a = b /\ all_true fs b.
Proof. rewrite <- filtered_iff. destruct (filtered fs a) eqn:E; split; intros H; try discriminate; [apply match_inj in H; subst; auto|destruct H as [-> _]; reflexivity|destruct H as [-> H]; congruence]. Qed.
Lemma filtered_quiet {A} (fs : list (A -> bool)) (a : A) : (if filtered fs a then Match a else NoMatch) <> Throws. Proof. destruct (filtered fs a); discriminate. Qed.

Section Proofs.
Context {V : Type} (of_node : node -> V).
Notation acc := (accepts of_node).

(** Arrays. *)
Lemma elements_iff m l : forall vs, match_elements V m l = Match vs <-> Forall2 (fun n v => mt_match V m n = Match v) l vs.
Proof.
  induction l as [|n l IH]; intros vs; cbn [match_elements].
  - split; intros H; [apply match_inj in H; subst; constructor|inversion H; reflexivity].
  - rewrite mbind_match. split.
    + intros (v & H1 & H). apply mbind_match in H. destruct H as (ws & H2 & H). apply match_inj in H. subst. constructor; [exact H1|apply IH; exact H2].
    + intros H. inversion H as [|? v ? ws H1 H2]; subst. exists v. split; [exact H1|]. apply mbind_match. exists ws. split; [apply IH; exact H2|reflexivity].
Qed.
Lemma nodes_map l vs : Forall2 (fun n v => v = of_node n) l vs -> map of_node l = vs.
Proof. induction 1 as [|n v l vs E _ IH]; [reflexivity|]. cbn [map]. rewrite E, IH. reflexivity. Qed.
Lemma array_iff a l vs : match_array_data V of_node a l = Match vs <-> array_matched of_node a l vs.
Proof.
  unfold match_array_data, array_matched. rewrite mbind_match. split.
  - intros (ws & H1 & H2). apply filtered_match in H2. destruct H2 as [-> H2]. split; [|exact H2]. destruct (am_element V a) as [m|]; cbn [accepts]; [apply elements_iff; exact H1|]. apply match_inj in H1. subst vs. clear. induction l; constructor; [reflexivity|assumption].
  - intros [H1 H2]. exists vs. split; [|apply filtered_match; auto]. destruct (am_element V a) as [m|]; cbn [accepts] in H1; [apply elements_iff; exact H1|]. f_equal. apply nodes_map. exact H1.
Qed.
Lemma array_quiet a l : quiet_opt (am_element V a) -> match_array_data V of_node a l <> Throws.
Proof.
  intros Q. apply mbind_throws; [|intros; apply filtered_quiet]. destruct (am_element V a) as [m|]; [|discriminate]. cbn [quiet_opt] in Q. induction l as [|n l IH]; [discriminate|]. cbn [match_elements]. apply mbind_throws; [apply Q|]. intros v _. apply mbind_throws; [exact IH|discriminate].
Qed.

(** Keys in order. *)
Definition before {A} (x y : list Z * A) : Prop := text_ltb (fst x) (fst y) = true.
Lemma ltb_trans : forall a b c, text_ltb a b = true -> text_ltb b c = true -> text_ltb a c = true.
Proof.
  induction a as [|x a IH]; intros [|y b] [|z c]; cbn [text_ltb]; try discriminate; auto. intros H1 H2. apply orb_true_iff in H1, H2. apply orb_true_iff.
  destruct H1 as [H1|H1], H2 as [H2|H2]; rewrite ?andb_true_iff in *; rewrite ?Z.ltb_lt, ?Z.eqb_eq in *; try (left; lia). right. destruct H1 as [-> H1], H2 as [-> H2]. split; [reflexivity|]. eapply IH; eauto.
Qed.
Lemma ltb_total a : forall b, text_ltb a b = true \/ a = b \/ text_ltb b a = true.
Proof.
  induction a as [|x a IH]; intros [|y b]; cbn [text_ltb]; auto. destruct (Z.lt_total x y) as [H|[->|H]]; [left; apply orb_true_iff; left; lia| |right; right; apply orb_true_iff; left; lia]. rewrite Z.ltb_irrefl, Z.eqb_refl. cbn. destruct (IH b) as [H|[->|H]]; auto.
Qed.
Lemma ltb_irrefl a : text_ltb a a = false. Proof. induction a as [|x a IH]; [reflexivity|]. cbn [text_ltb]. rewrite Z.ltb_irrefl, Z.eqb_refl, IH. reflexivity. Qed.
Section Map.
Context {A : Type}.
Implicit Types (m : list (list Z * A)).
Lemma set_in k v m : StronglySorted before m -> forall k' v', In (k', v') (map_set k v m) <-> (k' = k /\ v' = v) \/ (k' <> k /\ In (k', v') m).
Proof.
  intros S. induction S as [|[k0 v0] m S IH F]; intros k' v'; cbn [map_set].
  - cbn [In]. split; [intros [E|[]]; injection E as -> ->; auto|]. intros [[-> ->]|[_ []]]. auto.
  - destruct (text_ltb k k0) eqn:L.
    + cbn [In]. split.
      * intros [E|H]; [injection E as -> ->; auto|]. right. split; [|exact H]. intros ->. destruct H as [E|H]; [injection E as -> ->; rewrite ltb_irrefl in L; discriminate|]. rewrite Forall_forall in F. pose proof (F _ H) as B. unfold before in B. cbn [fst] in B. pose proof (ltb_trans _ _ _ L B) as X. rewrite ltb_irrefl in X. discriminate.
      * intros [[-> ->]|[_ H]]; auto.
    + destruct (text_eqb k k0) eqn:E.
      * apply text_eqb_eq in E. subst k0. cbn [In]. split.
        -- intros [E|H]; [injection E as -> ->; auto|]. right. split; [|auto]. intros ->. rewrite Forall_forall in F. pose proof (F _ H) as B. unfold before in B. cbn [fst] in B. rewrite ltb_irrefl in B. discriminate.
        -- intros [[-> ->]|[N [H|H]]]; auto. injection H as -> ->. contradiction.
      * apply text_eqb_neq in E. cbn [In]. rewrite IH. split.
        -- intros [H|[H|[N H]]]; auto. injection H as -> ->. right. split; [congruence|auto].
        -- intros [H|[N [H|H]]]; auto.
Qed.
Lemma set_sorted k v m : StronglySorted before m -> StronglySorted before (map_set k v m).
Proof.
  intros S. induction S as [|[k0 v0] m S IH F]; cbn [map_set]; [repeat constructor|]. destruct (text_ltb k k0) eqn:L.
  - constructor; [constructor; auto|]. constructor; [exact L|]. eapply Forall_impl; [|exact F]. intros [k1 v1] B. unfold before in *. cbn [fst] in *. eapply ltb_trans; eauto.
  - destruct (text_eqb k k0) eqn:E.
    + apply text_eqb_eq in E. subst. constructor; auto.
    + constructor; [exact IH|]. apply Forall_forall. intros [k1 v1] H. apply set_in in H; [|exact S]. destruct H as [[-> ->]|[_ H]]; [|rewrite Forall_forall in F; apply (F (k1, v1) H)]. unfold before. cbn [fst]. destruct (ltb_total k k0) as [X|[X|X]]; [congruence| |exact X]. subst. apply text_eqb_neq in E. contradiction.
Qed.
Lemma map_of_in (l : list (list Z * A)) : NoDup (map fst l) -> forall m, StronglySorted before m -> (forall k v, In (k, v) m -> ~ In k (map fst l)) ->
  let r := fold_left (fun m e => map_set (fst e) (snd e) m) l m in StronglySorted before r /\ forall k v, In (k, v) r <-> In (k, v) l \/ In (k, v) m.
Proof.
  induction l as [|[k0 v0] l IH]; intros N m S D; cbn zeta; cbn [fold_left fst snd]; [split; [exact S|intros; cbn; tauto]|]. cbn [map fst] in N. inversion N as [|? ? N0 N']; subst.
  destruct (IH N' (map_set k0 v0 m) (set_sorted _ _ _ S)) as [S' I'].
  { intros k v H. apply set_in in H; [|exact S]. destruct H as [[-> ->]|[_ H]]; [exact N0|]. intros X. apply (D k v H). right. exact X. }
  split; [exact S'|]. intros k v. rewrite I', set_in by exact S. cbn [In]. split.
  - intros [H|[[-> ->]|[_ H]]]; auto.
  - intros [[E|H]|H]; auto; [injection E as -> ->; auto|]. right. right. split; [|exact H]. intros ->. apply (D k0 v H). left. reflexivity.
Qed.
Lemma sorted_nodup m : StronglySorted before m -> NoDup (map fst m).
Proof. induction 1 as [|[k v] m S IH F]; [constructor|]. cbn [map fst]. constructor; [|exact IH]. intros H. apply in_map_iff in H. destruct H as ([k' v'] & E & H). cbn [fst] in E. subst k'. rewrite Forall_forall in F. pose proof (F _ H) as B. unfold before in B. cbn [fst] in B. rewrite ltb_irrefl in B. discriminate. Qed.
Lemma sorted_unique m m' : StronglySorted before m -> StronglySorted before m' -> (forall k v, In (k, v) m <-> In (k, v) m') -> m = m'.
Proof.
  intros S. revert m'. induction S as [|[k v] m S IH F]; intros m' S' H.
  - destruct m' as [|[k v] m']; [reflexivity|]. exfalso. apply (H k v). left. reflexivity.
  - destruct S' as [|[k' v'] m' S' F']; [exfalso; apply (H k v); left; reflexivity|]. rewrite Forall_forall in F, F'.
    assert (E : (k, v) = (k', v')).
    { destruct (proj1 (H k v) (or_introl eq_refl)) as [E|I]; [symmetry; exact E|]. destruct (proj2 (H k' v') (or_introl eq_refl)) as [E|I']; [exact E|]. pose proof (F' _ I) as B1. pose proof (F _ I') as B2. unfold before in *. cbn [fst] in *. pose proof (ltb_trans _ _ _ B1 B2) as X. rewrite ltb_irrefl in X. discriminate. }
    injection E as -> ->. f_equal. apply IH; [exact S'|]. intros k0 v0. specialize (H k0 v0). cbn [In] in H. split; intros I.
    + destruct (proj1 H (or_intror I)) as [E|I']; [|exact I']. injection E as -> ->. pose proof (F _ I) as B. unfold before in B. cbn [fst] in B. rewrite ltb_irrefl in B. discriminate.
    + destruct (proj2 H (or_intror I)) as [E|I']; [|exact I']. injection E as -> ->. pose proof (F' _ I) as B. unfold before in B. cbn [fst] in B. rewrite ltb_irrefl in B. discriminate.
Qed.
End Map.
Lemma as_map_in l : NoDup (map fst l) -> StronglySorted before (as_map l) /\ forall k n, In (k, n) (as_map l) <-> In (k, n) l.
Proof. intros N. destruct (map_of_in l N [] ltac:(constructor) ltac:(intros k v [])) as [S I]. split; [exact S|]. intros k n. unfold as_map. rewrite I. cbn. tauto. Qed.

(** Dictionaries. *)
Lemma find_split {X} (f : X -> bool) l : match find f l with Some x => exists a b, l = a ++ x :: b /\ Forall (fun y => f y = false) a /\ f x = true | None => Forall (fun y => f y = false) l end.
Proof.
  induction l as [|y l IH]; cbn [find]; [constructor|]. destruct (f y) eqn:E; [exists [], l; auto|]. destruct (find f l) as [x|]; [|constructor; auto]. destruct IH as (a & b & -> & F & E'). exists (y :: a), b. auto.
Qed.
Lemma key_iff d k n v : match_key V of_node d k n = Match v <-> key_value of_node d k n v.
Proof.
  unfold match_key, key_value. pose proof (find_split (fun km => fst km k) (dm_keys V d)) as H. destruct (find _ (dm_keys V d)) as [km|].
  - destruct H as (a & b & E & F & T). split.
    + intros M. left. exists a, km, b. auto.
    + intros [(a' & km' & b' & E' & F' & T' & M)|[F' _]].
      * rewrite E in E'. assert (a' = a /\ km' = km) as [-> ->]; [|exact M]. clear - E' F F' T T'. revert a' E' F'. induction a as [|x a IH]; intros [|y a'] E F'; cbn [app] in E; injection E as E1 E2; subst; auto.
        -- apply Forall_inv in F'. congruence.
        -- apply Forall_inv in F. congruence.
        -- destruct (IH (Forall_inv_tail F) a' E2 (Forall_inv_tail F')) as [-> ->]. auto.
      * rewrite E in F'. apply Forall_app in F'. destruct F' as [_ F']. apply Forall_inv in F'. congruence.
  - split.
    + intros M. right. split; [exact H|]. destruct (dm_default V d) as [m|]; cbn [accepts]; [exact M|]. apply match_inj in M. auto.
    + intros [(a & km & b & E & _ & T & _)|[_ M]].
      * rewrite E in H. apply Forall_app in H. destruct H as [_ H]. apply Forall_inv in H. congruence.
      * destruct (dm_default V d) as [m|]; cbn [accepts] in M; [exact M|]. rewrite M. reflexivity.
Qed.
Lemma keys_iff d l : NoDup (map fst l) -> forall acc vs, StronglySorted before acc -> (forall k v, In (k, v) acc -> ~ In k (map fst l)) ->
  (match_keys V of_node d l acc = Match vs <-> StronglySorted before vs /\ (forall k n, In (k, n) l -> exists v, In (k, v) vs /\ key_value of_node d k n v) /\ (forall k v, In (k, v) vs -> In (k, v) acc \/ exists n, In (k, n) l /\ key_value of_node d k n v) /\ (forall k v, In (k, v) acc -> In (k, v) vs)).
Proof.
  induction l as [|[k n] l IH]; intros N acc vs S D; cbn [match_keys].
  - split.
    + intros H. apply match_inj in H. subst. split; [exact S|]. split; [intros k n []|]. split; auto.
    + intros (S' & _ & H1 & H2). f_equal. apply sorted_unique; auto. intros k v. split; auto. intros H. destruct (H1 k v H) as [X|(n & [] & _)]. exact X.
  - cbn [map fst] in N. inversion N as [|? ? N0 N']; subst. rewrite mbind_match.
    assert (D' : forall v k' v', In (k', v') (map_set k v acc) -> ~ In k' (map fst l)) by (intros v k' v' H; apply set_in in H; [|exact S]; destruct H as [[-> ->]|[_ H]]; [exact N0|intros X; apply (D k' v' H); right; exact X]).
    split.
    + intros (v & M & H). apply key_iff in M. apply IH in H; [|exact N'|apply set_sorted; exact S|apply D']. destruct H as (S' & H1 & H2 & H3). split; [exact S'|]. split.
      * intros k' n' [E|H]; [|exact (H1 k' n' H)]. injection E as -> ->. exists v. split; [|exact M]. apply H3. apply set_in; auto.
      * split.
        -- intros k' v' H. destruct (H2 k' v' H) as [X|(n' & X & Kv)]; [|right; exists n'; split; [right; exact X|exact Kv]]. apply set_in in X; [|exact S]. destruct X as [[-> ->]|[_ X]]; [|left; exact X]. right. exists n. split; [left; reflexivity|exact M].
        -- intros k' v' H. apply H3. apply set_in; [exact S|]. right. split; [|exact H]. intros ->. apply (D k v' H). left. reflexivity.
    + intros (S' & H1 & H2 & H3). destruct (H1 k n (or_introl eq_refl)) as (v & Iv & M). exists v. split; [apply key_iff; exact M|]. apply IH; [exact N'|apply set_sorted; exact S|apply D'|]. split; [exact S'|]. split; [intros k' n' H; apply H1; right; exact H|]. split.
      * intros k' v' H. destruct (H2 k' v' H) as [X|(n' & [E|X] & Kv)]; [| |right; exists n'; auto].
        -- left. apply set_in; [exact S|]. right. split; [|exact X]. intros ->. apply (D k v' X). left. reflexivity.
        -- injection E as -> ->. left. apply set_in; [exact S|]. left. split; [reflexivity|]. apply key_iff in Kv, M. congruence.
      * intros k' v' H. apply set_in in H; [|exact S]. destruct H as [[-> ->]|[_ H]]; auto.
Qed.
Lemma dict_iff d l vs : NoDup (map fst l) -> match_dict_data V of_node d l = Match vs <-> dict_matched of_node d l vs.
Proof.
  intros N. destruct (as_map_in l N) as [S I]. unfold match_dict_data, dict_matched. rewrite mbind_match. pose proof (fun vs => keys_iff d (as_map l) (sorted_nodup _ S) [] vs ltac:(constructor) ltac:(intros k v [])) as K. split.
  - intros (ws & H1 & H2). apply filtered_match in H2. destruct H2 as [-> H2]. apply K in H1. destruct H1 as (S' & H1 & H3 & _). split; [exact S'|]. split; [intros k n H; apply H1; apply I; exact H|]. split; [|exact H2]. intros k v H. destruct (H3 k v H) as [[]|(n & X & Kv)]. exists n. split; [apply I; exact X|exact Kv].
  - intros (S' & H1 & H3 & H2). exists vs. split; [|apply filtered_match; auto]. apply K. split; [exact S'|]. split; [intros k n H; apply H1; apply I; exact H|]. split; [|intros k v []]. intros k v H. right. destruct (H3 k v H) as (n & X & Kv). exists n. split; [apply I; exact X|exact Kv].
Qed.
Lemma key_quiet d k n : quiet_dict d -> match_key V of_node d k n <> Throws.
Proof.
  intros [Q1 Q2]. unfold match_key. pose proof (find_split (fun km => fst km k) (dm_keys V d)) as H. destruct (find _ (dm_keys V d)) as [km|].
  - destruct H as (a & b & E & _). rewrite E in Q1. apply Forall_app in Q1. destruct Q1 as [_ Q1]. apply Forall_inv in Q1. apply Q1.
  - destruct (dm_default V d) as [m|]; [apply Q2|discriminate].
Qed.
Lemma dict_quiet d l : quiet_dict d -> match_dict_data V of_node d l <> Throws.
Proof.
  intros Q. apply mbind_throws; [|intros; apply filtered_quiet]. generalize (@nil (list Z * V)). induction (as_map l) as [|[k n] m IH]; intros acc; [discriminate|]. cbn [match_keys]. apply mbind_throws; [apply key_quiet; exact Q|]. intros v _. apply IH.
Qed.

(** Alternatives. *)
Lemma first_iff ms n : (forall v, first_match V ms n = Match v <-> first_of ms n v) /\ (first_match V ms n = NoMatch <-> Forall (fun m => mt_match V m n = NoMatch) ms).
Proof.
  induction ms as [|m ms [IH1 IH2]]; cbn [first_match].
  - split; [|split; [constructor|reflexivity]]. intros v. split; [discriminate|]. intros ([|] & ? & ? & E & _); discriminate.
  - destruct (mt_match V m n) as [v0| |] eqn:E.
    + split; [|split; [discriminate|intros H; apply Forall_inv in H; congruence]]. intros v. split.
      * intros H. apply match_inj in H. subst. exists [], m, ms. auto.
      * intros (a & m' & b & E' & F & M). destruct a as [|x a]; cbn [app] in E'; injection E' as -> _; [congruence|]. apply Forall_inv in F. congruence.
    + split.
      * intros v. rewrite IH1. split.
        -- intros (a & m' & b & -> & F & M). exists (m :: a), m', b. auto.
        -- intros (a & m' & b & E' & F & M). destruct a as [|x a]; cbn [app] in E'; injection E' as -> ->; [congruence|]. exists a, m', b. split; [reflexivity|]. split; [exact (Forall_inv_tail F)|exact M].
      * rewrite IH2. split; [intros H; constructor; auto|intros H; exact (Forall_inv_tail H)].
    + split; [|split; [discriminate|intros H; apply Forall_inv in H; congruence]]. intros v. split; [discriminate|]. intros (a & m' & b & E' & F & M). destruct a as [|x a]; cbn [app] in E'; injection E' as -> _; [congruence|]. apply Forall_inv in F. congruence.
Qed.
Lemma first_filter (f : matcher V -> bool) ms n : (forall m, In m ms -> f m = false -> mt_match V m n = NoMatch) -> first_match V (filter f ms) n = first_match V ms n.
Proof.
  induction ms as [|m ms IH]; intros H; [reflexivity|]. cbn [filter first_match]. assert (IH' := IH (fun x I => H x (or_intror I))). destruct (f m) eqn:E; [cbn [first_match]; rewrite IH'; reflexivity|]. rewrite (H m (or_introl eq_refl) E). exact IH'.
Qed.
Definition is_class (m : matcher V) : bool := match mt_class V m with Some _ => true | None => false end.
Lemma or_list ms : forall a, fold_left (or_matcher V) ms a = Alternative V (al_dataclasses V a ++ filter is_class ms) (al_alternatives V a ++ ms).
Proof.
  induction ms as [|m ms IH]; intros [d al]; cbn [fold_left]; [cbn; rewrite !app_nil_r; reflexivity|]. rewrite IH. unfold or_matcher. cbn [filter]. unfold is_class at 2. destruct (mt_class V m); cbn [al_dataclasses al_alternatives]; rewrite <- !app_assoc; reflexivity.
Qed.
Lemma alternative_first ms n : Forall typed ms -> mt_match V (match_alternative V (alternative_of ms)) n = first_match V ms n.
Proof.
  intros T. rewrite Forall_forall in T. unfold alternative_of. rewrite or_list. cbn [no_alternatives al_dataclasses al_alternatives app match_alternative mt_match].
  assert (Ty : forall m, In m ms -> mt_type V m (getType n) = false -> mt_match V m n = NoMatch).
  { intros m I E. destruct (mt_match V m n) eqn:M; [|reflexivity|]; destruct (T m I n ltac:(congruence)) as [X _]; congruence. }
  destruct n as [| | | | | | |name pos kw]; cbn [collectVariants al_alternatives]; try (apply first_filter; exact Ty). cbn [al_dataclasses].
  assert (Cl : forall m, In m ms -> mt_match V m (NClass name pos kw) <> NoMatch -> mt_class V m = Some name) by (intros m I N; exact (proj2 (T m I _ N) name pos kw eq_refl)).
  rewrite first_filter; [apply first_filter|].
  - intros m I E. unfold is_class in E. destruct (mt_match V m _) eqn:M; [|reflexivity|]; rewrite (Cl m I) in E by congruence; discriminate.
  - intros m I E. apply filter_In in I. destruct I as [I _]. destruct (mt_match V m _) eqn:M; [|reflexivity|]; rewrite (Cl m I) in E by congruence; rewrite text_eqb_refl in E; discriminate.
Qed.
Lemma or_both ms ms' : or_alternative V (alternative_of ms) (alternative_of ms') = alternative_of (ms ++ ms').
Proof. unfold alternative_of. rewrite !or_list. unfold or_alternative. cbn [no_alternatives al_dataclasses al_alternatives app]. rewrite filter_app. reflexivity. Qed.
Theorem alternative_iff ms n : Forall typed ms ->
  (forall v, mt_match V (match_alternative V (alternative_of ms)) n = Match v <-> first_of ms n v) /\
  (mt_match V (match_alternative V (alternative_of ms)) n = NoMatch <-> Forall (fun m => mt_match V m n = NoMatch) ms).
Proof. intros T. rewrite alternative_first by exact T. apply first_iff. Qed.
Lemma typed_int f h : typed (match_int V f h). Proof. intros []; cbn; try (intros N; contradiction N; reflexivity). intros _. split; [reflexivity|discriminate]. Qed.
Lemma typed_float {D} (oi : Z -> D) of f h : typed (match_float V D oi of f h). Proof. intros []; cbn; try (intros N; contradiction N; reflexivity); intros _; (split; [reflexivity|discriminate]). Qed.
Lemma typed_bool f h : typed (match_bool V f h). Proof. intros []; cbn; try (intros N; contradiction N; reflexivity). intros _. split; [reflexivity|discriminate]. Qed.
Lemma typed_none h : typed (match_none V h). Proof. intros []; cbn; try (intros N; contradiction N; reflexivity). intros _. split; [reflexivity|discriminate]. Qed.
Lemma typed_string f h : typed (match_string V f h). Proof. intros []; cbn; try (intros N; contradiction N; reflexivity). intros _. split; [reflexivity|discriminate]. Qed.
Lemma typed_array a h : typed (match_array V of_node a h). Proof. intros []; cbn; try (intros N; contradiction N; reflexivity). intros _. split; [reflexivity|discriminate]. Qed.
Lemma typed_dict a h : typed (match_dict V of_node a h). Proof. intros []; cbn; try (intros N; contradiction N; reflexivity). intros _. split; [reflexivity|discriminate]. Qed.
Lemma typed_class c h : typed (match_class V of_node c h).
Proof.
  intros []; cbn [match_class mt_match mt_type mt_class getType]; try (intros N; contradiction N; reflexivity). destruct (text_eqb name (cm_name V c)) eqn:E; [|intros N; contradiction N; reflexivity]. intros _. split; [reflexivity|]. intros k p q X. injection X as -> _ _. apply text_eqb_eq in E. rewrite E. reflexivity.
Qed.

(** Dataclasses. *)
Lemma at_key_in k m : NoDup (map fst m) -> forall n, at_key k m = Some n <-> In (k, n) m.
Proof.
  induction m as [|[k' n'] m IH]; intros N n; cbn [at_key]; [split; [discriminate|intros []]|]. cbn [map fst] in N. inversion N as [|? ? N0 N']; subst. destruct (text_eqb k k') eqn:E.
  - apply text_eqb_eq in E. subst k'. split; [intros H; injection H as ->; left; reflexivity|]. intros [H|H]; [injection H as ->; reflexivity|]. exfalso. apply N0. apply in_map_iff. exists (k, n). auto.
  - apply text_eqb_neq in E. rewrite IH by exact N'. cbn [In]. split; auto. intros [H|H]; auto. injection H as -> ->. contradiction.
Qed.
Lemma at_key_none k m : at_key k m = None <-> ~ In k (map fst m).
Proof.
  induction m as [|[k' n'] m IH]; cbn [at_key map fst In]; [tauto|]. destruct (text_eqb k k') eqn:E; [apply text_eqb_eq in E; subst; split; [discriminate|tauto]|]. apply text_eqb_neq in E. rewrite IH. split; intros H; [intros [X|X]; [congruence|auto]|auto].
Qed.
Lemma hasKey_iff k m : hasKey k m = true <-> In k (map fst m).
Proof. unfold hasKey. pose proof (at_key_none k m) as H. destruct (at_key k m); split; intros X; auto; try discriminate; [destruct (in_dec (list_eq_dec Z.eq_dec) k (map fst m)) as [I|I]; [exact I|apply H in I; discriminate]|]. exfalso. apply (proj1 H eq_refl). exact X. Qed.
Lemma emplace_iff p n x : emplaceArgument V of_node p n = Match x <-> exists v, x = (p_name V p, v) /\ acc (p_matcher V p) n v.
Proof.
  unfold emplaceArgument. destruct (p_matcher V p) as [m|]; cbn [accepts].
  - rewrite mbind_match. split; intros (v & H); exists v; destruct H as [H1 H2]; [apply match_inj in H2; auto|subst; auto].
  - split; [intros H; apply match_inj in H; subst; eauto|]. intros (v & -> & ->). reflexivity.
Qed.
Lemma positional_iff pos : forall ps vs, positional V of_node ps pos = Match vs <-> Forall2 (fun q x => exists v, x = (p_name V (fst q), v) /\ acc (p_matcher V (fst q)) (snd q) v) (combine ps pos) vs.
Proof.
  induction pos as [|n pos IH]; intros [|p ps] vs; cbn [positional combine]; try (split; intros H; [apply match_inj in H; subst; constructor|inversion H; reflexivity]).
  rewrite mbind_match. split.
  - intros (x & H1 & H). apply mbind_match in H. destruct H as (ws & H2 & H). apply match_inj in H. subst. constructor; [apply emplace_iff; exact H1|apply IH; exact H2].
  - intros H. inversion H as [|? x ? ws H1 H2]; subst. exists x. split; [apply emplace_iff; exact H1|]. apply mbind_match. exists ws. split; [apply IH; exact H2|reflexivity].
Qed.
Lemma keyword_iff kw : forall ps vs, by_keyword V of_node ps kw = Match vs <->
  Forall2 (fun p x => exists v, x = (p_name V p, v) /\ match at_key (p_name V p) kw with Some n => acc (p_matcher V p) n v | None => p_default V p = Some v end) ps vs.
Proof.
  induction ps as [|p ps IH]; intros vs; cbn [by_keyword]; [split; intros H; [apply match_inj in H; subst; constructor|inversion H; reflexivity]|].
  rewrite mbind_match. assert (K : forall x, match at_key (p_name V p) kw with Some n => emplaceArgument V of_node p n | None => match p_default V p with Some v => Match (p_name V p, v) | None => Throws end end = Match x <-> exists v, x = (p_name V p, v) /\ match at_key (p_name V p) kw with Some n => acc (p_matcher V p) n v | None => p_default V p = Some v end).
  { intros x. destruct (at_key (p_name V p) kw) as [n|]; [apply emplace_iff|]. destruct (p_default V p) as [v|]; split; [intros H; apply match_inj in H; eauto|intros (w & -> & E); injection E as ->; reflexivity|discriminate|intros (w & _ & E); discriminate]. }
  split.
  - intros (x & H1 & H). apply mbind_match in H. destruct H as (ws & H2 & H). apply match_inj in H. subst. constructor; [apply K; exact H1|apply IH; exact H2].
  - intros H. inversion H as [|? x ? ws H1 H2]; subst. exists x. split; [apply K; exact H1|]. apply mbind_match. exists ws. split; [apply IH; exact H2|reflexivity].
Qed.
(** The four errors. *)
Lemma as_map_keys kw : NoDup (map fst kw) -> NoDup (map fst (as_map kw)) /\ forall k, In k (map fst (as_map kw)) <-> In k (map fst kw).
Proof.
  intros N. destruct (as_map_in kw N) as [S I]. split; [apply sorted_nodup; exact S|]. intros k. rewrite !in_map_iff. split; intros ([k' n] & E & H); cbn [fst] in E; subst; exists (k, n); (split; [reflexivity|]); apply I; exact H.
Qed.
Lemma nth_firstn {X} (l : list X) n x : In x (firstn n l) <-> exists i, (i < n)%nat /\ nth_error l i = Some x.
Proof.
  revert l. induction n as [|n IH]; intros l; cbn [firstn]; [split; [intros []|intros (i & H & _); lia]|]. destruct l as [|y l]; [split; [intros []|intros ([|] & _ & H); discriminate]|]. cbn [In]. rewrite IH. split.
  - intros [->|(i & H & E)]; [exists 0%nat; split; [lia|reflexivity]|exists (S i); split; [lia|exact E]].
  - intros ([|i] & H & E); [left; injection E as ->; reflexivity|right; exists i; split; [lia|exact E]].
Qed.
Lemma nth_skipn {X} (l : list X) n x : In x (skipn n l) <-> exists i, (n <= i)%nat /\ nth_error l i = Some x.
Proof.
  revert l. induction n as [|n IH]; intros l; cbn [skipn].
  - split; [intros H; apply In_nth_error in H; destruct H as (i & E); exists i; split; [lia|exact E]|intros (i & _ & E); eapply nth_error_In; eauto].
  - destruct l as [|y l]; [split; [intros []|intros ([|] & _ & H); discriminate]|]. rewrite IH. split; [intros (i & H & E); exists (S i); split; [lia|exact E]|]. intros ([|i] & H & E); [lia|]. exists i. split; [lia|exact E].
Qed.
Lemma standard_iff ps k : isStandard V ps k = true <-> In k (map (p_name V) ps).
Proof. unfold isStandard. rewrite existsb_exists, in_map_iff. split; intros (p & H1 & H2); exists p; [apply text_eqb_eq in H2|subst; rewrite text_eqb_refl]; auto. Qed.
Lemma standard_same ps k : isStandard V ps k = existsb (text_eqb k) (map (p_name V) ps).
Proof. apply eq_true_iff_eq. rewrite standard_iff, existsb_exists. split; [intros H; exists k; split; [exact H|apply text_eqb_refl]|intros (x & H & E); apply text_eqb_eq in E; subst; exact H]. Qed.
Lemma error_iff c pos kw : NoDup (map fst kw) -> (excessive V c pos || missing V c pos (as_map kw) || redefined V c pos (as_map kw) || unknown V c (as_map kw) = true <-> call_error c pos kw).
Proof.
  intros N. destruct (as_map_keys kw N) as [_ K]. rewrite !orb_true_iff. split.
  - intros [[[H|H]|H]|H].
    + unfold excessive in H. destruct (cm_args V c) eqn:E; [discriminate|]. apply E_excessive; [exact E|]. apply Nat.ltb_lt. exact H.
    + unfold missing in H. apply existsb_exists in H. destruct H as (p & I & H). apply nth_skipn in I. destruct I as (i & Hi & I). apply andb_true_iff in H. destruct H as [H1 H2]. apply (E_missing c pos kw i p I); [apply nth_error_None; exact Hi| |destruct (p_default V p); [discriminate|reflexivity]]. intros X. apply K, hasKey_iff in X. rewrite X in H1. discriminate.
    + unfold redefined in H. apply existsb_exists in H. destruct H as (p & I & H). apply nth_firstn in I. destruct I as (i & Hi & I). destruct (nth_error pos i) as [n|] eqn:E; [|apply nth_error_None in E; lia]. apply (E_twice c pos kw i p n I E). apply K, hasKey_iff. exact H.
    + unfold unknown in H. destruct (cm_kwargs V c) eqn:E; [discriminate|]. apply existsb_exists in H. destruct H as ([k n] & I & H). cbn [fst] in H. apply (E_unknown c pos kw k E); [apply K; apply in_map_iff; exists (k, n); auto|]. intros X. apply standard_iff in X. rewrite X in H. discriminate.
  - intros [E H|i p I E H D|i p n I E H|k E H1 H2].
    + left. left. left. unfold excessive. rewrite E. apply Nat.ltb_lt. exact H.
    + left. left. right. unfold missing. apply existsb_exists. exists p. split; [apply nth_skipn; exists i; split; [apply nth_error_None; exact E|exact I]|]. rewrite D, andb_true_r. apply negb_true_iff. destruct (hasKey _ _) eqn:X; [|reflexivity]. apply hasKey_iff, K in X. contradiction.
    + left. right. unfold redefined. apply existsb_exists. exists p. split; [apply nth_firstn; exists i; split; [apply nth_error_Some; congruence|exact I]|]. apply hasKey_iff, K. exact H.
    + right. unfold unknown. rewrite E. apply K, in_map_iff in H1. destruct H1 as ([k' n] & Ek & H1). cbn [fst] in Ek. subst k'. apply existsb_exists. exists (k, n). split; [exact H1|]. cbn [fst]. apply negb_true_iff. destruct (isStandard _ _ _) eqn:X; [|reflexivity]. apply standard_iff in X. contradiction.
Qed.
Theorem call_refused c pos kw : NoDup (map fst kw) -> call_error c pos kw -> match_class_data V of_node c pos kw = NoMatch.
Proof. intros N E. unfold match_class_data, matchStandardArguments. cbn zeta. rewrite (proj2 (error_iff c pos kw N) E). reflexivity. Qed.
Lemma repeated_iff ks : repeated ks = false <-> NoDup ks.
Proof.
  induction ks as [|k ks IH]; cbn [repeated]; [split; [constructor|reflexivity]|]. rewrite orb_false_iff, IH. split.
  - intros [H1 H2]. constructor; [|exact H2]. intros I. assert (X : existsb (text_eqb k) ks = true) by (apply existsb_exists; exists k; split; [exact I|apply text_eqb_refl]). congruence.
  - intros H. inversion H as [|? ? H1 H2]; subst. split; [|exact H2]. destruct (existsb _ _) eqn:X; [|reflexivity]. apply existsb_exists in X. destruct X as (y & I & E). apply text_eqb_eq in E. subst. contradiction.
Qed.
Lemma names_positional ps pos vs : Forall2 (fun q x => exists v, x = (p_name V (fst q), v) /\ acc (p_matcher V (fst q)) (snd q) v) (combine ps pos) vs -> map fst vs = firstn (length pos) (map (p_name V) ps).
Proof.
  revert pos vs. induction ps as [|p ps IH]; intros [|n pos] vs H; cbn [combine] in H; inversion H as [|? x ? ws H1 H2]; subst; cbn [length firstn map]; try reflexivity. destruct H1 as (v & -> & _). cbn [fst]. f_equal. apply IH. exact H2.
Qed.
Lemma names_keyword ps kw vs : Forall2 (fun p x => exists v, x = (p_name V p, v) /\ match at_key (p_name V p) kw with Some n => acc (p_matcher V p) n v | None => p_default V p = Some v end) ps vs -> map fst vs = map (p_name V) ps.
Proof. induction 1 as [|p x ps vs (v & -> & _) _ IH]; [reflexivity|]. cbn [map fst]. f_equal. exact IH. Qed.
Lemma bound_as_map pos kw i p v : NoDup (map fst kw) -> (bound of_node pos (as_map kw) i p v <-> bound of_node pos kw i p v).
Proof.
  intros N. destruct (as_map_in kw N) as [_ I]. destruct (as_map_keys kw N) as [_ K]. split; (intros [n w H1 H2|n w H1 H2 H3|w H1 H2 H3]; [eapply B_positional; eauto|eapply B_keyword; [exact H1|apply I; exact H2|exact H3]|eapply B_default; [exact H1|rewrite K in *; exact H2|exact H3]]).
Qed.
Lemma standard_iff_bound ps kw : NoDup (map fst kw) -> forall pos vs,
  (exists a b, positional V of_node ps pos = Match a /\ by_keyword V of_node (skipn (length pos) ps) kw = Match b /\ vs = a ++ b) <->
  length vs = length ps /\ forall i p, nth_error ps i = Some p -> exists v, nth_error vs i = Some (p_name V p, v) /\ bound of_node pos kw i p v.
Proof.
  intros N. induction ps as [|p ps IH]; intros pos vs.
  - split.
    + intros (a & b & H1 & H2 & ->). assert (H0 : a = []) by (destruct pos; apply match_inj in H1; auto). subst a. replace (skipn (length pos) (@nil (param V))) with (@nil (param V)) in H2 by (destruct pos; reflexivity). apply match_inj in H2. subst b. split; [reflexivity|]. intros [|i] p E; discriminate.
    + intros [L _]. destruct vs; [|discriminate]. exists [], []. split; [destruct pos; reflexivity|]. split; [destruct pos; reflexivity|reflexivity].
  - destruct pos as [|n pos].
    + cbn [length skipn]. cbn [positional]. transitivity (by_keyword V of_node (p :: ps) kw = Match vs).
      { split; [intros (a & b & H1 & H2 & ->); apply match_inj in H1; subst a; exact H2|intros H; exists [], vs; auto]. }
      rewrite keyword_iff. split.
      * intros H. inversion H as [|? x ? ws (v & -> & H1) H2]; subst. apply (proj2 (keyword_iff kw ps ws)) in H2. assert (X : exists a b, positional V of_node ps [] = Match a /\ by_keyword V of_node (skipn (length (@nil node)) ps) kw = Match b /\ ws = a ++ b) by (exists [], ws; split; [destruct ps; reflexivity|auto]).
        apply IH in X. destruct X as [L X]. split; [cbn [length]; rewrite L; reflexivity|]. intros [|i] q E; cbn [nth_error] in E.
        -- injection E as <-. exists v. split; [reflexivity|]. destruct (at_key (p_name V p) kw) as [n|] eqn:A; [eapply B_keyword; [reflexivity|apply at_key_in; eauto|exact H1]|apply B_default; [reflexivity|apply at_key_none; exact A|exact H1]].
        -- destruct (X i q E) as (w & E1 & B). exists w. split; [exact E1|]. destruct B as [m w H3 H4|m w H3 H4 H5|w H3 H4 H5]; [destruct i; discriminate|eapply B_keyword; eauto|eapply B_default; eauto].
      * intros [L H]. destruct vs as [|x vs]; [discriminate|]. constructor.
        -- destruct (H 0%nat p eq_refl) as (v & E & B). cbn [nth_error] in E. injection E as ->. exists v. split; [reflexivity|]. destruct B as [m w H3 H4|m w H3 H4 H5|w H3 H4 H5]; [discriminate| |].
           ++ rewrite (proj2 (at_key_in _ _ N m) H4). exact H5.
           ++ rewrite (proj2 (at_key_none _ _) H4). exact H5.
        -- apply keyword_iff. assert (X : exists a b, positional V of_node ps [] = Match a /\ by_keyword V of_node (skipn (length (@nil node)) ps) kw = Match b /\ vs = a ++ b).
           { apply IH. split; [cbn [length] in L; lia|]. intros i q E. destruct (H (S i) q E) as (w & E1 & B). exists w. split; [exact E1|]. destruct B as [m w H3 H4|m w H3 H4 H5|w H3 H4 H5]; [discriminate|eapply B_keyword; eauto; destruct i; reflexivity|eapply B_default; eauto; destruct i; reflexivity]. }
           destruct X as (a & b & H1 & H2 & ->). assert (a = []) as -> by (destruct ps; apply match_inj in H1; auto). exact H2.
    + cbn [length skipn positional]. split.
      * intros (a & b & H1 & H2 & ->). apply mbind_match in H1. destruct H1 as (x & Hx & H1). apply mbind_match in H1. destruct H1 as (a' & H1 & E). apply match_inj in E. subst a. destruct (proj1 (IH pos (a' ++ b)) ltac:(eauto)) as [L X]. split; [cbn [app length]; rewrite L; reflexivity|]. intros [|i] q E; cbn [nth_error] in E.
        -- injection E as <-. apply emplace_iff in Hx. destruct Hx as (v & -> & Hv). exists v. split; [reflexivity|]. eapply B_positional; [reflexivity|exact Hv].
        -- destruct (X i q E) as (w & E1 & B). exists w. split; [exact E1|]. destruct B as [m w H3 H4|m w H3 H4 H5|w H3 H4 H5]; [eapply B_positional; eauto|eapply B_keyword; eauto|eapply B_default; eauto].
      * intros [L H]. destruct vs as [|x vs]; [discriminate|]. assert (X : exists a b, positional V of_node ps pos = Match a /\ by_keyword V of_node (skipn (length pos) ps) kw = Match b /\ vs = a ++ b).
        { apply IH. split; [cbn [length] in L; lia|]. intros i q E. destruct (H (S i) q E) as (w & E1 & B). exists w. split; [exact E1|]. destruct B as [m w H3 H4|m w H3 H4 H5|w H3 H4 H5]; [eapply B_positional; eauto|eapply B_keyword; eauto|eapply B_default; eauto]. }
        destruct X as (a & b & H1 & H2 & ->). exists (x :: a), b. split; [|split; [exact H2|reflexivity]]. destruct (H 0%nat p eq_refl) as (v & E & B). cbn [nth_error] in E. injection E as ->. apply mbind_match. exists (p_name V p, v). split; [|apply mbind_match; exists a; auto]. apply emplace_iff. exists v. split; [reflexivity|]. destruct B as [m w H3 H4|m w H3 H4 H5|w H3 H4 H5]; try discriminate. injection H3 as ->. exact H4.
Qed.
Lemma skipn_names n (ps : list (param V)) : map (p_name V) (skipn n ps) = skipn n (map (p_name V) ps). Proof. revert ps. induction n as [|n IH]; intros [|p ps]; cbn [skipn map]; auto. Qed.
Lemma std_names c pos kw a b : positional V of_node (cm_params V c) pos = Match a -> by_keyword V of_node (skipn (length pos) (cm_params V c)) kw = Match b -> map fst (a ++ b) = map (p_name V) (cm_params V c).
Proof.
  intros H1 H2. apply positional_iff in H1. apply keyword_iff in H2. rewrite map_app, (names_positional _ _ _ H1), (names_keyword _ _ _ H2), skipn_names, firstn_skipn. reflexivity.
Qed.
Lemma filter_map_nodup {X} (f : list Z * X -> bool) l : NoDup (map fst l) -> NoDup (map fst (filter f l)).
Proof. induction l as [|x l IH]; intros N; [constructor|]. cbn [map] in N. inversion N as [|? ? N0 N']; subst. cbn [filter]. destruct (f x); [|auto]. cbn [map]. constructor; [|auto]. intros I. apply N0. apply in_map_iff in I. destruct I as (y & E & I). apply filter_In in I. apply in_map_iff. exists y. tauto. Qed.
Lemma dict_matched_same d l l' vs : (forall k n, In (k, n) l <-> In (k, n) l') -> dict_matched of_node d l vs -> dict_matched of_node d l' vs.
Proof. intros E (S & H1 & H2 & F). split; [exact S|]. split; [intros k n H; apply H1, E; exact H|]. split; [|exact F]. intros k v H. destruct (H2 k v H) as (n & I & Kv). exists n. split; [apply E; exact I|exact Kv]. Qed.
Lemma empty_filter {X} (l : list X) : (match l with [] => true | _ => false end = true) <-> l = []. Proof. destruct l; split; auto; discriminate. Qed.
Lemma no_args_iff l vs : array_matched of_node (no_args V) l vs <-> l = [] /\ vs = [].
Proof.
  unfold array_matched, no_args, all_true. cbn [am_element am_filters]. split.
  - intros [H F]. apply Forall_inv in F. apply empty_filter in F. subst. inversion H; auto.
  - intros [-> ->]. split; [constructor|repeat constructor].
Qed.
Lemma no_kwargs_iff l vs : dict_matched of_node (no_kwargs V) l vs <-> l = [] /\ vs = [].
Proof.
  unfold dict_matched, no_kwargs, all_true. cbn [dm_keys dm_filters]. split.
  - intros (S & H1 & H2 & F). apply Forall_inv in F. apply empty_filter in F. subst. split; [|reflexivity]. destruct l as [|[k n] l]; [reflexivity|]. destruct (H1 k n (or_introl eq_refl)) as (v & [] & _).
  - intros [-> ->]. split; [constructor|]. split; [intros k n []|]. split; [intros k n []|repeat constructor].
Qed.
Theorem class_iff c pos kw d : NoDup (map (p_name V) (cm_params V c)) -> NoDup (map fst kw) -> (match_class_data V of_node c pos kw = Match d <-> class_matched of_node c pos kw d).
Proof.
  intros Np N. destruct (as_map_in kw N) as [_ I]. destruct (as_map_keys kw N) as [N' K]. pose proof (error_iff c pos kw N) as Er. unfold match_class_data, matchStandardArguments. cbn zeta.
  set (oth := filter (fun e => negb (isStandard V (cm_params V c) (fst e))) (as_map kw)).
  assert (No : NoDup (map fst oth)) by (apply filter_map_nodup; exact N').
  assert (Io : forall k n, In (k, n) oth <-> In (k, n) (filter (fun e => negb (existsb (text_eqb (fst e)) (map (p_name V) (cm_params V c)))) kw)).
  { intros k n. unfold oth. rewrite !filter_In. cbn [fst]. rewrite standard_same, I. reflexivity. }
  set (err := excessive V c pos || missing V c pos (as_map kw) || redefined V c pos (as_map kw) || unknown V c (as_map kw)) in *.
  assert (Ka : forall vs, ~ call_error c pos kw -> (match_array_data V of_node (or_default (cm_args V c) (no_args V)) (skipn (length (cm_params V c)) pos) = Match vs <-> match cm_args V c with None => vs = [] | Some a => array_matched of_node a (skipn (length (cm_params V c)) pos) vs end)).
  { intros vs Ne. rewrite array_iff. destruct (cm_args V c) as [a|] eqn:Ea; cbn [or_default]; [reflexivity|]. rewrite no_args_iff. split; [tauto|]. intros ->. split; [|reflexivity]. apply skipn_all2. destruct (Nat.le_gt_cases (length pos) (length (cm_params V c))) as [X|X]; [exact X|]. exfalso. apply Ne. apply E_excessive; [exact Ea|exact X]. }
  assert (Kk : forall vs, ~ call_error c pos kw -> (match_dict_data V of_node (or_default (cm_kwargs V c) (no_kwargs V)) oth = Match vs <-> match cm_kwargs V c with None => vs = [] | Some m => dict_matched of_node m (filter (fun e => negb (existsb (text_eqb (fst e)) (map (p_name V) (cm_params V c)))) kw) vs end)).
  { intros vs Ne. rewrite dict_iff by exact No. destruct (cm_kwargs V c) as [m|] eqn:Ek; cbn [or_default].
    - split; apply dict_matched_same; intros k n; [apply Io|symmetry; apply Io].
    - rewrite no_kwargs_iff. split; [tauto|]. intros ->. split; [|reflexivity]. destruct oth as [|[k n] o]; [reflexivity|]. exfalso. pose proof (proj1 (Io k n) (or_introl eq_refl)) as X. apply filter_In in X. destruct X as [X1 X2]. cbn [fst] in X2. apply Ne. apply (E_unknown c pos kw k Ek); [apply in_map_iff; exists (k, n); auto|]. intros Y. apply standard_iff in Y. rewrite standard_same in Y. rewrite Y in X2. discriminate. }
  destruct err.
  { cbn [mbind]. split; [discriminate|]. intros (Ne & _). exfalso. apply Ne, Er. reflexivity. }
  assert (Ne : ~ call_error c pos kw) by (intros X; apply Er in X; discriminate).
  rewrite mbind_match. split.
  - intros (std & H & Hr). apply mbind_match in H. destruct H as (a & H1 & H). apply mbind_match in H. destruct H as (b & H2 & H). pose proof (std_names c pos (as_map kw) a b H1 H2) as Es. destruct (repeated (map fst (a ++ b))); [discriminate|]. apply match_inj in H. subst std.
    apply mbind_match in Hr. destruct Hr as (args & Ha & Hr). apply mbind_match in Hr. destruct Hr as (kws & Hk & Hr). apply filtered_match in Hr. destruct Hr as [<- Hf]. destruct (proj1 (standard_iff_bound (cm_params V c) (as_map kw) N' pos (a ++ b)) ltac:(eauto)) as [L B].
    split; [exact Ne|]. cbn [cd_standard cd_args cd_kwargs]. split; [exact L|]. split.
    { intros i p E. destruct (B i p E) as (v & Ev & Bv). exists v. split; [exact Ev|apply bound_as_map; auto]. }
    split; [apply Ka; auto|]. split; [apply Kk; auto|exact Hf].
  - intros (_ & L & B & Ha & Hk & Hf). destruct d as [std args kws]. cbn [cd_standard cd_args cd_kwargs] in *. exists std. split.
    + destruct (proj2 (standard_iff_bound (cm_params V c) (as_map kw) N' pos std)) as (a & b & H1 & H2 & ->).
      { split; [exact L|]. intros i p E. destruct (B i p E) as (v & Ev & Bv). exists v. split; [exact Ev|apply bound_as_map; auto]. }
      apply mbind_match. exists a. split; [exact H1|]. apply mbind_match. exists b. split; [exact H2|]. rewrite (std_names c pos _ a b H1 H2), (proj2 (repeated_iff _) Np). reflexivity.
    + apply mbind_match. exists args. split; [apply Ka; auto|]. apply mbind_match. exists kws. split; [apply Kk; auto|]. apply filtered_match. auto.
Qed.
(** No exceptions. *)
Lemma emplace_quiet p n : quiet_opt (p_matcher V p) -> emplaceArgument V of_node p n <> Throws.
Proof. unfold emplaceArgument. destruct (p_matcher V p) as [m|]; [|discriminate]. intros Q. apply mbind_throws; [apply Q|discriminate]. Qed.
Theorem class_quiet c pos kw : NoDup (map (p_name V) (cm_params V c)) -> NoDup (map fst kw) -> quiet_class c -> match_class_data V of_node c pos kw <> Throws.
Proof.
  intros Np N (Qp & Qa & Qk). destruct (as_map_keys kw N) as [N' K]. unfold match_class_data. cbn zeta. apply mbind_throws.
  - unfold matchStandardArguments. destruct (_ || _) eqn:Er; [discriminate|]. apply orb_false_iff in Er. destruct Er as [Er _]. apply orb_false_iff in Er. destruct Er as [Er _]. apply orb_false_iff in Er. destruct Er as [_ Er]. apply mbind_throws.
    + clear - Qp. revert pos. induction Qp as [|p ps Q _ IH]; intros [|n pos]; try discriminate. cbn [positional]. apply mbind_throws; [apply emplace_quiet; exact Q|]. intros x _. apply mbind_throws; [apply IH|discriminate].
    + intros a H1. apply mbind_throws.
      * unfold missing in Er. assert (Q : Forall (fun p => quiet_opt (p_matcher V p)) (skipn (length pos) (cm_params V c))) by (rewrite <- (firstn_skipn (length pos) (cm_params V c)) in Qp; apply Forall_app in Qp; apply Qp). clear - Er Q. induction Q as [|p ps Q _ IH]; [discriminate|]. cbn [existsb] in Er. apply orb_false_iff in Er. destruct Er as [E1 E2]. cbn [by_keyword]. apply mbind_throws.
        -- unfold hasKey in E1. destruct (at_key (p_name V p) (as_map kw)); [apply emplace_quiet; exact Q|]. destruct (p_default V p); [discriminate|discriminate].
        -- intros x _. apply mbind_throws; [apply IH; exact E2|discriminate].
      * intros b H2. rewrite (std_names c pos _ a b H1 H2), (proj2 (repeated_iff _) Np). discriminate.
  - intros std _. apply mbind_throws.
    + apply array_quiet. destruct (cm_args V c); [exact Qa|exact I].
    + intros args _. apply mbind_throws; [|intros; apply filtered_quiet]. apply dict_quiet. destruct (cm_kwargs V c); [exact Qk|]. split; [constructor|exact I].
Qed.
(** Repeated names of parameters are noticed only if the arguments fit. *)
Theorem repeated_names c pos kw d : NoDup (map fst kw) -> ~ NoDup (map (p_name V) (cm_params V c)) -> match_class_data V of_node c pos kw <> Match d.
Proof.
  intros N Np H. unfold match_class_data, matchStandardArguments in H. cbn zeta in H. destruct (_ || _); [discriminate|]. apply mbind_match in H. destruct H as (std & H & _). apply mbind_match in H. destruct H as (a & H1 & H). apply mbind_match in H. destruct H as (b & H2 & H). rewrite (std_names c pos _ a b H1 H2) in H. destruct (repeated _) eqn:E; [discriminate|]. apply repeated_iff in E. contradiction.
Qed.
(** The matcher of nodes. *)
Theorem class_node c mapping n v : mt_match V (match_class V of_node c mapping) n = Match v <-> exists pos kw d, n = NClass (cm_name V c) pos kw /\ match_class_data V of_node c pos kw = Match d /\ v = mapping d.
Proof.
  cbn [match_class mt_match]. split.
  - destruct n; try discriminate. destruct (text_eqb name (cm_name V c)) eqn:E; [|discriminate]. apply text_eqb_eq in E. subst. intros H. apply mbind_match in H. destruct H as (d & H1 & H2). apply match_inj in H2. subst. eauto 6.
  - intros (pos & kw & d & -> & H & ->). rewrite text_eqb_refl, H. reflexivity.
Qed.
Theorem array_node a mapping n v : mt_match V (match_array V of_node a mapping) n = Match v <-> exists l vs, n = NArray l /\ match_array_data V of_node a l = Match vs /\ v = mapping vs.
Proof.
  cbn [match_array mt_match]. split.
  - destruct n; try discriminate. intros H. apply mbind_match in H. destruct H as (d & H1 & H2). apply match_inj in H2. subst. eauto 6.
  - intros (l & vs & -> & H & ->). rewrite H. reflexivity.
Qed.
Theorem dict_node a mapping n v : mt_match V (match_dict V of_node a mapping) n = Match v <-> exists l vs, n = NDict l /\ match_dict_data V of_node a l = Match vs /\ v = mapping vs.
Proof.
  cbn [match_dict mt_match]. split.
  - destruct n; try discriminate. intros H. apply mbind_match in H. destruct H as (d & H1 & H2). apply match_inj in H2. subst. eauto 6.
  - intros (l & vs & -> & H & ->). rewrite H. reflexivity.
Qed.
(** Declarations. *)
Theorem arguments_iff ps : arguments V ps = true <-> forall i j p q, (i < j)%nat -> nth_error ps i = Some p -> nth_error ps j = Some q -> p_default V p <> None -> p_default V q <> None.
Proof.
  induction ps as [|p ps IH]; [split; [intros _ [|i] j p q _ E; discriminate|reflexivity]|]. cbn [arguments]. destruct ps as [|q ps].
  - split; [|reflexivity]. intros _ i j a b L E1 E2. destruct j as [|[|j]]; [lia|discriminate|discriminate].
  - rewrite andb_true_iff, IH. split.
    + intros [H1 H2] i j a b L E1 E2 D. destruct j as [|j]; [lia|]. cbn [nth_error] in E2. destruct i as [|i]; [|apply (H2 i j a b ltac:(lia) E1 E2 D)]. injection E1 as <-. destruct (p_default V p); [|congruence]. destruct (p_default V q) as [w|] eqn:Eq; [|discriminate]. destruct j as [|j]; [injection E2 as <-; congruence|]. apply (H2 0%nat (S j) q b ltac:(lia) eq_refl E2). congruence.
    + intros H. split; [|intros i j a b L E1 E2 D; apply (H (S i) (S j) a b ltac:(lia) E1 E2 D)]. pose proof (H 0%nat 1%nat p q ltac:(lia) eq_refl eq_refl) as X. destruct (p_default V p); [|reflexivity]. destruct (p_default V q); [reflexivity|]. exfalso. apply X; congruence.
Qed.
(** Scalars. *)
Lemma if_match {A} (b : bool) (x v : A) : (if b then Match x else NoMatch) = Match v <-> b = true /\ v = x. Proof. destruct b; split; [intros H; apply match_inj in H; auto|intros [_ ->]; reflexivity|discriminate|intros [H _]; discriminate]. Qed.
Ltac scalar := match goal with n : node |- _ => destruct n end; cbn; try (split; [discriminate|intros H; repeat match goal with H : exists _, _ |- _ => destruct H | H : _ /\ _ |- _ => destruct H | H : _ \/ _ |- _ => destruct H end; discriminate]).
Theorem int_node fs h n v : mt_match V (match_int V fs h) n = Match v <-> exists i, n = NInt i /\ all_true fs i /\ v = h i.
Proof. scalar. rewrite if_match, filtered_iff. split; [intros [H ->]; eauto|intros (j & E & H & ->); injection E as ->; auto]. Qed.
Theorem float_node {D} (oi : Z -> D) (of : list Z -> D) fs h n v : mt_match V (match_float V D oi of fs h) n = Match v <-> exists x, ((exists i, n = NInt i /\ x = oi i) \/ exists t, n = NFloat t /\ x = of t) /\ all_true fs x /\ v = h x.
Proof.
  scalar; rewrite if_match, filtered_iff; (split; [intros [H ->]; eauto 7|]).
  - intros (x & [(j & E & ->)|(t & E & _)] & H & ->); [injection E as ->; auto|discriminate].
  - intros (x & [(j & E & _)|(t' & E & ->)] & H & ->); [discriminate|injection E as ->; auto].
Qed.
Theorem bool_node f h n v : mt_match V (match_bool V f h) n = Match v <-> exists b, n = NBool b /\ (f = None \/ f = Some b) /\ v = h b.
Proof.
  scalar. destruct f as [f|].
  - rewrite if_match, Bool.eqb_true_iff. split; [intros [-> ->]; eauto|]. intros (b' & E & [H|H] & ->); [discriminate|]. injection E as ->. injection H as ->. auto.
  - split; [intros H; apply match_inj in H; eauto|]. intros (b' & E & _ & ->). injection E as ->. reflexivity.
Qed.
Theorem none_node h n v : mt_match V (match_none V h) n = Match v <-> n = NNone /\ v = h.
Proof. scalar. split; [intros H; apply match_inj in H; auto|intros [_ ->]; reflexivity]. Qed.
Theorem string_node fs h n v : mt_match V (match_string V fs h) n = Match v <-> exists s, n = NString s /\ all_true fs s /\ v = h s.
Proof. scalar. rewrite if_match, filtered_iff. split; [intros [H ->]; eauto|intros (j & E & H & ->); injection E as ->; auto]. Qed.
End Proofs.
