(** C06: linked lists refine the abstract map. *)
From Coq Require Import Reals ZArith List Bool Lia.
From Verif Require Import GeomModel BoxModel NGModel NGSpec.
Import ListNotations.
Open Scope Z_scope.

(** ** Arrays *)
Lemma set_nth_length {A} (l : list A) n x l' : set_nth l n x = Some l' -> length l' = length l.
Proof.
  revert n l'. induction l as [|y l IH]; intros [|n] l' H; simpl in *; try discriminate.
  - injection H as <-; reflexivity.
  - destruct (set_nth l n x) eqn:E; [|discriminate]. injection H as <-. simpl. f_equal. eauto.
Qed.
Lemma set_nth_Some {A} (l : list A) n x : (n < length l)%nat -> exists l', set_nth l n x = Some l'.
Proof.
  revert n. induction l as [|y l IH]; intros [|n] H; simpl in *; try lia; eauto.
  destruct (IH n) as [l' ->]; [lia|]. eauto.
Qed.
Lemma set_nth_None {A} (l : list A) n x : (length l <= n)%nat -> set_nth l n x = None.
Proof.
  revert n. induction l as [|y l IH]; intros [|n] H; simpl in *; try lia; eauto.
  rewrite IH by lia. reflexivity.
Qed.
Lemma set_nth_get {A} (l : list A) n x l' m : set_nth l n x = Some l' ->
  nth_error l' m = if Nat.eqb m n then Some x else nth_error l m.
Proof.
  revert n m l'. induction l as [|y l IH]; intros [|n] m l' H; simpl in *; try discriminate.
  - injection H as <-. destruct m; reflexivity.
  - destruct (set_nth l n x) eqn:E; [|discriminate]. injection H as <-. destruct m; simpl; auto.
Qed.
Lemma zset_get {A} (l : list A) i x l' j : zset l i x = Some l' -> 0 <= j ->
  zget l' j = if Z.eqb j i then Some x else zget l j.
Proof.
  unfold zset, zget. destruct (0 <=? i) eqn:E; [|discriminate]. apply Z.leb_le in E.
  intros H Hj. apply Z.leb_le in Hj as Hj'. rewrite Hj'.
  rewrite (set_nth_get _ _ _ _ (Z.to_nat j) H).
  destruct (Z.eqb_spec j i).
  - subst. rewrite Nat.eqb_refl. reflexivity.
  - destruct (Nat.eqb_spec (Z.to_nat j) (Z.to_nat i)); [lia|]. reflexivity.
Qed.
Lemma zget_Some {A} (l : list A) i : 0 <= i < Z.of_nat (length l) -> exists x, zget l i = Some x.
Proof.
  intros H. unfold zget. destruct (0 <=? i) eqn:E; [|lia].
  destruct (nth_error l (Z.to_nat i)) eqn:E2; eauto. apply nth_error_None in E2. lia.
Qed.
Lemma zset_Some {A} (l : list A) i x : 0 <= i < Z.of_nat (length l) -> exists l', zset l i x = Some l'.
Proof.
  intros H. unfold zset. destruct (0 <=? i) eqn:E; [|lia]. apply set_nth_Some. lia.
Qed.
Lemma zset_length {A} (l : list A) i x l' : zset l i x = Some l' -> length l' = length l.
Proof. unfold zset. destruct (0 <=? i); [|discriminate]. apply set_nth_length. Qed.

(** ** Chains *)
Fixpoint chain (succ : list (option nat)) (head : option nat) (l : list nat) : Prop :=
  match l with
  | [] => head = None
  | x :: l' => head = Some x /\ exists next, nth_error succ x = Some next /\ chain succ next l'
  end.

Lemma chain_list_from succ head l fuel : chain succ head l -> (length l <= fuel)%nat ->
  list_from fuel succ head = Some l.
Proof.
  revert head fuel. induction l as [|x l IH]; intros head fuel Hc Hf; simpl in Hc.
  - subst head. destruct fuel; reflexivity.
  - destruct Hc as [-> [next [Hn Hc]]]. destruct fuel as [|fuel]; simpl in Hf; [lia|].
    simpl. rewrite Hn. rewrite (IH next fuel) by (auto; lia). reflexivity.
Qed.

Lemma chain_ext succ succ' head l : chain succ head l -> (forall x, In x l -> nth_error succ' x = nth_error succ x) ->
  chain succ' head l.
Proof.
  revert head. induction l as [|x l IH]; intros head Hc He; simpl in *; auto.
  destruct Hc as [-> [next [Hn Hc]]]. split; auto. exists next. rewrite He by auto. split; auto.
Qed.

Lemma chain_bound succ head l x : chain succ head l -> In x l -> (x < length succ)%nat.
Proof.
  revert head. induction l as [|y l IH]; intros head Hc Hi; simpl in *; [tauto|].
  destruct Hc as [-> [next [Hn Hc]]]. destruct Hi as [->|Hi]; [|eauto].
  apply nth_error_Some. rewrite Hn. discriminate.
Qed.

Lemma NoDup_bound (l : list nat) n : NoDup l -> (forall x, In x l -> (x < n)%nat) -> (length l <= n)%nat.
Proof.
  intros Hn Hb. rewrite <- (seq_length n 0). apply NoDup_incl_length; auto.
  intros x Hx. apply in_seq. specialize (Hb x Hx). lia.
Qed.

(** The removal loop. *)
Lemma remove_notin_id idx (l : list nat) : ~ In idx l -> remove Nat.eq_dec idx l = l.
Proof. intros H. apply notin_remove, H. Qed.


(** The loop needs one iteration per element of the list. *)
Lemma remove_loop_absent succ idx : forall l fuel h, chain succ h l -> ~ In idx l ->
  (length l <= fuel)%nat -> remove_loop fuel succ idx h = Some succ.
Proof.
  induction l as [|y l IH]; intros fuel h Hc Hi Hf.
  - simpl in Hc. subst h. destruct fuel; reflexivity.
  - destruct Hc as [-> [next [Hn Hc]]]. simpl in Hf. destruct fuel as [|fuel]; [lia|].
    simpl. rewrite Hn.
    replace (opt_nat_eqb next idx) with false.
    + apply IH; auto; [|lia]. simpl in Hi. tauto.
    + symmetry. destruct l as [|z l]; simpl in Hc.
      * subst next. reflexivity.
      * destruct Hc as [-> _]. simpl. apply Nat.eqb_neq. simpl in Hi. tauto.
Qed.

Lemma remove_loop_present succ idx : forall l h fuel, chain succ (Some h) (h :: l) -> NoDup (h :: l) -> In idx l ->
  (length l <= fuel)%nat ->
  exists succ', remove_loop fuel succ idx (Some h) = Some succ' /\ length succ' = length succ /\
    chain succ' (Some h) (h :: remove Nat.eq_dec idx l) /\
    (forall x, ~ In x (h :: l) -> nth_error succ' x = nth_error succ x).
Proof.
  induction l as [|y l IH]; intros h fuel Hc Hnd Hi Hf; [destruct Hi|].
  destruct Hc as [_ [next [Hn Hc]]]. pose proof Hc as Hc0. destruct Hc as [-> [nn [Hnn Hc]]].
  simpl in Hf. destruct fuel as [|fuel]; [lia|].
  cbn [remove_loop]. rewrite Hn. cbn [opt_nat_eqb].
  destruct (Nat.eqb_spec y idx) as [->|Hne].
  - rewrite Hnn.
    assert (Hh : (h < length succ)%nat) by (apply nth_error_Some; rewrite Hn; discriminate).
    assert (Hx : (idx < length succ)%nat) by (apply nth_error_Some; rewrite Hnn; discriminate).
    destruct (set_nth_Some succ h nn Hh) as [s1 Hs1]. rewrite Hs1.
    pose proof (set_nth_length _ _ _ _ Hs1) as Hl1.
    destruct (set_nth_Some s1 idx None ltac:(lia)) as [s2 Hs2]. rewrite Hs2.
    exists s2. split; auto. split; [rewrite (set_nth_length _ _ _ _ Hs2); auto|].
    inversion Hnd as [|? ? Hn1 Hnd1]; subst. inversion Hnd1 as [|? ? Hn2 Hnd2]; subst.
    assert (Hget : forall x, nth_error s2 x = if Nat.eqb x idx then Some None else if Nat.eqb x h then Some nn else nth_error succ x).
    { intros x. rewrite (set_nth_get _ _ _ _ x Hs2), (set_nth_get _ _ _ _ x Hs1). reflexivity. }
    split.
    + cbn [remove]. destruct (Nat.eq_dec idx idx) as [_|]; [|congruence].
      rewrite remove_notin_id by auto. split; auto. exists nn. rewrite Hget.
      destruct (Nat.eqb_spec h idx); [subst; exfalso; apply Hn1; simpl; auto|]. rewrite Nat.eqb_refl. split; auto.
      eapply chain_ext; eauto. intros x Hx'. rewrite Hget.
      destruct (Nat.eqb_spec x idx); [subst; contradiction|].
      destruct (Nat.eqb_spec x h); [subst; exfalso; apply Hn1; simpl; auto|]. reflexivity.
    + intros x Hx'. rewrite Hget. simpl in Hx'.
      destruct (Nat.eqb_spec x idx); [subst; exfalso; apply Hx'; auto|].
      destruct (Nat.eqb_spec x h); [subst; exfalso; apply Hx'; auto|]. reflexivity.
  - inversion Hnd as [|? ? Hn1 Hnd1]; subst.
    destruct Hi as [->|Hi]; [congruence|].
    destruct (IH y fuel Hc0 Hnd1 Hi ltac:(lia)) as (s' & E & Hlen & Hch & Hoth).
    exists s'. split; auto. split; auto. split.
    + cbn [remove]. destruct (Nat.eq_dec idx y) as [->|_]; [congruence|].
      split; auto. exists (Some y). split; auto. rewrite Hoth; auto.
    + intros x Hx. apply Hoth. intros Hx'. apply Hx. right. exact Hx'.
Qed.

(** ** The representation relation *)
Definition repr (g : grid) (numCells : Z) (numParticles : nat) (m : contents) : Prop :=
  length (g_succ g) = numParticles /\ numCells <= Z.of_nat (length (g_heads g)) /\
  (forall c, 0 <= c < numCells -> exists head, zget (g_heads g) c = Some head /\ chain (g_succ g) head (m c)) /\
  (forall c, NoDup (m c)) /\
  (forall c c' x, In x (m c) -> In x (m c') -> c = c') /\
  (forall c, ~ (0 <= c < numCells) -> m c = []).

Definition same_geometry (g g' : grid) : Prop :=
  g_box g' = g_box g /\ g_div g' = g_div g /\ g_numCells g' = g_numCells g /\
  g_translations g' = g_translations g /\ g_transIdx g' = g_transIdx g /\ g_reflected g' = g_reflected g /\
  g_offsets g' = g_offsets g /\ g_posOffsets g' = g_posOffsets g.

Lemma same_geometry_refl g : same_geometry g g.
Proof. repeat split. Qed.
Lemma same_geometry_trans g1 g2 g3 : same_geometry g1 g2 -> same_geometry g2 g3 -> same_geometry g1 g3.
Proof. unfold same_geometry; intuition congruence. Qed.

Lemma repr_list_cell g nc np m c : repr g nc np m -> 0 <= c < nc -> list_cell g c = Some (m c).
Proof.
  intros (Hl & Hh & Hc & Hnd & _) Hr. destruct (Hc c Hr) as (head & Hz & Hch).
  unfold list_cell. rewrite Hz. apply chain_list_from; auto.
  apply NoDup_bound; auto. intros x Hx. eapply chain_bound; eauto.
Qed.

Lemma repr_bound g nc np m c x : repr g nc np m -> In x (m c) -> (x < np)%nat.
Proof.
  intros (Hl & Hh & Hc & Hnd & Hd & He) Hx.
  destruct (Z_le_dec 0 c), (Z_lt_dec c nc); try (rewrite He in Hx by lia; destruct Hx).
  destruct (Hc c ltac:(lia)) as (head & Hz & Hch). rewrite <- Hl. eapply chain_bound; eauto.
Qed.

Lemma in_remove_iff x y l : In x (remove Nat.eq_dec y l) <-> In x l /\ x <> y.
Proof. split; intros H; [apply in_remove in H|apply in_in_remove]; tauto. Qed.
Lemma NoDup_remove_dec x l : NoDup l -> NoDup (remove Nat.eq_dec x l).
Proof.
  induction l as [|y l IH]; simpl; auto. intros H. inversion H; subst.
  destruct (Nat.eq_dec x y); auto. constructor; auto. rewrite in_remove_iff. tauto.
Qed.

Lemma grid_add_repr g nc np m idx c : repr g nc np m -> legal_op np nc m (OpAdd idx c) ->
  exists g', grid_add_cell idx c g = Some g' /\ repr g' nc np (spec_op (OpAdd idx c) m) /\ same_geometry g g'.
Proof.
  intros (Hl & Hh & Hc & Hnd & Hd & He) (Hi & Hcr & Hfresh).
  destruct (Hc c Hcr) as (head & Hz & Hch).
  unfold grid_add_cell. rewrite Hz.
  destruct (set_nth_Some (g_succ g) idx head ltac:(lia)) as [s' Hs]. rewrite Hs.
  destruct (zset_Some (g_heads g) c (Some idx) ltac:(lia)) as [h' Hh']. rewrite Hh'.
  eexists. split; [reflexivity|]. split; [|repeat split].
  unfold repr. cbn [g_succ g_heads with_lists].
  split; [rewrite (set_nth_length _ _ _ _ Hs); auto|].
  split; [rewrite (zset_length _ _ _ _ Hh'); auto|].
  split.
  { intros c' Hc'. cbn [spec_op]. destruct (Z.eqb_spec c' c) as [->|Hne].
    - exists (Some idx). split.
      + rewrite (zset_get _ _ _ _ c Hh') by lia. rewrite Z.eqb_refl. reflexivity.
      + split; auto. exists head. split.
        * rewrite (set_nth_get _ _ _ _ idx Hs), Nat.eqb_refl. reflexivity.
        * eapply chain_ext; eauto. intros x Hx. rewrite (set_nth_get _ _ _ _ x Hs).
          destruct (Nat.eqb_spec x idx); auto. subst. exfalso. eapply Hfresh; eauto.
    - destruct (Hc c' Hc') as (head' & Hz' & Hch'). exists head'. split.
      + rewrite (zset_get _ _ _ _ c' Hh') by lia. destruct (Z.eqb_spec c' c); [congruence|]. auto.
      + eapply chain_ext; eauto. intros x Hx. rewrite (set_nth_get _ _ _ _ x Hs).
        destruct (Nat.eqb_spec x idx); auto. subst. exfalso. eapply Hfresh; eauto. }
  cbn [spec_op]. split; [|split].
  - intros c'. destruct (Z.eqb_spec c' c); auto. constructor; auto.
  - intros c1 c2 x H1 H2.
    destruct (Z.eqb_spec c1 c), (Z.eqb_spec c2 c); subst; auto; simpl in *.
    + destruct H1 as [->|H1]; [exfalso; eapply Hfresh; eauto|]. eapply Hd; eauto.
    + destruct H2 as [->|H2]; [exfalso; eapply Hfresh; eauto|]. eapply Hd; eauto.
    + eapply Hd; eauto.
  - intros c' Hc'. destruct (Z.eqb_spec c' c); [subst; lia|]. auto.
Qed.

Lemma grid_remove_repr g nc np m idx c : repr g nc np m -> legal_op np nc m (OpRemove idx c) ->
  exists g', grid_remove_cell idx c g = Some g' /\ repr g' nc np (spec_op (OpRemove idx c) m) /\ same_geometry g g'.
Proof.
  intros Hrepr Hcr. simpl in Hcr. pose proof Hrepr as (Hl & Hh & Hc & Hnd & Hd & He).
  destruct (Hc c Hcr) as (head & Hz & Hch).
  assert (Hlen : (length (m c) <= np)%nat).
  { apply NoDup_bound; auto. intros x Hx. eapply repr_bound; eauto. }
  (* abstract part common to all branches *)
  assert (Habs : (forall c', NoDup (spec_op (OpRemove idx c) m c')) /\
    (forall c1 c2 x, In x (spec_op (OpRemove idx c) m c1) -> In x (spec_op (OpRemove idx c) m c2) -> c1 = c2) /\
    (forall c', ~ (0 <= c' < nc) -> spec_op (OpRemove idx c) m c' = [])).
  { cbn [spec_op]. split; [|split].
    - intros c'. destruct (Z.eqb_spec c' c); auto. apply NoDup_remove_dec; auto.
    - intros c1 c2 x H1 H2.
      assert (In x (m c1)) by (destruct (Z.eqb_spec c1 c); [subst; apply in_remove_iff in H1; tauto|auto]).
      assert (In x (m c2)) by (destruct (Z.eqb_spec c2 c); [subst; apply in_remove_iff in H2; tauto|auto]).
      eapply Hd; eauto.
    - intros c' Hc'. destruct (Z.eqb_spec c' c); [lia|auto]. }
  unfold grid_remove_cell. rewrite Hz.
  destruct (opt_nat_eqb head idx) eqn:Eh.
  - (* the head is removed *)
    destruct head as [h|]; [|discriminate]. simpl in Eh. apply Nat.eqb_eq in Eh. subst h.
    destruct (m c) as [|y l] eqn:Em; simpl in Hch; [discriminate|].
    destruct Hch as [Ey [next [Hn Hch]]]. injection Ey as <-.
    rewrite Hn.
    destruct (zset_Some (g_heads g) c next ltac:(lia)) as [h' Hh']. rewrite Hh'.
    destruct (set_nth_Some (g_succ g) idx None) as [s' Hs]; [apply nth_error_Some; rewrite Hn; discriminate|].
    rewrite Hs. eexists. split; [reflexivity|]. split; [|repeat split].
    unfold repr. cbn [g_succ g_heads with_lists].
    split; [rewrite (set_nth_length _ _ _ _ Hs); auto|].
    split; [rewrite (zset_length _ _ _ _ Hh'); auto|].
    pose proof (Hnd c) as Hndc. rewrite Em in Hndc. inversion Hndc as [|? ? Hni Hnd']; subst.
    split; [|exact Habs].
    intros c' Hc'. cbn [spec_op]. destruct (Z.eqb_spec c' c) as [->|Hne].
    + exists next. split; [rewrite (zset_get _ _ _ _ c Hh'), Z.eqb_refl by lia; auto|].
      rewrite Em. cbn [remove]. destruct (Nat.eq_dec idx idx); [|congruence].
      rewrite remove_notin_id by auto. eapply chain_ext; eauto. intros x Hx. rewrite (set_nth_get _ _ _ _ x Hs).
      destruct (Nat.eqb_spec x idx); auto. subst; contradiction.
    + destruct (Hc c' Hc') as (head' & Hz' & Hch'). exists head'. split.
      * rewrite (zset_get _ _ _ _ c' Hh') by lia. destruct (Z.eqb_spec c' c); [congruence|auto].
      * eapply chain_ext; eauto. intros x Hx. rewrite (set_nth_get _ _ _ _ x Hs).
        destruct (Nat.eqb_spec x idx); auto. subst. exfalso. apply Hne. eapply Hd; eauto. rewrite Em. simpl; auto.
  - destruct (in_dec Nat.eq_dec idx (m c)) as [Hin|Hout].
    + (* somewhere behind the head *)
      destruct (m c) as [|h l] eqn:Em; [destruct Hin|].
      pose proof Hch as Hch0. destruct Hch as [-> _]. simpl in Eh. apply Nat.eqb_neq in Eh.
      destruct Hin as [->|Hin]; [congruence|].
      pose proof (Hnd c) as Hndc. rewrite Em in Hndc. simpl in Hlen.
      destruct (remove_loop_present (g_succ g) idx l h (length (g_succ g)) Hch0 Hndc Hin ltac:(lia))
        as (s' & E & Hlen' & Hch' & Hoth).
      rewrite E. eexists. split; [reflexivity|]. split; [|repeat split].
      unfold repr. cbn [g_succ g_heads with_lists].
      split; [lia|]. split; [auto|]. split; [|exact Habs].
      intros c' Hc'. cbn [spec_op]. destruct (Z.eqb_spec c' c) as [->|Hne].
      * exists (Some h). split; auto. rewrite Em. cbn [remove].
        destruct (Nat.eq_dec idx h); [congruence|]. exact Hch'.
      * destruct (Hc c' Hc') as (head' & Hz' & Hch''). exists head'. split; auto.
        eapply chain_ext; eauto. intros x Hx. apply Hoth. intros Hx'. apply Hne. eapply Hd; eauto. rewrite Em. exact Hx'.
    + rewrite (remove_loop_absent (g_succ g) idx (m c) _ head Hch Hout) by lia.
      eexists. split; [reflexivity|]. split; [|repeat split].
      unfold repr. cbn [g_succ g_heads with_lists].
      split; [lia|]. split; [auto|]. split; [|exact Habs].
      intros c' Hc'. cbn [spec_op]. destruct (Z.eqb_spec c' c) as [->|Hne]; auto.
      rewrite remove_notin_id by auto. eauto.
Qed.

Lemma zget_map {A B} (f : A -> B) l i : zget (map f l) i = option_map f (zget l i).
Proof. unfold zget. destruct (0 <=? i); auto. apply nth_error_map. Qed.

Lemma grid_clear_repr g nc np m : repr g nc np m -> repr (grid_clear g) nc np empty_contents.
Proof.
  intros (Hl & Hh & Hc & Hnd & Hd & He).
  unfold repr, grid_clear. cbn [g_succ g_heads with_lists].
  rewrite !map_length. split; auto. split; auto.
  split; [|split; [constructor|split; [intros ? ? ? []|auto]]].
  intros c Hcr. destruct (Hc c Hcr) as (head & Hz & _). exists None. rewrite zget_map, Hz. split; reflexivity.
Qed.

Lemma grid_op_repr g nc np m o : repr g nc np m -> legal_op np nc m o ->
  exists g', grid_op o g = Some g' /\ repr g' nc np (spec_op o m) /\ same_geometry g g'.
Proof.
  intros H Hl. destruct o as [idx c|idx c|].
  - apply grid_add_repr; auto.
  - apply grid_remove_repr; auto.
  - eexists. split; [reflexivity|]. split; [apply (grid_clear_repr _ _ _ _ H)|repeat split].
Qed.

Lemma grid_ops_repr os : forall g nc np m, repr g nc np m -> legal_from np nc m os ->
  exists g', grid_ops os g = Some g' /\ repr g' nc np (fold_left (fun m o => spec_op o m) os m) /\ same_geometry g g'.
Proof.
  induction os as [|o os IH]; intros g nc np m H Hl; simpl in *.
  - exists g. repeat split; auto; apply H.
  - destruct Hl as [Ho Hl]. destruct (grid_op_repr g nc np m o H Ho) as (g1 & E & H1 & Hg1). rewrite E.
    destruct (IH g1 nc np _ H1 Hl) as (g2 & E2 & H2 & Hg2). exists g2. split; auto. split; auto.
    eapply same_geometry_trans; eauto.
Qed.

Lemma zget_repeat {A} (x : A) n i : 0 <= i < Z.of_nat n -> zget (repeat x n) i = Some x.
Proof.
  intros H. unfold zget. destruct (0 <=? i) eqn:E; [|lia].
  apply nth_error_repeat. lia.
Qed.

Lemma empty_repr g nc np : length (g_succ g) = np -> nc <= Z.of_nat (length (g_heads g)) ->
  (forall c, 0 <= c < nc -> zget (g_heads g) c = Some None) -> repr g nc np empty_contents.
Proof.
  intros Hl Hh Hn. unfold repr. split; auto. split; auto.
  split; [|split; [constructor|split; [intros ? ? ? []|auto]]].
  intros c Hc. exists None. split; [auto|reflexivity].
Qed.

Lemma grid_new_fields b cs np g : grid_new b cs np = Some g ->
  exists div nc, setupSizes b cs = Some (div, nc) /\ g_box g = b /\ g_div g = div /\ g_numCells g = nc /\
    g_heads g = repeat None (Z.to_nat nc) /\ g_succ g = repeat None np /\ g_translations g = calculateTranslations b /\
    g_transIdx g = map snd (map (getReflectedCellData div) (cell_numbers nc)) /\
    g_reflected g = map fst (map (getReflectedCellData div) (cell_numbers nc)) /\
    fillNeighbouringCellsOffsets div = Some (g_offsets g, g_posOffsets g).
Proof.
  unfold grid_new. destruct (setupSizes b cs) as [[div nc]|] eqn:E; [|discriminate].
  destruct (fillNeighbouringCellsOffsets div) as [[o p]|] eqn:E2; [|discriminate].
  intros H; injection H as <-. exists div, nc. repeat split; auto.
Qed.

Lemma setupSizes_pos b cs div nc : setupSizes b cs = Some (div, nc) ->
  div = cell_divisions b cs /\ 3 <= cx div /\ 3 <= cy div /\ 3 <= cz div /\ nc = cx div * cy div * cz div /\
  (0 < box_volume b)%R /\ (0 < cs)%R.
Proof.
  unfold setupSizes. destruct (Rltb 0 (box_volume b)) eqn:E1; [|discriminate].
  destruct (Rltb 0 cs) eqn:E2; [|discriminate]. cbn [negb].
  destruct ((3 <=? cx (cell_divisions b cs)) && _ && _) eqn:E3; [|discriminate].
  intros H; injection H as <- <-. apply andb_prop in E3. destruct E3 as [E3 E5]. apply andb_prop in E3.
  destruct E3 as [E3 E4]. apply Z.leb_le in E3, E4, E5.
  unfold Rltb in E1, E2. destruct (Rlt_dec 0 (box_volume b)); [|discriminate]. destruct (Rlt_dec 0 cs); [|discriminate].
  repeat split; auto.
Qed.

Lemma grid_new_repr b cs np g : grid_new b cs np = Some g -> repr g (g_numCells g) np empty_contents.
Proof.
  intros H. apply grid_new_fields in H.
  destruct H as (div & nc & Hs & _ & _ & Hn & Hh & Hsu & _). apply setupSizes_pos in Hs.
  apply empty_repr.
  - rewrite Hsu. apply repeat_length.
  - rewrite Hh, repeat_length, Hn. lia.
  - intros c Hc. rewrite Hh. apply zget_repeat. lia.
Qed.

(** C06. *)
Lemma grid_history b cs np g0 os : grid_new b cs np = Some g0 -> legal_history np (g_numCells g0) os ->
  exists g, grid_ops os g0 = Some g /\ same_geometry g0 g /\
    (forall c, 0 <= c < g_numCells g0 -> list_cell g c = Some (spec_ops os c)).
Proof.
  intros H Hl. destruct (grid_ops_repr os g0 _ np _ (grid_new_repr _ _ _ _ H) Hl) as (g & E & Hr & Hg).
  exists g. split; auto. split; auto. intros c Hc. apply (repr_list_cell _ _ _ _ _ Hr Hc).
Qed.
