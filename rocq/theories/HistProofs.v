From Coq Require Import Reals ZArith List Bool Lia Lra Permutation.
From Verif Require Import GeomModel RFloorModel RFloorProofs HistModel HistSpec.
Import ListNotations.
Local Open Scope nat_scope.

Lemma Forall2_length {A B} (P : A -> B -> Prop) l l' : Forall2 P l l' -> length l = length l'. Proof. induction 1; cbn; auto. Qed.
(** One dimension. *)
Lemma bins_pos d : 1 <= d_bins d -> (0 < INR (d_bins d))%R. Proof. intros H. apply lt_0_INR. lia. Qed.
Lemma edge_step d i : edge d i = (d_min d + INR i * step d)%R. Proof. unfold edge, step, Rdiv. ring. Qed.
Lemma edge_first d : edge d 0 = d_min d. Proof. rewrite edge_step. simpl. ring. Qed.
Lemma edge_last d : 1 <= d_bins d -> edge d (d_bins d) = d_max d. Proof. intros H. unfold edge. field. pose proof (bins_pos d H). lra. Qed.
Lemma step_pos d : (d_min d < d_max d)%R -> 1 <= d_bins d -> (0 < step d)%R. Proof. intros H1 H2. unfold step. apply Rdiv_lt_0_compat; [lra|apply bins_pos; exact H2]. Qed.
Lemma INR_Z n : INR n = IZR (Z.of_nat n). Proof. apply INR_IZR_INZ. Qed.
Lemma quotient_edges d i p : (0 < step d)%R -> ((edge d i <= p)%R <-> (INR i <= (p - d_min d) / step d)%R) /\ ((p < edge d i)%R <-> ((p - d_min d) / step d < INR i)%R).
Proof.
  intros H. rewrite edge_step. assert (E : (p - d_min d = (p - d_min d) / step d * step d)%R) by (field; lra). set (q := ((p - d_min d) / step d)%R) in *. clearbody q. split; split; intros X.
  - apply (Rmult_le_reg_r (step d)); [exact H|lra].
  - apply (Rmult_le_compat_r (step d)) in X; [lra|lra].
  - apply (Rmult_lt_reg_r (step d)); [exact H|lra].
  - apply (Rmult_lt_compat_r (step d)) in X; [lra|lra].
Qed.
Theorem bin_found d p : (d_min d < d_max d)%R -> 1 <= d_bins d -> in_range d p -> in_bin d (bin_index d p) p.
Proof.
  intros H1 H2 [L U]. pose proof (step_pos d H1 H2) as S. unfold bin_index. cbn zeta. set (q := ((p - d_min d) / step d)%R). assert (Q0 : (0 <= q)%R) by (unfold q; apply Rmult_le_pos; [lra|apply Rlt_le, Rinv_0_lt_compat; exact S]). pose proof (Rfl_spec q) as F. assert (F0 : (0 <= Rfl q)%Z) by (apply Rfl_le; exact Q0).
  set (i := Z.to_nat (Rfl q)). assert (Ei : INR i = IZR (Rfl q)) by (unfold i; rewrite INR_Z, Z2Nat.id by exact F0; reflexivity). destruct (d_bins d <=? i) eqn:B; [apply Nat.leb_le in B|apply Nat.leb_gt in B].
  - assert (Em : p = d_max d).
    { apply Rle_antisym; [exact U|]. rewrite <- (edge_last d H2). apply (quotient_edges d (d_bins d) p S). apply Rle_trans with (INR i); [apply le_INR; exact B|]. fold q. lra. }
    split; [lia|]. split; [|right; split; [lia|exact Em]]. rewrite Em. rewrite <- (edge_last d H2), !edge_step. apply Rplus_le_compat_l. apply Rmult_le_compat_r; [lra|]. apply le_INR. lia.
  - split; [exact B|]. split; [apply (quotient_edges d i p S); fold q; lra|]. left. apply (quotient_edges d (i + 1) p S). fold q. rewrite plus_INR. simpl. lra.
Qed.
Theorem bin_unique d i j p : (d_min d < d_max d)%R -> in_bin d i p -> in_bin d j p -> i = j.
Proof.
  intros H1 (Bi & Li & Ui) (Bj & Lj & Uj). assert (H2 : 1 <= d_bins d) by lia. pose proof (step_pos d H1 H2) as S.
  assert (M : forall a b, a < b -> (edge d (a + 1) <= edge d b)%R) by (intros a b L; rewrite !edge_step; apply Rplus_le_compat_l, Rmult_le_compat_r; [lra|]; apply le_INR; lia).
  assert (X : forall a b, a < b -> b < d_bins d -> (p < edge d (a + 1))%R \/ a + 1 = d_bins d /\ p = d_max d -> (edge d b <= p)%R -> False) by (intros a b L Bb [U|[U _]] Lb; [pose proof (M a b L); lra|lia]).
  destruct (Nat.lt_trichotomy i j) as [L|[L|L]]; [exfalso; eapply X; eauto|exact L|exfalso; eapply X; eauto].
Qed.
(** Indices. *)
Lemma flat_acc g : forall idx, length idx = length g -> forall d i, flattenIndex (g ++ [d]) (idx ++ [i]) = d_bins d * flattenIndex g idx + i.
Proof.
  intros idx L d i. unfold flattenIndex. assert (E : combine (g ++ [d]) (idx ++ [i]) = combine g idx ++ [(d, i)]).
  { revert idx L. induction g as [|x g IH]; intros [|y idx] L; try discriminate; [reflexivity|]. cbn [app combine]. f_equal. apply IH. injection L as L. exact L. }
  rewrite E, fold_left_app. reflexivity.
Qed.
Lemma size_snoc g d : size (g ++ [d]) = size g * d_bins d. Proof. unfold size. rewrite fold_left_app. reflexivity. Qed.
Lemma index_snoc g d idx' : index_of (g ++ [d]) idx' -> exists idx i, idx' = idx ++ [i] /\ index_of g idx /\ i < d_bins d.
Proof. intros H. apply Forall2_app_inv_l in H. destruct H as (l1 & l2 & H1 & H2 & ->). inversion H2 as [|? i ? l3 Hi H3]; subst. inversion H3; subst. exists l1, i. auto. Qed.
Theorem flat_range g : forall idx, index_of g idx -> flattenIndex g idx < size g.
Proof.
  induction g as [|d g IH] using rev_ind; intros idx' H; [inversion H; subst; cbn; lia|]. destruct (index_snoc _ _ _ H) as (idx & i & -> & Hg & Hi). rewrite flat_acc by (symmetry; eapply (Forall2_length (fun d i => i < d_bins d)); exact Hg). rewrite size_snoc. pose proof (IH idx Hg). nia.
Qed.
Lemma reshape_snoc g d k : reshapeIndex (g ++ [d]) k = reshapeIndex g (k / d_bins d) ++ [k mod d_bins d].
Proof. unfold reshapeIndex. rewrite rev_app_distr. cbn [rev app reshape_back]. reflexivity. Qed.
Theorem flat_reshape g : forall idx, index_of g idx -> reshapeIndex g (flattenIndex g idx) = idx.
Proof.
  induction g as [|d g IH] using rev_ind; intros idx' H; [inversion H; subst; reflexivity|]. destruct (index_snoc _ _ _ H) as (idx & i & -> & Hg & Hi). rewrite flat_acc by (symmetry; eapply (Forall2_length (fun d i => i < d_bins d)); exact Hg). rewrite reshape_snoc. rewrite (Nat.mul_comm (d_bins d)). rewrite Nat.div_add_l, Nat.div_small, Nat.add_0_r, IH by (auto; lia). rewrite Nat.add_comm, Nat.mod_add, Nat.mod_small by lia. reflexivity.
Qed.
Theorem reshape_flat g : forall k, k < size g -> index_of g (reshapeIndex g k) /\ flattenIndex g (reshapeIndex g k) = k.
Proof.
  induction g as [|d g IH] using rev_ind; intros k H; [cbn in *; split; [constructor|lia]|]. rewrite size_snoc in H. assert (Hd : d_bins d <> 0) by nia. destruct (IH (k / d_bins d)) as [I E]; [apply Nat.div_lt_upper_bound; lia|]. rewrite reshape_snoc. split; [apply Forall2_app; [exact I|repeat constructor; apply Nat.mod_upper_bound; exact Hd]|]. rewrite flat_acc by (symmetry; eapply (Forall2_length (fun d i => i < d_bins d)); exact I). rewrite E. symmetry. apply Nat.div_mod. exact Hd.
Qed.
Theorem flat_injective g i j : index_of g i -> index_of g j -> flattenIndex g i = flattenIndex g j -> i = j.
Proof. intros Hi Hj E. rewrite <- (flat_reshape g i Hi), <- (flat_reshape g j Hj), E. reflexivity. Qed.
(** Positions. *)
Lemma located_found g : forall pos, proper g -> Forall2 in_range g pos -> located g (calculateBinIndex g pos) pos.
Proof.
  unfold located, calculateBinIndex. intros pos P R. induction R as [|d p g pos Hr R IH]; [split; [constructor|reflexivity]|]. destruct (IH (Forall_inv_tail P)) as [IH1 IH2]. pose proof (Forall_inv P) as [H1 H2]. cbn [combine map length fst snd]. split; [|rewrite IH2; reflexivity]. constructor; [|exact IH1]. cbn [fst snd]. apply bin_found; auto.
Qed.
Lemma located_index g : forall idx pos, located g idx pos -> index_of g idx.
Proof.
  unfold located. induction g as [|d g IH]; intros [|i idx] pos [H L]; try discriminate; [constructor|]. destruct pos as [|p pos]; [inversion H|]. cbn [combine] in H. inversion H as [|? ? ? ? (B & _) H2]; subst. constructor; [exact B|]. apply (IH idx pos). split; [exact H2|]. injection L as L. exact L.
Qed.
Lemma located_unique g : proper g -> forall idx idx' pos, located g idx pos -> located g idx' pos -> idx = idx'.
Proof.
  unfold located. induction g as [|d g IH]; intros P idx idx' pos [H L] [H' L']; [destruct idx, idx'; try discriminate; reflexivity|]. destruct idx as [|i idx], idx' as [|i' idx']; try discriminate. destruct pos as [|p pos]; [inversion H|]. cbn [combine] in *. inversion H as [|? ? ? ? B H2]; subst. inversion H' as [|? ? ? ? B' H2']; subst. cbn [fst snd] in *. f_equal; [eapply bin_unique; eauto; apply (Forall_inv P)|]. apply (IH (Forall_inv_tail P) idx idx' pos); split; auto.
Qed.
Lemma in_range_check g pos : length pos = length g -> (forallb (fun x => Rleb (d_min (fst x)) (snd x) && Rleb (snd x) (d_max (fst x))) (combine g pos) = true <-> Forall2 in_range g pos).
Proof.
  revert pos. induction g as [|d g IH]; intros [|p pos] L; try discriminate; [split; [constructor|reflexivity]|]. cbn [combine forallb fst snd]. rewrite !andb_true_iff, IH by (injection L as L; exact L). unfold Rleb, in_range at 1. split.
  - intros [[A B] C]. constructor; [|exact C]. unfold in_range. destruct (Rle_dec (d_min d) p); [|discriminate]. destruct (Rle_dec p (d_max d)); [|discriminate]. auto.
  - intros H. inversion H as [|? ? ? ? [A B] C]; subst. destruct (Rle_dec (d_min d) p); [|contradiction]. destruct (Rle_dec p (d_max d)); [|contradiction]. auto.
Qed.
Theorem at_pos g pos : proper g -> Forall2 in_range g pos -> exists idx, located g idx pos /\ atPos g pos = Some (flattenIndex g idx) /\ flattenIndex g idx < size g.
Proof.
  intros P R. pose proof (located_found g pos P R) as H. exists (calculateBinIndex g pos). split; [exact H|]. pose proof (flat_range g _ (located_index _ _ _ H)) as F. split; [|exact F]. unfold atPos. rewrite (proj2 (in_range_check g pos (eq_sym (Forall2_length _ _ _ R))) R). cbn [negb]. cbn zeta. rewrite (proj2 (Nat.leb_gt _ _) F). reflexivity.
Qed.
Theorem at_pos_refused g pos : length pos = length g -> ~ Forall2 in_range g pos -> atPos g pos = None.
Proof. intros L N. unfold atPos. destruct (forallb _ _) eqn:E; [|reflexivity]. apply in_range_check in E; [contradiction|exact L]. Qed.
Theorem at_index g idx : length idx = length g -> (index_of g idx -> atIndex g idx = Some (flattenIndex g idx)) /\ (~ index_of g idx -> atIndex g idx = None).
Proof.
  intros L. assert (K : forallb (fun x => snd x <? d_bins (fst x)) (combine g idx) = true <-> index_of g idx).
  { revert idx L. induction g as [|d g IH]; intros [|i idx] L; try discriminate; [split; [constructor|reflexivity]|]. cbn [combine forallb fst snd]. rewrite andb_true_iff, IH, Nat.ltb_lt by (injection L as L; exact L). split; [intros [A B]; constructor; auto|intros H; inversion H; auto]. }
  unfold atIndex. destruct (forallb _ _); split; intros H; try reflexivity; [exfalso; apply H, K; reflexivity|apply K in H; discriminate].
Qed.
(** Middles and dividers. *)
Theorem middle_inside g k : proper g -> k < size g -> located g (reshapeIndex g k) (middle g k).
Proof.
  intros P H. destruct (reshape_flat g k H) as [I _]. unfold middle. revert P I. generalize (reshapeIndex g k). clear. unfold located. induction g as [|d g IH]; intros idx P I; inversion I as [|? i ? idx' Hi I']; subst; [split; [constructor|reflexivity]|]. destruct (IH idx' (Forall_inv_tail P) I') as [A B]. pose proof (Forall_inv P) as [H1 H2]. pose proof (step_pos d H1 H2). cbn [combine map length fst snd]. split; [|rewrite B; reflexivity]. constructor; [|exact A]. cbn [fst snd]. split; [exact Hi|]. rewrite !edge_step. split; [lra|]. left. rewrite plus_INR. simpl. lra.
Qed.
Theorem dividers d : 1 <= d_bins d -> length (getBinDividers d) = d_bins d + 1 /\ forall i, i <= d_bins d -> nth i (getBinDividers d) 0%R = edge d i.
Proof.
  intros H. pose proof (bins_pos d H). unfold getBinDividers. cbn zeta. split; [rewrite map_length, seq_length; reflexivity|]. intros i Hi. set (f := fun i => (d_min d * ((INR (d_bins d) - INR i) / INR (d_bins d)) + d_max d * (INR i / INR (d_bins d)))%R). rewrite (nth_indep _ 0%R (f 0)) by (rewrite map_length, seq_length; lia). rewrite map_nth, seq_nth by lia. unfold f, edge. rewrite Nat.add_0_l. field. lra.
Qed.
(** Adding. *)
Lemma bump_length k v h : length (bump k v h) = length h. Proof. revert k. induction h as [|b h IH]; intros [|k]; cbn; auto. Qed.
Definition vc0 : ValueCount := (0%R, 0).
Lemma bump_nth k v h j : j < length h -> nth j (bump k v h) vc0 = if j =? k then ((fst (nth j h vc0) + v)%R, snd (nth j h vc0) + 1) else nth j h vc0.
Proof. revert k j. induction h as [|b h IH]; intros [|k] [|j] L; cbn [length] in L; try lia; cbn [bump nth Nat.eqb]; try reflexivity. apply IH. lia. Qed.
Lemma update_length {A} k (f : A -> A) l : length (update k f l) = length l. Proof. revert k. induction l as [|b h IH]; intros [|k]; cbn; auto. Qed.
Lemma update_forall {A} (P : A -> Prop) k f l : (forall a, P a -> P (f a)) -> Forall P l -> Forall P (update k f l).
Proof. intros H F. revert k. induction F as [|a l Ha F IH]; intros [|k]; cbn [update]; constructor; auto. Qed.
(** The sum over threads of what they have in the bin. *)
Definition column (j : nat) (hs : list (list ValueCount)) : ValueCount := fold_right (fun h s => vc_add (nth j h vc0) s) vc0 hs.
Lemma column_cons j h hs : column j (h :: hs) = vc_add (nth j h vc0) (column j hs). Proof. reflexivity. Qed.
Lemma column_bump n j k v hs : Forall (fun h => length h = n) hs -> j < n -> forall t, t < length hs ->
  column j (update t (bump k v) hs) = if j =? k then ((fst (column j hs) + v)%R, snd (column j hs) + 1) else column j hs.
Proof.
  intros F Hj. induction F as [|h hs Hh F IH]; intros [|t] Ht; cbn [length] in Ht; try lia; cbn [update]; rewrite !column_cons.
  - rewrite bump_nth by (rewrite Hh; exact Hj). destruct (j =? k); [|reflexivity]. unfold vc_add. cbn [fst snd]. f_equal; [lra|lia].
  - rewrite IH by lia. destruct (j =? k); [|reflexivity]. unfold vc_add. cbn [fst snd]. f_equal; [lra|lia].
Qed.
Lemma add_nth n a b j : length a = n -> length b = n -> j < n -> nth j (hist_add a b) vc0 = vc_add (nth j a vc0) (nth j b vc0) /\ length (hist_add a b) = n.
Proof.
  intros Ha Hb Hj. unfold hist_add. split; [|rewrite map_length, combine_length; lia]. set (f := fun x : ValueCount * ValueCount => vc_add (fst x) (snd x)). rewrite (nth_indep _ vc0 (f (vc0, vc0))) by (rewrite map_length, combine_length; lia). rewrite map_nth, combine_nth by lia. reflexivity.
Qed.
Lemma total_nth n j hs : Forall (fun h => length h = n) hs -> j < n -> forall t, length t = n -> nth j (fold_left hist_add hs t) vc0 = vc_add (nth j t vc0) (column j hs) /\ length (fold_left hist_add hs t) = n.
Proof.
  intros F Hj. induction F as [|h hs Hh F IH]; intros t Ht; cbn [fold_left].
  - split; [|exact Ht]. unfold vc_add, vc0. cbn. destruct (nth j t (0%R, 0)). cbn. f_equal; [lra|lia].
  - destruct (add_nth n t h j Ht Hh Hj) as [E L]. destruct (IH _ L) as [E' L']. split; [|exact L']. rewrite column_cons, E', E. unfold vc_add. cbn [fst snd]. f_equal; [lra|lia].
Qed.
Lemma clear_length i h : length (hist_clear i h) = length h. Proof. apply map_length. Qed.
Lemma clear_nth i h j : j < length h -> nth j (hist_clear i h) vc0 = (i, 0). Proof. revert j. induction h as [|b h IH]; intros [|j] L; cbn [length] in L; try lia; cbn; auto. apply IH. lia. Qed.
Lemma clear_column n i j hs : Forall (fun h => length h = n) hs -> j < n -> column j (map (hist_clear i) hs) = ((INR (length hs) * i)%R, 0).
Proof.
  intros F Hj. induction F as [|h hs Hh F IH]; [cbn; unfold vc0; f_equal; lra|]. cbn [map]. rewrite column_cons, IH. rewrite clear_nth by (rewrite Hh; exact Hj). unfold vc_add. cbn [fst snd length]. rewrite S_INR. f_equal. ring.
Qed.
(** Tallies. *)
Lemma tally_det g idx l v n v' n' : tally g idx l v n -> tally g idx l v' n' -> v = v' /\ n = n'.
Proof. intros H. revert v' n'. induction H as [|a l v n Ha H IH|a l v n Ha H IH]; intros v' n' H'; inversion H'; subst; try contradiction; auto. - destruct (IH _ _ H5) as [-> ->]. auto. Qed.
Definition decide_at (g : list dim) (k : nat) (a : addition) : bool := match atPos g (a_pos a) with Some j => k =? j | None => false end.
Lemma decide_iff g k a : proper g -> k < size g -> Forall2 in_range g (a_pos a) -> (decide_at g k a = true <-> located g (reshapeIndex g k) (a_pos a)).
Proof.
  intros P Hk R. destruct (at_pos g (a_pos a) P R) as (idx & L & E & _). destruct (reshape_flat g k Hk) as [Ik Ek]. unfold decide_at. rewrite E, Nat.eqb_eq. split.
  - intros ->. rewrite flat_reshape by (eapply located_index; exact L). exact L.
  - intros L'. rewrite (located_unique g P _ _ _ L L'), Ek. reflexivity.
Qed.
Lemma tally_exists g threads k l : proper g -> k < size g -> Forall (legal g threads) l -> exists v n, tally g (reshapeIndex g k) l v n.
Proof.
  intros P Hk F. induction F as [|a l [_ Ha] F (v & n & IH)]; [exists 0%R, 0; constructor|]. destruct (decide_at g k a) eqn:D.
  - exists (a_value a + v)%R, (n + 1). apply T_here; [apply decide_iff; auto|exact IH].
  - exists v, n. apply T_other; [|exact IH]. intros L. apply decide_iff in L; auto. congruence.
Qed.
Lemma tally_app g idx l v n l' v' n' : tally g idx l v n -> tally g idx l' v' n' -> tally g idx (l ++ l') (v + v') (n + n').
Proof. intros H H'. induction H as [|a l v n Ha H IH|a l v n Ha H IH]; cbn [app]. - rewrite Rplus_0_l. exact H'. - replace (a_value a + v + v')%R with (a_value a + (v + v'))%R by lra. replace (n + 1 + n') with (n + n' + 1) by lia. apply T_here; auto. - apply T_other; auto. Qed.
Lemma T_here' g idx a l v n w m : located g idx (a_pos a) -> tally g idx l v n -> w = (a_value a + v)%R -> m = n + 1 -> tally g idx (a :: l) w m. Proof. intros A T -> ->. apply T_here; auto. Qed.
Lemma tally_perm g idx l l' : Permutation (map (fun a => (a_pos a, a_value a)) l) (map (fun a => (a_pos a, a_value a)) l') -> forall v n, tally g idx l v n -> tally g idx l' v n.
Proof.
  intros Pm. remember (map (fun a => (a_pos a, a_value a)) l) as m eqn:Em. remember (map (fun a => (a_pos a, a_value a)) l') as m' eqn:Em'. revert l l' Em Em'. induction Pm as [|x m m' Pm IH|x y m|m m1 m' P1 IH1 P2 IH2]; intros l l' Em Em' v n T.
  - destruct l, l'; try discriminate. exact T.
  - destruct l as [|a l], l' as [|a' l']; try discriminate. cbn [map] in *. injection Em as E1 E2. injection Em' as E1' E2'. rewrite E1 in E1'. injection E1' as Ep Ev. inversion T; subst; [rewrite Ev; apply T_here; [rewrite <- Ep; assumption|]|apply T_other; [rewrite <- Ep; assumption|]]; eapply IH; eauto.
  - destruct l as [|a [|b l]], l' as [|a' [|b' l']]; try discriminate. cbn [map] in *. injection Em as E1 E2 E3. injection Em' as E1' E2' E3'. rewrite E1 in E2'. rewrite E2 in E1'. injection E1' as Ep1 Ev1. injection E2' as Ep2 Ev2. rewrite E3 in E3'. assert (K : forall v n, tally g idx l v n -> tally g idx l' v n).
    { clear - E3'. revert l' E3'. induction l as [|c l IH]; intros [|c' l'] E v n T; try discriminate; [exact T|]. cbn [map] in E. injection E as Ep Ev E. inversion T; subst; [rewrite Ev; apply T_here; [rewrite <- Ep; assumption|]|apply T_other; [rewrite <- Ep; assumption|]]; eapply IH; eauto. }
    inversion T as [|? ? ? ? A T1|? ? ? ? A T1]; subst; inversion T1 as [|? ? ? ? B T2|? ? ? ? B T2]; subst; apply K in T2; rewrite ?Ep1, ?Ep2 in *.
    + eapply T_here'; [assumption|eapply T_here'; [assumption|exact T2|reflexivity|reflexivity]|rewrite <- Ev1, <- Ev2; lra|lia].
    + rewrite Ev2. apply T_other; auto. apply T_here; auto.
    + rewrite Ev1. apply T_here; auto. apply T_other; auto.
    + apply T_other; auto. apply T_other; auto.
  - assert (exists l1, m1 = map (fun a => (a_pos a, a_value a)) l1) as (l1 & E1) by (exists (map (fun x => Addition 0 (fst x) (snd x)) m1); rewrite map_map; cbn; clear; induction m1 as [|[p v] m1 IH]; [reflexivity|cbn; rewrite <- IH; reflexivity]). eapply IH2; eauto.
Qed.
(** Runs. *)
Definition good (g : list dim) (threads : nat) (b : builder) : Prop := length (hb_total b) = size g /\ length (hb_current b) = threads /\ Forall (fun h => length h = size g) (hb_current b).
Lemma adds_column g threads l : proper g -> Forall (legal g threads) l -> forall b, good g threads b ->
  exists b', adds g l b = Some b' /\ good g threads b' /\ hb_total b' = hb_total b /\ hb_snapshots b' = hb_snapshots b /\
    forall k v n, k < size g -> tally g (reshapeIndex g k) l v n -> column k (hb_current b') = ((fst (column k (hb_current b)) + v)%R, snd (column k (hb_current b)) + n).
Proof.
  intros P F. induction F as [|a l [Ht Ha] F IH]; intros b (G1 & G2 & G3); cbn [adds].
  - exists b. split; [reflexivity|]. split; [repeat split; auto|]. split; [reflexivity|]. split; [reflexivity|]. intros k v n _ T. inversion T; subst. destruct (column k (hb_current b)). cbn. f_equal; [lra|lia].
  - destruct (at_pos g (a_pos a) P Ha) as (idx & L & E & Hs). unfold add. rewrite G2, (proj2 (Nat.ltb_lt _ _) Ht), E. cbn [negb]. set (b1 := Builder _ _ _).
    destruct (IH b1) as (b' & E' & G' & T' & S' & C').
    { split; [exact G1|]. unfold b1. cbn [hb_current]. rewrite update_length. split; [exact G2|]. apply update_forall; [|exact G3]. intros h Hh. rewrite bump_length. exact Hh. }
    exists b'. split; [exact E'|]. split; [exact G'|]. split; [rewrite T'; reflexivity|]. split; [rewrite S'; reflexivity|]. intros k v n Hk T. destruct (reshape_flat g k Hk) as [Ik Ek].
    assert (Cb : column k (hb_current b1) = if k =? flattenIndex g idx then ((fst (column k (hb_current b)) + a_value a)%R, snd (column k (hb_current b)) + 1) else column k (hb_current b)) by (unfold b1; cbn [hb_current]; apply (column_bump (size g)); auto; rewrite G2; exact Ht).
    inversion T as [|? ? v' n' A T1|? ? v' n' A T1]; subst.
    + assert (X : k =? flattenIndex g idx = true) by (apply Nat.eqb_eq; rewrite (located_unique g P _ _ _ L A), Ek; reflexivity). rewrite X in Cb. rewrite (C' k v' n' Hk T1), Cb. cbn [fst snd]. f_equal; [lra|lia].
    + assert (X : k =? flattenIndex g idx = false) by (apply Nat.eqb_neq; intros ->; apply A; rewrite flat_reshape by (eapply located_index; exact L); exact L). rewrite X in Cb. rewrite (C' k v n Hk T1), Cb. reflexivity.
Qed.
Lemma next_good g threads i b : good g threads b -> good g threads (nextSnapshot i b).
Proof.
  intros (G1 & G2 & G3). unfold nextSnapshot. split; [|split].
  - cbn [hb_total]. clear G2. revert G1. generalize (hb_total b). induction G3 as [|h hs Hh F IH]; intros t Ht; [exact Ht|]. cbn [fold_left]. apply IH. unfold hist_add. rewrite map_length, combine_length. lia.
  - cbn [hb_current]. rewrite map_length. exact G2.
  - cbn [hb_current]. apply Forall_forall. intros h I. apply in_map_iff in I. destruct I as (h0 & <- & I). rewrite clear_length. rewrite Forall_forall in G3. apply G3. exact I.
Qed.
Theorem run_total g threads i s : proper g -> Forall (Forall (legal g threads)) s -> forall b, good g threads b -> (forall k, k < size g -> column k (hb_current b) = ((INR threads * i)%R, 0)) ->
  exists b', run g i s b = Some b' /\ good g threads b' /\ hb_snapshots b' = hb_snapshots b + length s /\
    (forall k, k < size g -> column k (hb_current b') = ((INR threads * i)%R, 0)) /\
    forall k v n, k < size g -> tally g (reshapeIndex g k) (concat s) v n -> nth k (hb_total b') vc0 = ((fst (nth k (hb_total b) vc0) + INR (length s) * (INR threads * i) + v)%R, snd (nth k (hb_total b) vc0) + n).
Proof.
  intros P F. induction F as [|l s Hl F IH]; intros b G Z; cbn [run].
  - exists b. split; [reflexivity|]. split; [exact G|]. split; [cbn; lia|]. split; [exact Z|]. intros k v n _ T. inversion T; subst. destruct (nth k (hb_total b) vc0). cbn. f_equal; [lra|lia].
  - destruct (adds_column g threads l P Hl b G) as (b1 & E1 & G1 & T1 & S1 & C1). rewrite E1. pose proof (next_good g threads i b1 G1) as G2. assert (Z2 : forall k, k < size g -> column k (hb_current (nextSnapshot i b1)) = ((INR threads * i)%R, 0)).
    { intros k Hk. destruct G1 as (_ & A & B). cbn [nextSnapshot hb_current]. rewrite (clear_column (size g)) by auto. rewrite A. reflexivity. }
    destruct (IH _ G2 Z2) as (b' & E' & G' & S' & Z' & C'). exists b'. split; [exact E'|]. split; [exact G'|]. split; [rewrite S'; cbn [nextSnapshot hb_snapshots length]; rewrite S1; lia|]. split; [exact Z'|]. intros k v n Hk T. cbn [concat] in T.
    destruct (tally_exists g threads k l P Hk Hl) as (v1 & n1 & Tl). assert (Fs : Forall (legal g threads) (concat s)) by (clear - F; induction F; cbn [concat]; [constructor|apply Forall_app; auto]). destruct (tally_exists g threads k (concat s) P Hk Fs) as (v2 & n2 & Ts). destruct (tally_det _ _ _ _ _ _ _ T (tally_app _ _ _ _ _ _ _ _ Tl Ts)) as [-> ->].
    rewrite (C' k v2 n2 Hk Ts). cbn [nextSnapshot hb_total]. destruct G1 as (L1 & A & B). rewrite (proj1 (total_nth (size g) k (hb_current b1) B Hk (hb_total b1) L1)), T1, (C1 k v1 n1 Hk Tl), (Z k Hk). unfold vc_add. cbn [fst snd length]. rewrite S_INR. f_equal; [lra|lia].
Qed.
(** A new builder. *)
Lemma create_some g i : proper g -> create g i = Some (repeat (i, 0) (size g)) /\ 1 <= size g.
Proof.
  intros P. assert (S : 1 <= size g) by (induction g as [|d g IH] using rev_ind; [cbn; lia|]; rewrite size_snoc; apply Forall_app in P; destruct P as [P1 P2]; pose proof (IH P1); pose proof (Forall_inv P2) as [_ X]; nia). split; [|exact S]. unfold create. assert (X : forallb (fun d => Rltb (d_min d) (d_max d)) g = true).
  { apply forallb_forall. intros d I. unfold proper in P; rewrite Forall_forall in P. destruct (P d I) as [A _]. unfold Rltb. destruct (Rlt_dec _ _); [reflexivity|contradiction]. }
  rewrite X. cbn [negb]. rewrite (proj2 (Nat.leb_le _ _) S). reflexivity.
Qed.
Theorem created g i : create g i <> None <-> Forall (fun d => (d_min d < d_max d)%R) g /\ 1 <= size g.
Proof.
  unfold create. destruct (forallb _ g) eqn:E; cbn [negb].
  - assert (X : Forall (fun d => (d_min d < d_max d)%R) g) by (apply Forall_forall; intros d I; rewrite forallb_forall in E; specialize (E d I); unfold Rltb in E; destruct (Rlt_dec _ _); [assumption|discriminate]). destruct (1 <=? size g) eqn:S; cbn [negb]; [apply Nat.leb_le in S|apply Nat.leb_gt in S]; split; intros H; try discriminate; auto; [contradiction|destruct H; lia].
  - split; [contradiction|]. intros [X _]. exfalso. assert (forallb (fun d => Rltb (d_min d) (d_max d)) g = true) by (apply forallb_forall; intros d I; rewrite Forall_forall in X; unfold Rltb; destruct (Rlt_dec _ _) as [|N]; [reflexivity|exfalso; apply N; auto]). congruence.
Qed.
Lemma nth_repeat_lt {A} (a d : A) n k : k < n -> nth k (repeat a n) d = a. Proof. revert k. induction n as [|n IH]; intros [|k] H; cbn; try lia; auto. apply IH. lia. Qed.
Lemma column_repeat (i : R) n k threads : k < n -> column k (repeat (repeat (i, 0) n) threads) = ((INR threads * i)%R, 0).
Proof. intros H. induction threads as [|t IH]; [cbn; unfold vc0; f_equal; lra|]. cbn [repeat]. rewrite column_cons, IH, nth_repeat_lt by exact H. unfold vc_add. cbn [fst snd]. rewrite S_INR. f_equal. ring. Qed.
Theorem filled g threads i s : proper g -> Forall (Forall (legal g threads)) s ->
  exists b0 b, build g threads i = Some b0 /\ run g i s b0 = Some b /\ length (hb_total b) = size g /\ hb_snapshots b = length s /\
    forall idx v n, index_of g idx -> tally g idx (concat s) v n -> nth (flattenIndex g idx) (hb_total b) vc0 = ((i + INR (length s) * (INR threads * i) + v)%R, n).
Proof.
  intros P F. destruct (create_some g i P) as [E S]. unfold build. rewrite E. eexists. set (b0 := Builder _ _ _). destruct (run_total g threads i s P F b0) as (b & E' & G' & S' & _ & C').
  - split; [apply repeat_length|]. split; [apply repeat_length|]. apply Forall_forall. intros h I. apply repeat_spec in I. subst. apply repeat_length.
  - intros k Hk. apply column_repeat. exact Hk.
  - exists b. split; [reflexivity|]. split; [exact E'|]. split; [apply G'|]. split; [exact S'|]. intros idx v n I T. pose proof (flat_range g idx I) as R. rewrite (C' (flattenIndex g idx) v n R); [|rewrite flat_reshape by exact I; exact T]. unfold b0. cbn [hb_total]. rewrite nth_repeat_lt by exact R. cbn [fst snd]. f_equal; lia.
Qed.
Lemma list_ext {A} (d : A) l l' : length l = length l' -> (forall k, k < length l -> nth k l d = nth k l' d) -> l = l'.
Proof. intros L H. apply (nth_ext l l' d d L H). Qed.
(** Threads and the order do not matter. *)
Theorem threads_irrelevant g threads i s s' b0 b b' : proper g -> Forall (Forall (legal g threads)) s -> Forall (Forall (legal g threads)) s' -> length s = length s' ->
  Permutation (map (fun a => (a_pos a, a_value a)) (concat s)) (map (fun a => (a_pos a, a_value a)) (concat s')) ->
  build g threads i = Some b0 -> run g i s b0 = Some b -> run g i s' b0 = Some b' -> hb_total b = hb_total b' /\ hb_snapshots b = hb_snapshots b'.
Proof.
  intros P F F' L Pm E R R'. destruct (filled g threads i s P F) as (b1 & b2 & E1 & R1 & L1 & S1 & C1). destruct (filled g threads i s' P F') as (b3 & b4 & E3 & R3 & L3 & S3 & C3).
  assert (b1 = b0) by congruence. assert (b3 = b0) by congruence. subst b1 b3. assert (b2 = b) by congruence. assert (b4 = b') by congruence. subst b2 b4. split; [|congruence]. apply (list_ext vc0); [congruence|]. intros k Hk. rewrite L1 in Hk. destruct (reshape_flat g k Hk) as [Ik Ek].
  assert (Fs : Forall (legal g threads) (concat s)) by (clear - F; induction F; cbn [concat]; [constructor|apply Forall_app; auto]). destruct (tally_exists g threads k (concat s) P Hk Fs) as (v & n & T). pose proof (C1 _ v n Ik T) as X. rewrite Ek in X. rewrite X. pose proof (C3 _ v n Ik (tally_perm _ _ _ _ Pm _ _ T)) as Y. rewrite Ek in Y. rewrite Y, L. reflexivity.
Qed.
Lemma nth_mapped {A B} (f : A -> B) l a b k : k < length l -> nth k (map f l) b = f (nth k l a). Proof. revert k. induction l as [|x l IH]; intros [|k] H; cbn [length] in H; try lia; cbn; auto. apply IH. lia. Qed.
(** What is dumped. *)
Theorem dumped i m b k : k < length (hb_total b) -> nth k (dumpHistogram i m b) (None, 0) =
  if hb_snapshots b =? 0 then (Some i, 0) else
  (match m with SUM => Some (fst (nth k (hb_total b) vc0) / INR (hb_snapshots b))%R | AVERAGE => if snd (nth k (hb_total b) vc0) =? 0 then None else Some (fst (nth k (hb_total b) vc0) / INR (snd (nth k (hb_total b) vc0)))%R end, snd (nth k (hb_total b) vc0)).
Proof.
  intros H. unfold dumpHistogram. destruct (hb_snapshots b =? 0); rewrite (nth_mapped _ _ vc0) by exact H; destruct m; reflexivity.
Qed.
Theorem cleared g threads i b b0 : good g threads b -> build g threads i = Some b0 -> clear i b = b0.
Proof.
  intros (G1 & G2 & G3) E. unfold build, create in E. destruct (negb _); [discriminate|]. destruct (negb _); [discriminate|]. injection E as <-. unfold clear. f_equal.
  - unfold hist_clear. rewrite <- G1. clear. induction (hb_total b) as [|x l IH]; [reflexivity|]. cbn. f_equal. exact IH.
  - rewrite <- G2. clear G1 G2. induction G3 as [|h hs Hh F IH]; [reflexivity|]. cbn [map length repeat]. f_equal; [|exact IH]. rewrite <- Hh. unfold hist_clear. clear. induction h as [|x l IH]; [reflexivity|]. cbn. f_equal. exact IH.
Qed.
Lemma middle_half g k : k < size g -> Forall2 (fun d x => snd x = ((edge d (fst x) + edge d (fst x + 1)) / 2)%R) g (combine (reshapeIndex g k) (middle g k)).
Proof.
  intros H. destruct (reshape_flat g k H) as [I _]. unfold middle. revert I. generalize (reshapeIndex g k). clear. induction g as [|d g IH]; intros idx I; inversion I as [|? i ? idx' Hi I']; subst; [constructor|]. cbn [combine map fst snd]. constructor; [|apply IH; exact I']. cbn [fst snd]. rewrite !edge_step, plus_INR. simpl. field.
Qed.
Lemma tally_total g threads l idx : proper g -> Forall (legal g threads) l -> index_of g idx -> exists v n, tally g idx l v n /\ forall v' n', tally g idx l v' n' -> v' = v /\ n' = n.
Proof.
  intros P F I. destruct (tally_exists g threads (flattenIndex g idx) l P (flat_range g idx I) F) as (v & n & T). rewrite flat_reshape in T by exact I. exists v, n. split; [exact T|]. intros v' n' T'. exact (tally_det _ _ _ _ _ _ _ T' T).
Qed.
Lemma concat_legal g threads s : Forall (Forall (legal g threads)) s -> Forall (legal g threads) (concat s). Proof. intros F. induction F; cbn [concat]; [constructor|apply Forall_app; auto]. Qed.
Theorem number_irrelevant g threads threads' s s' b0 b b0' b' : proper g -> Forall (Forall (legal g threads)) s -> Forall (Forall (legal g threads')) s' -> length s = length s' ->
  Permutation (map (fun a => (a_pos a, a_value a)) (concat s)) (map (fun a => (a_pos a, a_value a)) (concat s')) ->
  build g threads 0 = Some b0 -> run g 0 s b0 = Some b -> build g threads' 0 = Some b0' -> run g 0 s' b0' = Some b' -> hb_total b = hb_total b' /\ hb_snapshots b = hb_snapshots b'.
Proof.
  intros P F F' L Pm E R E' R'. destruct (filled g threads 0 s P F) as (b1 & b2 & E1 & R1 & L1 & S1 & C1). destruct (filled g threads' 0 s' P F') as (b3 & b4 & E3 & R3 & L3 & S3 & C3).
  assert (b1 = b0) by congruence. assert (b3 = b0') by congruence. subst b1 b3. assert (b2 = b) by congruence. assert (b4 = b') by congruence. subst b2 b4. split; [|congruence]. apply (list_ext vc0); [congruence|]. intros k Hk. rewrite L1 in Hk. destruct (reshape_flat g k Hk) as [Ik Ek].
  destruct (tally_exists g threads k (concat s) P Hk (concat_legal _ _ _ F)) as (v & n & T). pose proof (C1 _ v n Ik T) as X. rewrite Ek in X. rewrite X. pose proof (C3 _ v n Ik (tally_perm _ _ _ _ Pm _ _ T)) as Y. rewrite Ek in Y. rewrite Y. f_equal. ring.
Qed.
Lemma build_good g threads i b : build g threads i = Some b -> good g threads b.
Proof.
  unfold build, create. destruct (negb _); [discriminate|]. destruct (negb _); [discriminate|]. intros E. injection E as <-. split; [apply repeat_length|]. split; [apply repeat_length|]. apply Forall_forall. intros h I. apply repeat_spec in I. subst. apply repeat_length.
Qed.
Lemma add_good g threads t p v b b' : good g threads b -> add g t p v b = Some b' -> good g threads b'.
Proof.
  intros (G1 & G2 & G3). unfold add. destruct (negb _); [discriminate|]. destruct (atPos g p); [|discriminate]. intros E. injection E as <-. split; [exact G1|]. cbn [hb_current]. split; [rewrite update_length; exact G2|]. apply update_forall; [|exact G3]. intros h Hh. rewrite bump_length. exact Hh.
Qed.
Lemma adds_good g threads l : forall b b', good g threads b -> adds g l b = Some b' -> good g threads b'.
Proof. induction l as [|a l IH]; cbn [adds]; intros b b' G E; [injection E as <-; exact G|]. destruct (add _ _ _ _ b) eqn:A; [|discriminate]. eapply IH; [|exact E]. eapply add_good; eauto. Qed.
Lemma run_good g threads i s : forall b b', good g threads b -> run g i s b = Some b' -> good g threads b'.
Proof. induction s as [|l s IH]; cbn [run]; intros b b' G E; [injection E as <-; exact G|]. destruct (adds g l b) eqn:A; [|discriminate]. eapply IH; [|exact E]. apply next_good. eapply adds_good; eauto. Qed.
Theorem cleared_run g threads i s b0 b : proper g -> Forall (Forall (legal g threads)) s -> build g threads i = Some b0 -> run g i s b0 = Some b -> clear i b = b0.
Proof. intros _ _ B R. apply (cleared g threads); [|exact B]. eapply run_good; [|exact R]. eapply build_good. exact B. Qed.
Theorem initial_refuted : exists g i s b0 b b0' b', proper g /\ Forall (Forall (legal g 1)) s /\ build g 1 i = Some b0 /\ run g i s b0 = Some b /\ build g 2 i = Some b0' /\ run g i s b0' = Some b' /\ hb_total b <> hb_total b'.
Proof.
  set (g := [Dim 0 1 1]). assert (P : proper g) by (repeat constructor; cbn; try lra; lia). exists g, 1%R, [[]]. assert (F : forall t, Forall (Forall (legal g t)) [[]]) by (intros t; repeat constructor). destruct (filled g 1 1 [[]] P (F 1)) as (b1 & b2 & E1 & R1 & L1 & S1 & C1). destruct (filled g 2 1 [[]] P (F 2)) as (b3 & b4 & E3 & R3 & L3 & S3 & C3). exists b1, b2, b3, b4. split; [exact P|]. split; [apply F|]. split; [exact E1|]. split; [exact R1|]. split; [exact E3|]. split; [exact R3|]. intros E. assert (I : index_of g [0]) by (repeat constructor; cbn; lia). specialize (C1 [0] 0%R 0 I (T_none _ _)). specialize (C3 [0] 0%R 0 I (T_none _ _)). rewrite <- E, C1 in C3. injection C3 as X. simpl in X. lra.
Qed.
