From Coq Require Import Reals ZArith List Bool Lia Lra Permutation Sorted.
From Verif Require Import GeomModel GeomProofs RFloorModel RotModel HistModel HistProofs PackSpec PackSumProofs BondModel BondSpec.
Import ListNotations.
Local Open Scope nat_scope.

Lemma dlt_false a b : dlt a b = false <-> dle b a. Proof. destruct a as [x|], b as [y|]; cbn; unfold Rltb; try (destruct (Rlt_dec x y)); split; intros H; try reflexivity; try discriminate; try contradiction; auto; lra. Qed.
Lemma dlt_true a b : dlt a b = true -> dle a b. Proof. destruct a as [x|], b as [y|]; cbn; unfold Rltb; try (destruct (Rlt_dec x y)); intros H; try discriminate; auto; lra. Qed.
Lemma dle_trans a b c : dle a b -> dle b c -> dle a c. Proof. destruct a, b, c; cbn; try tauto; lra. Qed.
Lemma closer_trans a b c : closer a b -> closer b c -> closer a c. Proof. apply dle_trans. Qed.
Lemma closer_refl a : closer a a. Proof. unfold closer, dle. destruct (snd a); [lra|exact I]. Qed.

(** Insertion. *)
Definition farther (a b : neighbour) : Prop := closer b a.
Lemma sift_perm x l : Permutation (sift x l) (x :: l). Proof. induction l as [|y l IH]; cbn; [reflexivity|]. destruct (dlt _ _); [|reflexivity]. rewrite IH. apply perm_swap. Qed.
Lemma sift_sorted x l : StronglySorted farther l -> StronglySorted farther (sift x l).
Proof.
  intros S. induction S as [|y l S IH F]; cbn [sift]; [repeat constructor|]. destruct (dlt (snd x) (snd y)) eqn:E.
  - constructor; [exact IH|]. apply (Permutation_Forall (Permutation_sym (sift_perm x l))). constructor; [apply dlt_true; exact E|exact F].
  - apply dlt_false in E. constructor; [constructor; assumption|]. constructor; [exact E|]. eapply Forall_impl; [|exact F]. intros z Hz. apply (closer_trans z y x); [exact Hz|exact E].
Qed.
Lemma sorted_app_iff {A} (P : A -> A -> Prop) l l' : StronglySorted P (l ++ l') <-> StronglySorted P l /\ StronglySorted P l' /\ Forall (fun a => Forall (P a) l') l.
Proof.
  induction l as [|a l IH]; cbn [app]; [split; [intros H; repeat split; auto; constructor|tauto]|]. split.
  - intros H. inversion H as [|? ? S F]; subst. apply IH in S. destruct S as (S1 & S2 & S3). apply Forall_app in F. destruct F as [F1 F2]. repeat split; auto. constructor; auto.
  - intros (S1 & S2 & S3). inversion S1 as [|? ? S F]; subst. constructor; [apply IH; repeat split; auto; apply (Forall_inv_tail S3)|]. apply Forall_app. split; [exact F|apply (Forall_inv S3)].
Qed.
Lemma rev_sorted l : StronglySorted closer l <-> StronglySorted farther (rev l).
Proof.
  induction l as [|a l IH]; cbn [rev]; [split; constructor|]. rewrite sorted_app_iff, <- IH. split.
  - intros H. inversion H as [|? ? S F]; subst. repeat split; auto; [repeat constructor|]. apply Forall_rev. eapply Forall_impl; [|exact F]. intros b Hb. constructor; [exact Hb|constructor].
  - intros (S & _ & F). constructor; [exact S|]. rewrite <- (rev_involutive l). apply Forall_rev. eapply Forall_impl; [|exact F]. intros b Hb. exact (Forall_inv Hb).
Qed.
Lemma sift_pads idx d m l : sift (idx, Some d) (repeat (0, None) m ++ l) = repeat (0, None) m ++ sift (idx, Some d) l. Proof. induction m as [|m IH]; cbn; [reflexivity|]. rewrite IH. reflexivity. Qed.
Lemma repeat_rev {A} (a : A) m : rev (repeat a m) = repeat a m. Proof. induction m as [|m IH]; [reflexivity|]. cbn [repeat rev]. rewrite IH. change [a] with (repeat a 1). rewrite <- repeat_app. rewrite Nat.add_comm. reflexivity. Qed.
Lemma taken k (s : list neighbour) : firstn k (s ++ repeat (0, None) k) = if k <=? length s then firstn k s else s ++ repeat (0, None) (k - length s).
Proof.
  rewrite firstn_app. destruct (k <=? length s) eqn:E; [apply Nat.leb_le in E|apply Nat.leb_gt in E].
  - replace (k - length s) with 0 by lia. cbn. apply app_nil_r.
  - rewrite firstn_all2 by lia. f_equal. assert (X : forall a b, a <= b -> firstn a (repeat ((0, None) : neighbour) b) = repeat (0, None) a) by (clear; induction a as [|a IH]; intros [|b] H; cbn; try reflexivity; try lia; rewrite IH by lia; reflexivity). apply X. lia.
Qed.
Theorem insert_nearest k c l idx d : 1 <= k -> nearest k c l -> nearest k ((idx, Some d) :: c) (insertDistance l idx d).
Proof.
  intros Hk (s & P & S & ->). rewrite taken. set (x := (idx, Some d) : neighbour). destruct (k <=? length s) eqn:E; [apply Nat.leb_le in E|apply Nat.leb_gt in E].
  - rewrite <- (firstn_skipn k s) in S, P. pose proof (firstn_length k s) as L. rewrite Nat.min_l in L by lia. set (l := firstn k s) in *. set (s2 := skipn k s) in *. clearbody l s2. apply sorted_app_iff in S. destruct S as (S1 & S2 & S3). unfold insertDistance. destruct (rev l) as [|back front] eqn:Er; [apply (f_equal (@length _)) in Er; rewrite rev_length in Er; cbn in Er; lia|].
    assert (El : l = rev front ++ [back]) by (rewrite <- (rev_involutive l), Er; reflexivity). pose proof (proj1 (rev_sorted l) S1) as Sr. rewrite Er in Sr. destruct (StronglySorted_inv Sr) as [Sf Ff]. subst l. assert (All : Forall (fun a => closer a back) (rev front ++ [back])) by (apply Forall_app; split; [apply Forall_rev; exact Ff|repeat constructor; apply closer_refl]).
    assert (Sb : Forall (closer back) s2) by (rewrite Forall_forall in S3; apply S3, in_or_app; right; left; reflexivity). destruct (dlt (snd back) (Some d)) eqn:D.
    + apply dlt_true in D. exists ((rev front ++ [back]) ++ rev (sift x (rev s2))). split; [|split].
      * rewrite <- (Permutation_rev (sift x (rev s2))), sift_perm, <- (Permutation_rev s2), <- Permutation_middle. constructor. exact P.
      * apply sorted_app_iff. split; [exact S1|]. split; [apply rev_sorted; rewrite rev_involutive; apply sift_sorted; apply rev_sorted; exact S2|]. rewrite Forall_forall in All, S3 |- *. intros a Ha. apply Forall_rev, (Permutation_Forall (Permutation_sym (sift_perm x (rev s2)))). constructor; [|apply Forall_rev, S3, Ha]. apply (closer_trans a back x); [apply All; exact Ha|exact D].
      * rewrite firstn_app, firstn_app, L, Nat.sub_diag, firstn_all2 by lia. rewrite app_length, L. replace (k - _) with 0 by lia. cbn. rewrite !app_nil_r. reflexivity.
    + apply dlt_false in D. exists (rev (sift x front) ++ back :: s2). split; [|split].
      * rewrite <- (Permutation_rev (sift x front)), sift_perm. cbn [app]. constructor. rewrite <- P, <- app_assoc. cbn [app]. apply Permutation_app_tail. apply Permutation_rev.
      * apply sorted_app_iff. split; [apply rev_sorted; rewrite rev_involutive; apply sift_sorted; exact Sf|]. split; [constructor; assumption|]. apply Forall_rev, (Permutation_Forall (Permutation_sym (sift_perm x front))). assert (K : forall a, closer a back -> Forall (closer a) (back :: s2)) by (intros a Ha; constructor; [exact Ha|]; eapply Forall_impl; [|exact Sb]; intros z Hz; apply (closer_trans a back z); auto). constructor; [apply K; exact D|]. eapply Forall_impl; [|exact Ff]. intros a Ha. apply K. exact Ha.
      * assert (Lr : length (rev (sift x front)) = k) by (rewrite rev_length, (Permutation_length (sift_perm _ _)); rewrite app_length, rev_length in L; cbn in *; lia). rewrite !firstn_app, Lr, Nat.sub_diag, firstn_all2 by lia. rewrite app_length, Lr. replace (k - _) with 0 by lia. cbn. rewrite !app_nil_r. reflexivity.
  - unfold insertDistance. rewrite rev_app_distr, repeat_rev. destruct (k - length s) as [|m] eqn:Em; [lia|]. cbn [repeat app snd dlt]. exists (rev (sift x (rev s))). split; [|split].
    + rewrite <- Permutation_rev, sift_perm, <- Permutation_rev. constructor. exact P.
    + apply rev_sorted. rewrite rev_involutive. apply sift_sorted. apply rev_sorted. exact S.
    + subst x. rewrite sift_pads, rev_app_distr, repeat_rev. rewrite taken. assert (Lr : length (rev (sift (idx, Some d) (rev s))) = length s + 1) by (rewrite rev_length, (Permutation_length (sift_perm _ _)); cbn; rewrite rev_length; lia). rewrite Lr. destruct (k <=? length s + 1) eqn:E2; [apply Nat.leb_le in E2|apply Nat.leb_gt in E2].
      * replace m with 0 by lia. cbn [repeat]. rewrite app_nil_r, firstn_all2 by lia. reflexivity.
      * replace (k - (length s + 1)) with m by lia. reflexivity.
Qed.
Lemma nearest_start k : nearest k [] (repeat (0, None) k).
Proof. exists []. split; [reflexivity|]. split; [constructor|]. rewrite taken. cbn [length]. destruct k; reflexivity. Qed.
Lemma nearest_perm k c c' l : Permutation c c' -> nearest k c l -> nearest k c' l.
Proof. intros P (s & Q & S & E). exists s. split; [rewrite Q; exact P|]. split; assumption. Qed.
Theorem nearest_prefix k c l r : r <= k -> nearest k c l -> nearest r c (firstn r l).
Proof.
  intros H (s & P & S & ->). exists s. split; [exact P|]. split; [exact S|]. rewrite firstn_firstn, Nat.min_l by exact H. replace k with (r + (k - r)) at 1 by lia. rewrite repeat_app, app_assoc, firstn_app. rewrite app_length, repeat_length. match goal with |- context [firstn (r - ?m) _] => replace (r - m) with 0 by lia end. cbn. apply app_nil_r.
Qed.
Theorem nearest_enough k c l : k <= length c -> nearest k c l -> length l = k /\ StronglySorted closer l /\ exists rest, Permutation (l ++ rest) c /\ Forall (fun a => Forall (closer a) rest) l.
Proof.
  intros H (s & P & S & ->). rewrite taken. rewrite (Permutation_length P), (proj2 (Nat.leb_le _ _) H). rewrite <- (firstn_skipn k s) in S. apply sorted_app_iff in S. destruct S as (S1 & S2 & S3). split; [rewrite firstn_length, (Permutation_length P); lia|]. split; [exact S1|]. exists (skipn k s). split; [rewrite firstn_skipn; exact P|exact S3].
Qed.
(** Loops over pairs. *)
Lemma update_nth {A} k (f : A -> A) l j d : j < length l -> nth j (update k f l) d = if j =? k then f (nth j l d) else nth j l d.
Proof. revert k j. induction l as [|a l IH]; intros [|k] [|j] L; cbn [length] in L; try lia; cbn [update nth Nat.eqb]; try reflexivity. apply IH. lia. Qed.
Section Knn.
  Variable translation : vec -> vec -> vec.
  Variable k : vec.
  Variable tauAngle : R.
  Variables layering points : list vec.
  Let same := sameLayer translation k tauAngle layering.
  Let dd := distance2 translation k points.
  (** What each visited pair adds. *)
  Definition given (i : nat) (x : nat * nat) : list neighbour := let (a, b) := x in if same a b then (if i =? b then [(a, Some (dd a b))] else if i =? a then [(b, Some (dd a b))] else []) else [].
  Lemma visit_nearest r n x knn : 1 <= r -> length knn = n -> fst x <> snd x -> let knn' := visit translation k tauAngle layering points knn x in length knn' = n /\
    forall i c, i < n -> nearest r c (nth i knn []) -> nearest r (given i x ++ c) (nth i knn' []).
  Proof.
    intros Hr L. destruct x as [a b]. cbn [fst snd]. intros N. unfold visit, given. fold (same a b). fold (dd a b). destruct (same a b); cbn [negb].
    - split; [rewrite !update_length; exact L|]. intros i c Hi H. rewrite update_nth by (rewrite update_length, L; exact Hi). rewrite update_nth by (rewrite L; exact Hi). destruct (i =? b) eqn:Eb; destruct (i =? a) eqn:Ea; [apply Nat.eqb_eq in Ea, Eb; lia| | |exact H]; cbn [app]; apply insert_nearest; auto.
    - split; [exact L|]. intros i c _ H. exact H.
  Qed.
  Lemma visits_nearest r n ps : 1 <= r -> Forall (fun x => fst x <> snd x) ps -> forall knn, length knn = n -> let knn' := fold_left (visit translation k tauAngle layering points) ps knn in length knn' = n /\
    forall i c, i < n -> nearest r c (nth i knn []) -> nearest r (flat_map (given i) ps ++ c) (nth i knn' []).
  Proof.
    intros Hr F. induction F as [|x ps Hx F IH]; intros knn L; cbn [fold_left flat_map]; [split; [exact L|intros i c _ H; exact H]|]. destruct (visit_nearest r n x knn Hr L Hx) as [L1 H1]. destruct (IH _ L1) as [L2 H2]. split; [exact L2|]. intros i c Hi H. eapply nearest_perm; [|apply H2; [exact Hi|apply H1; [exact Hi|exact H]]]. rewrite <- app_assoc. apply Permutation_app_swap_app.
  Qed.
  Lemma flat_map_nil {A B} (f : A -> list B) l : (forall a, In a l -> f a = []) -> flat_map f l = [].
  Proof. induction l as [|a l IH]; intros H; [reflexivity|]. cbn. rewrite H by (left; reflexivity). apply IH. intros b Hb. apply H. right. exact Hb. Qed.
  Lemma flat_map_one {B} (f : nat -> list B) s n m : s <= m < s + n -> (forall j, s <= j < s + n -> j <> m -> f j = []) -> flat_map f (seq s n) = f m.
  Proof.
    intros Hm H. replace (seq s n) with (seq s (m - s) ++ [m] ++ seq (m + 1) (s + n - (m + 1))).
    - rewrite !flat_map_app. rewrite flat_map_nil; [|intros a Ia; apply in_seq in Ia; apply H; lia]. rewrite (flat_map_nil _ (seq (m + 1) _)); [|intros a Ia; apply in_seq in Ia; apply H; lia]. cbn. rewrite !app_nil_r. reflexivity.
    - assert (E : n = (m - s) + (1 + (s + n - (m + 1)))) by lia. remember (s + n - (m + 1)) as w eqn:Ew. rewrite E. rewrite seq_app. f_equal. cbn [seq app Nat.add]. replace (s + (m - s)) with m by lia. rewrite Nat.add_1_r. reflexivity.
  Qed.
  Lemma flat_map_map' {A B C} (g : A -> B) (f : B -> list C) l : flat_map f (map g l) = flat_map (fun a => f (g a)) l. Proof. induction l as [|a l IH]; cbn; [reflexivity|]. rewrite IH. reflexivity. Qed.
  Lemma flat_map_flat {A B C} (g : A -> list B) (f : B -> list C) l : flat_map f (flat_map g l) = flat_map (fun a => flat_map f (g a)) l. Proof. induction l as [|a l IH]; cbn; [reflexivity|]. rewrite flat_map_app, IH. reflexivity. Qed.
  Lemma flat_map_ext' {A B} (f g : A -> list B) l : (forall a, In a l -> f a = g a) -> flat_map f l = flat_map g l.
  Proof. induction l as [|a l IH]; intros H; [reflexivity|]. cbn. rewrite H by (left; reflexivity). rewrite IH; [reflexivity|]. intros b Hb. apply H. right. exact Hb. Qed.
  Definition single (i j : nat) : list neighbour := if negb (j =? i) && same (min i j) (max i j) then [(j, Some (dd (min i j) (max i j)))] else [].
  Lemma given_pairs n i : i < n -> Permutation (flat_map (given i) (pairs n)) (flat_map (single i) (seq 0 n)).
  Proof.
    intros Hi. unfold pairs. rewrite flat_map_flat. rewrite (flat_map_ext' _ (fun a => flat_map (fun b => given i (a, b)) (seq (a + 1) (n - (a + 1))))) by (intros a _; apply flat_map_map').
    assert (E : seq 0 n = seq 0 i ++ i :: seq (i + 1) (n - (i + 1))) by (assert (X : n = i + (1 + (n - (i + 1)))) by lia; remember (n - (i + 1)) as w eqn:Ew; rewrite X; rewrite seq_app; f_equal; cbn [seq app Nat.add]; rewrite Nat.add_1_r; reflexivity). rewrite E, !flat_map_app. cbn [flat_map].
    rewrite (flat_map_ext' _ (single i) (seq 0 i)).
    - apply Permutation_app_head. rewrite (flat_map_nil (fun a => flat_map (fun b => given i (a, b)) (seq (a + 1) (n - (a + 1)))) (seq (i + 1) (n - (i + 1)))).
      + rewrite app_nil_r. unfold single at 1. rewrite Nat.eqb_refl. cbn [negb andb app]. rewrite (flat_map_ext' _ (single i)); [reflexivity|]. intros b Ib. apply in_seq in Ib. unfold given, single. rewrite Nat.min_l, Nat.max_r by lia. rewrite (proj2 (Nat.eqb_neq i b)) by lia. rewrite (proj2 (Nat.eqb_neq b i)) by lia. rewrite Nat.eqb_refl. cbn [negb andb]. reflexivity.
      + intros a Ia. apply in_seq in Ia. apply flat_map_nil. intros b Ib. apply in_seq in Ib. unfold given. rewrite (proj2 (Nat.eqb_neq i b)), (proj2 (Nat.eqb_neq i a)) by lia. destruct (same a b); reflexivity.
    - intros a Ia. apply in_seq in Ia. rewrite (flat_map_one _ (a + 1) (n - (a + 1)) i) by (first [lia|intros j Hj Nj; unfold given; rewrite (proj2 (Nat.eqb_neq i j)), (proj2 (Nat.eqb_neq i a)) by lia; destruct (same a j); reflexivity]). unfold given, single. rewrite Nat.eqb_refl, Nat.min_r, Nat.max_l by lia. rewrite (proj2 (Nat.eqb_neq a i)) by lia. cbn [negb andb]. reflexivity.
  Qed.
  Lemma distance_plane i j : k <> vzero -> dd i j = in_plane2 k (joined translation points i j).
  Proof.
    intros Hk. unfold dd, distance2, joined. set (d := vsub (vadd (nth j points vzero) _) _). clearbody d. assert (Hn : (0 < vnorm2 k)%R).
    { destruct (Rle_lt_or_eq_dec 0 (vnorm2 k)) as [H|H]; [unfold vnorm2, vdot; nra|exact H|]. exfalso. apply Hk. unfold vnorm2, vdot in H. destruct k as [x y z]. cbn in *. unfold vzero. f_equal; nra. }
    assert (E : (vnorm2 d - vdot d (vscale (/ vnorm k) k) ^ 2 = in_plane2 k d)%R).
    { assert (E1 : (vdot d (vscale (/ vnorm k) k) ^ 2 = (vdot d k) ^ 2 / vnorm2 k)%R).
      { replace (vdot d (vscale (/ vnorm k) k)) with (/ vnorm k * vdot d k)%R by (unfold vdot, vscale; cbn; ring). assert (Q : (vnorm k * vnorm k = vnorm2 k)%R) by (apply sqrt_sqrt; lra). assert (N0 : (vnorm k <> 0)%R) by (intros Z; rewrite Z in Q; lra). rewrite <- Q. field. exact N0. }
      rewrite E1. unfold in_plane2. set (t := (vdot d k / vnorm2 k)%R). replace (vnorm2 (vsub d (vscale t k))) with (vnorm2 d - 2 * t * vdot d k + t * t * vnorm2 k)%R by (unfold vnorm2, vdot, vsub, vscale; cbn; ring). unfold t. field. lra. }
    rewrite E. apply Rmax_right. unfold in_plane2, vnorm2, vdot. nra.
  Qed.
  Lemma pairs_distinct n : Forall (fun x => fst x <> snd x) (pairs n).
  Proof. apply Forall_forall. intros [a b] I. apply in_flat_map in I. destruct I as (i & _ & I). apply in_map_iff in I. destruct I as (j & E & I). injection E as <- <-. apply in_seq in I. cbn. lia. Qed.
  Theorem knn_nearest r : k <> vzero -> 1 <= r -> length layering = length points -> exists knn, constructKnn translation k tauAngle layering points r = Some knn /\ length knn = length points /\
    forall i, i < length points -> nearest r (candidates translation k tauAngle layering points i) (nth i knn []).
  Proof.
    intros Hk Hr L. unfold constructKnn. rewrite (proj2 (Nat.eqb_eq _ _) L). cbn [negb]. set (n := length layering) in *. destruct (visits_nearest r n (pairs n) Hr (pairs_distinct n) (repeat (repeat (0, None) r) n) (repeat_length _ _)) as [L' H]. eexists. split; [reflexivity|]. split; [rewrite L'; exact L|]. intros i Hi. rewrite <- L in Hi. specialize (H i [] Hi). rewrite app_nil_r in H. eapply nearest_perm; [|apply H; rewrite nth_repeat_lt by exact Hi; apply nearest_start]. rewrite given_pairs by exact Hi. unfold candidates. rewrite <- L. fold same. clear H L'. clearbody n. generalize (seq 0 n). intros l. induction l as [|j l IH]; [reflexivity|]. cbn [flat_map filter]. unfold single at 1. destruct (negb (j =? i) && same (min i j) (max i j)); [|exact IH]. cbn [app map]. rewrite (distance_plane _ _ Hk). constructor. exact IH.
  Qed.
End Knn.
