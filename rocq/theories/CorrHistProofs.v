From Coq Require Import Reals ZArith List Bool Lia Lra Permutation.
From Verif Require Import GeomModel GeomProofs BoxModel BoxSpec BoxProofs RFloorModel RotModel PackSpec HistModel HistSpec HistProofs BondModel BondOrderProofs CorrModel CorrSpec CorrProofs CorrEnumProofs.
Import ListNotations.
Local Open Scope R_scope.

(** What the threads add, in terms of what is enumerated. *)
Section Hits.
  Context {A : Type}.
  Variables (g : list dim) (k : nat) (f : A -> work).
  Definition value_of (x : A) : R := match f x with (_, Some v) :: _ => v | _ => 0 end.
  Definition flag_of (x : A) : R := match f x with (_, None) :: _ => 1 | _ => 0 end.
  Definition is_hit (x : A) : bool := match f x with (p, _) :: _ => decide_at g k (Addition 0 p 0) | [] => false end.
  Definition tidy (x : A) : Prop := f x = [] \/ exists p v, f x = [(p, v)] /\ Forall2 in_range g p.
  Definition plain (w : work) : schedule := map (fun a => (0%nat, a)) w.
  Lemma tally_hits items : proper g -> (k < size g)%nat -> Forall tidy items ->
    tally g (reshapeIndex g k) (additions (plain (flat_map f items))) (Rsum value_of (filter is_hit items)) (length (filter is_hit items)) /\
    tally g (reshapeIndex g k) (nans (plain (flat_map f items))) (Rsum flag_of (filter is_hit items)) (length (filter is_hit items)).
  Proof.
    intros P Hk F. induction F as [|x items Hx F [IH1 IH2]]; [split; constructor|]. cbn [flat_map filter]. unfold plain in *. rewrite map_app. unfold additions, nans in *. rewrite !map_app.
    destruct Hx as [E|(p & v & E & R)].
    - assert (Hx : is_hit x = false) by (unfold is_hit; rewrite E; reflexivity). rewrite Hx, E. cbn [map app]. split; assumption.
    - assert (Hx : is_hit x = decide_at g k (Addition 0 p 0)) by (unfold is_hit; rewrite E; reflexivity). rewrite Hx, E. cbn [map app fst snd].
      assert (D : decide_at g k (Addition 0 p 0) = true <-> located g (reshapeIndex g k) p) by (apply (decide_iff g k (Addition 0 p 0) P Hk R)).
      destruct (decide_at g k (Addition 0 p 0)) eqn:Q.
      + assert (Lo : located g (reshapeIndex g k) p) by (apply (proj1 D); reflexivity). unfold Rsum in *. cbn [fold_right length]. unfold value_of at 1. unfold flag_of at 1. rewrite E. split; eapply T_here'; eauto; cbn; destruct v; (reflexivity || lia).
      + assert (Lo : ~ located g (reshapeIndex g k) p) by (intros X; apply (proj2 D) in X; discriminate). split; apply T_other; auto.
  Qed.
  Lemma hits_in items x : proper g -> (k < size g)%nat -> Forall tidy items -> (In x (filter is_hit items) <-> In x items /\ exists p v, f x = [(p, v)] /\ located g (reshapeIndex g k) p).
  Proof.
    intros P Hk F. rewrite filter_In. rewrite Forall_forall in F. split; intros [I H]; (split; [exact I|]).
    - unfold is_hit in H. destruct (F x I) as [E|(p & v & E & R)]; rewrite E in *; [discriminate|]. exists p, v. split; [reflexivity|]. apply (decide_iff g k (Addition 0 p 0) P Hk R). exact H.
    - destruct H as (p & v & E & L). unfold is_hit. rewrite E. destruct (F x I) as [E'|(p' & v' & E' & R)]; rewrite E in E'; [discriminate|]. injection E' as <- <-. apply (decide_iff g k (Addition 0 p 0) P Hk R). exact L.
  Qed.
End Hits.
Lemma pairs_additions s : map (fun a => (a_pos a, a_value a)) (additions s) = map (fun x => (fst x, match snd x with Some v => v | None => 0 end)) (map snd s).
Proof. unfold additions. rewrite !map_map. reflexivity. Qed.
Lemma pairs_nans s : map (fun a => (a_pos a, a_value a)) (nans s) = map (fun x => (fst x, match snd x with Some v => 0 | None => 1 end)) (map snd s).
Proof. unfold nans. rewrite !map_map. reflexivity. Qed.
Lemma plain_snd w : map snd (plain w) = w. Proof. unfold plain. rewrite map_map. cbn. apply map_id. Qed.
Lemma in_work {A} g (f : A -> work) items x : Forall (tidy g f) items -> In x (flat_map f items) -> Forall2 in_range g (fst x).
Proof. intros F I. apply in_flat_map in I. destruct I as (a & Ia & I). rewrite Forall_forall in F. destruct (F a Ia) as [E|(p & v & E & R)]; rewrite E in I; [destruct I|]. destruct I as [<-|[]]. exact R. Qed.
Lemma schedule_tally {A} g threads (f : A -> work) items s : proper g -> Forall (tidy g f) items -> scheduled threads (flat_map f items) s ->
  Forall (legal g threads) (additions s) /\ Forall (legal g threads) (nans s) /\
  forall k, (k < size g)%nat ->
    tally g (reshapeIndex g k) (additions s) (Rsum (value_of f) (filter (is_hit g k f) items)) (length (filter (is_hit g k f) items)) /\
    tally g (reshapeIndex g k) (nans s) (Rsum (flag_of f) (filter (is_hit g k f) items)) (length (filter (is_hit g k f) items)).
Proof.
  intros P F [Pm T]. assert (R : forall a, In a s -> Forall2 in_range g (fst (snd a)) /\ (fst a < threads)%nat).
  { intros a I. rewrite Forall_forall in T. split; [|apply T; exact I]. apply (in_work g f items); [exact F|]. apply (Permutation_in _ Pm). apply in_map. exact I. }
  split; [|split].
  - apply Forall_forall. intros a I. apply in_map_iff in I. destruct I as (x & <- & I). destruct (R x I). split; assumption.
  - apply Forall_forall. intros a I. apply in_map_iff in I. destruct I as (x & <- & I). destruct (R x I). split; assumption.
  - intros k Hk. destruct (tally_hits g k f items P Hk F) as [T1 T2]. split; (eapply tally_perm; [|eassumption]); rewrite ?pairs_additions, ?pairs_nans, plain_snd; apply Permutation_map, Permutation_sym; exact Pm.
Qed.
(** One dimension. *)
Lemma reshape_one d k : (k < d_bins d)%nat -> reshapeIndex [d] k = [k]. Proof. intros H. unfold reshapeIndex. cbn. rewrite Nat.mod_small by exact H. reflexivity. Qed.
Lemma size_one d : size [d] = d_bins d. Proof. unfold size. cbn. lia. Qed.
Lemma located_one d k p : located [d] [k] [p] <-> in_bin d k p.
Proof. unfold located. cbn [combine]. split; [intros [F _]; inversion F; subst; assumption|intros H; split; [constructor; [exact H|constructor]|reflexivity]]. Qed.
Lemma edge_mono d i j : (d_min d < d_max d) -> (1 <= d_bins d)%nat -> (i < j)%nat -> edge d i < edge d j.
Proof. intros H B L. rewrite !edge_step. pose proof (step_pos d H B). apply lt_INR in L. nra. Qed.
Lemma bin_range d k p : d_min d < d_max d -> in_bin d k p -> d_min d <= p <= d_max d.
Proof.
  intros H (B & L & U). assert (B1 : (1 <= d_bins d)%nat) by lia. split.
  - rewrite <- (edge_first d). destruct k as [|k]; [exact L|]. pose proof (edge_mono d 0 (S k) H B1). apply Rle_trans with (edge d (S k)); [left; apply H0; lia|exact L].
  - destruct U as [U|[_ ->]]; [|lra]. rewrite <- (edge_last d B1). destruct (Nat.eq_dec (k + 1) (d_bins d)) as [<-|N]; [lra|]. pose proof (edge_mono d (k + 1) (d_bins d) H B1). left. apply Rlt_trans with (edge d (k + 1)); [exact U|apply H0; lia].
Qed.
(** Expected numbers. *)
Lemma sorted_seq (e : nat -> R) n : forall m, (forall i, e i <= e (S i)) -> is_sorted (map e (seq m n)) = true.
Proof.
  induction n as [|n IH]; intros m H; [reflexivity|]. cbn [seq map is_sorted]. destruct n as [|n]; [reflexivity|]. cbn [seq map] in *. rewrite (proj2 (Rltb_false _ _)) by apply Rle_ge, H || apply H. cbn [negb andb]. apply (IH (S m)). exact H.
Qed.
Lemma differences_nth (e : nat -> R) n k : (k < n)%nat -> nth k (differences (map e (seq 0 (n + 1)))) 0 = e (k + 1)%nat - e k.
Proof.
  intros H. unfold differences. assert (L : length (combine (map e (seq 0 (n + 1))) (tl (map e (seq 0 (n + 1))))) = n) by (rewrite combine_length, Nat.add_1_r; cbn [seq map tl length]; rewrite !map_length, !seq_length; lia).
  rewrite (nth_mapped _ _ (0, 0)) by (rewrite L; exact H). rewrite Nat.add_1_r in *. cbn [seq map tl]. change (e 0%nat :: map e (seq 1 n)) with (map e (seq 0 (S n))).
  assert (G : forall m n k, (k < n)%nat -> nth k (combine (map e (seq m (S n))) (map e (seq (S m) n))) (0, 0) = (e (m + k)%nat, e (m + k + 1)%nat)).
  { clear. intros m n. revert m. induction n as [|n IH]; intros m k H; [lia|]. change (combine (map e (seq m (S (S n)))) (map e (seq (S m) (S n)))) with ((e m, e (S m)) :: combine (map e (seq (S m) (S n))) (map e (seq (S (S m)) n))). destruct k as [|k]; cbn [nth]; [rewrite Nat.add_0_r, Nat.add_1_r; reflexivity|]. rewrite IH by lia. f_equal; f_equal; lia. }
  rewrite G by exact H. cbn [fst snd]. rewrite !Nat.add_1_r. reflexivity.
Qed.
Lemma differences_length l : length (differences l) = (length l - 1)%nat.
Proof. unfold differences. rewrite map_length, combine_length. destruct l; cbn [tl length]; lia. Qed.
Definition divider (d : dim) (i : nat) : R := d_min d * ((INR (d_bins d) - INR i) / INR (d_bins d)) + d_max d * (INR i / INR (d_bins d)).
Lemma divider_edge d i : (1 <= d_bins d)%nat -> divider d i = edge d i. Proof. intros H. pose proof (bins_pos d H). unfold divider, edge. field. lra. Qed.
Lemma density_pos sn : legal_snapshot sn -> 0 < getNumberDensity sn.
Proof.
  intros [Cb N]. apply constructed_valid in Cb. unfold getNumberDensity. apply Rdiv_lt_0_compat; [|apply volume_pos; exact Cb]. apply lt_0_INR. destruct (sn_shapes sn); [contradiction|cbn; lia].
Qed.
Lemma cube_lt x y : 0 <= x < y -> x ^ 3 < y ^ 3. Proof. intros H. assert (0 < (y - x) * (y * y + y * x + x * x)) by (apply Rmult_lt_0_compat; nra). nra. Qed.
Theorem expected_numbers d b sn : d_min d = 0 -> 0 < d_max d -> (1 <= d_bins d)%nat -> legal_snapshot sn -> legal_binning b ->
  exists es, getExpectedNumOfMoleculesInShells b sn (getBinDividers d) = Some es /\ length es = d_bins d /\
    forall k, (k < d_bins d)%nat -> exists V, shell sn (edge d k) (edge d (k + 1)) b V /\ 0 < V /\ nth k es 0 = INR (length (sn_shapes sn)) / box_volume (sn_box sn) * V.
Proof.
  intros D0 D1 B Ls Lb. pose proof (density_pos sn Ls) as N0. destruct Ls as [Cb Ne]. pose proof (proj1 (constructed_valid _) Cb) as V. pose proof PI_RGT_0 as P0.
  assert (H : d_min d < d_max d) by lra. unfold getExpectedNumOfMoleculesInShells.
  assert (Ed : getBinDividers d = map (divider d) (seq 0 (d_bins d + 1))) by reflexivity. rewrite Ed, map_length, seq_length.
  assert (X1 : (2 <=? d_bins d + 1)%nat = true) by (apply Nat.leb_le; lia). rewrite X1. cbn [negb].
  assert (X2 : is_sorted (map (divider d) (seq 0 (d_bins d + 1))) = true) by (apply sorted_seq; intros i; rewrite !divider_edge by exact B; left; apply edge_mono; auto). rewrite X2. cbn [negb].
  assert (Eg : forall k, 0 <= edge d k < edge d (k + 1)) by (intros k; split; [rewrite edge_step, D0; pose proof (step_pos d H B); pose proof (pos_INR k); nra|apply edge_mono; auto; lia]).
  destruct b as [|a|h k0 l].
  - eexists. split; [reflexivity|]. split; [rewrite differences_length, !map_length, seq_length; lia|]. intros k Hk. exists (4 / 3 * PI * (edge d (k + 1) ^ 3 - edge d k ^ 3)). split; [constructor|]. split; [pose proof (cube_lt _ _ (Eg k)); apply Rmult_lt_0_compat; lra|].
    rewrite map_map, differences_nth by exact Hk. rewrite !divider_edge by exact B. unfold getNumberDensity. ring.
  - eexists. split; [reflexivity|]. split; [rewrite map_length, combine_length, Nat.add_1_r; cbn [seq map tl length]; rewrite !map_length, !seq_length; lia|]. intros k Hk. exists ((edge d (k + 1) - edge d k) * vnorm (box_face (sn_box sn) a)). split; [constructor|]. pose proof (norm_pos _ (face_nonzero _ a V)) as Fp. split; [pose proof (Eg k); apply Rmult_lt_0_compat; lra|].
    set (c := box_volume (sn_box sn) / box_height (sn_box sn) a). set (q := fun x : R * R => (snd x - fst x) * c * getNumberDensity sn).
    assert (E : map q (combine (map (divider d) (seq 0 (d_bins d + 1))) (tl (map (divider d) (seq 0 (d_bins d + 1))))) = map (fun x => x * c * getNumberDensity sn) (differences (map (divider d) (seq 0 (d_bins d + 1))))) by (unfold differences; rewrite map_map; reflexivity).
    fold q. rewrite E. rewrite (nth_mapped _ _ 0) by (rewrite differences_length, map_length, seq_length; lia). rewrite differences_nth by exact Hk. rewrite !divider_edge by exact B. unfold getNumberDensity, c.
    pose proof (height_area _ a V) as Ha. pose proof (height_pos _ a V) as Hp. rewrite <- Ha at 1. replace (box_height (sn_box sn) a * vnorm (box_face (sn_box sn) a) / box_height (sn_box sn) a) with (vnorm (box_face (sn_box sn) a)) by (field; lra). ring.
  - destruct (waved sn h k0 l Cb) as (w & -> & W). pose proof (norm_pos w (wave_nonzero _ _ _ _ _ Lb W)) as Wp. eexists. split; [reflexivity|]. split; [rewrite differences_length, !map_length, seq_length; lia|]. intros k Hk. exists (PI * (edge d (k + 1) ^ 2 - edge d k ^ 2) * (2 * PI / vnorm w)). split; [constructor; exact W|]. split.
    + pose proof (Eg k). apply Rmult_lt_0_compat; [apply Rmult_lt_0_compat; [lra|nra]|apply Rdiv_lt_0_compat; lra].
    + rewrite map_map, differences_nth by exact Hk. rewrite !divider_edge by exact B. unfold getNumberDensity. ring.
Qed.
