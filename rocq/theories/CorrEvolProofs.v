From Coq Require Import Reals ZArith List Bool Lia Lra Permutation.
From Verif Require Import GeomModel GeomProofs BoxModel BoxSpec BoxProofs RFloorModel RotModel PackSpec HistModel HistSpec HistProofs BondModel BondOrderProofs CorrModel CorrSpec CorrProofs CorrEnumProofs CorrHistProofs CorrWholeProofs CorrMeanProofs.
Import ListNotations.
Local Open Scope R_scope.

Definition ev_pair (g : list dim) (f : correlation) (ax : vec) (sn : snapshot) (x : item) : work := match evolution_pair g f ax sn x with Some w => w | None => [] end.
Lemma evolution_flat g f ax sn l : forall w, evolution_pairs g f ax sn l = Some w -> w = flat_map (ev_pair g f ax sn) l /\ Forall (fun x => evolution_pair g f ax sn x <> None) l.
Proof.
  induction l as [|x l IH]; intros w E; cbn [evolution_pairs] in E; [injection E as <-; split; [reflexivity|constructor]|]. cbn [flat_map]. unfold ev_pair at 1. destruct (evolution_pair g f ax sn x) as [u|] eqn:Q; [|discriminate]. destruct (evolution_pairs g f ax sn l) as [u'|]; [|discriminate]. injection E as <-. destruct (IH u' eq_refl) as [-> F]. split; [reflexivity|]. constructor; [congruence|exact F].
Qed.
Section Two.
  Variables (d1 d2 : dim) (f : correlation) (ax : vec) (b : binning) (point : vec).
  Hypothesis D0 : d_min d1 = 0.
  Hypothesis D1 : 0 < d_max d1.
  Hypothesis B1 : (1 <= d_bins d1)%nat.
  Hypothesis D2 : d_min d2 < d_max d2.
  Hypothesis B2 : (1 <= d_bins d2)%nat.
  Hypothesis Lb : legal_binning b.
  Let g := [d1; d2].
  Lemma two_proper : proper g. Proof. constructor; [split; [lra|lia]|]. constructor; [split; [lra|lia]|constructor]. Qed.
  Lemma two_located i j p q : located g [i; j] [p; q] <-> in_bin d1 i p /\ in_bin d2 j q.
  Proof. unfold located, g. cbn [combine]. split; [intros [F _]; inversion F as [|? ? ? ? A F']; subst; inversion F' as [|? ? ? ? A' F'']; subst; split; assumption|intros [A A']; split; [|reflexivity]; constructor; [exact A|constructor; [exact A'|constructor]]]. Qed.
  Lemma two_index i j : (i < d_bins d1)%nat -> (j < d_bins d2)%nat -> index_of g [i; j]. Proof. intros A B. constructor; [exact A|constructor; [exact B|constructor]]. Qed.
  Lemma two_flat i j : flattenIndex g [i; j] = (d_bins d2 * i + j)%nat. Proof. unfold flattenIndex, g. cbn. lia. Qed.
  Lemma two_size : size g = (d_bins d1 * d_bins d2)%nat. Proof. unfold size, g. cbn. lia. Qed.
  Lemma ev_tidy sn x : tidy g (ev_pair g f ax sn) x.
  Proof.
    unfold tidy, ev_pair, evolution_pair, g. destruct (_ =? _)%nat; [left; reflexivity|]. destruct (Rltb (d_max d1) (vnorm (snd x))) eqn:E1; [left; reflexivity|]. destruct (calculate f ax sn x) as [v|]; [|left; reflexivity]. destruct (Rltb v (d_min d2)) eqn:E2; [left; reflexivity|]. destruct (Rltb (d_max d2) v) eqn:E3; [left; reflexivity|]. cbn [orb]. apply Rltb_false in E1, E2, E3. right. eexists _, _. split; [reflexivity|]. pose proof (vnorm_ge (snd x)). constructor; [unfold in_range; lra|]. constructor; [unfold in_range; lra|constructor].
  Qed.
  Lemma ev_hits sn i j : (i < d_bins d1)%nat -> (j < d_bins d2)%nat -> constructed (sn_box sn) ->
    let l := filter (is_hit g (flattenIndex g [i; j]) (ev_pair g f ax sn)) (items b point sn) in NoDup l /\ (forall x, In x l <-> valued_in_bin point b f ax d1 d2 i j sn x) /\ Rsum (value_of (ev_pair g f ax sn)) l = INR (length l).
  Proof.
    intros Hi Hj Cb l. destruct (enumerated b point sn Cb Lb) as (its & E & N & M). pose proof two_proper as P. pose proof (flat_range g _ (two_index i j Hi Hj)) as Hs.
    assert (T : Forall (tidy g (ev_pair g f ax sn)) its) by (apply Forall_forall; intros x _; apply ev_tidy).
    assert (El : l = filter (is_hit g (flattenIndex g [i; j]) (ev_pair g f ax sn)) its) by (unfold l, items; rewrite E; reflexivity). clearbody l. subst l.
    assert (HI := fun x => hits_in g _ (ev_pair g f ax sn) its x P Hs T). rewrite flat_reshape in HI by (apply two_index; assumption).
    split; [apply NoDup_filter; exact N|]. split.
    - intros x. rewrite HI. destruct x as [[i0 j0] v]. rewrite M. unfold valued_in_bin, distinct_in_bin, ev_pair, evolution_pair. unfold g at 1. cbn [fst snd]. rewrite calculated. split.
      + intros ((H & S) & p & w & F & L). destruct (i0 =? j0)%nat eqn:Q; [discriminate|]. apply Nat.eqb_neq in Q. destruct (Rltb (d_max d1) (vnorm v)); [discriminate|]. destruct (pair_value f ax sn (i0, j0, v)) as [y|]; [|discriminate]. destruct (_ || _); [discriminate|]. injection F as <- <-. apply two_located in L. destruct L as [L1 L2]. split; [split; [lia|]; split; assumption|]. exists y. split; [reflexivity|exact L2].
      + intros ((H & S & L1) & y & Py & L2). split; [split; [lia|exact S]|]. pose proof (bin_range d1 i _ ltac:(lra) L1) as R1. pose proof (bin_range d2 j _ D2 L2) as R2. exists [vnorm v; y], (Some 1). assert (Q : (i0 =? j0)%nat = false) by (apply Nat.eqb_neq; lia). rewrite Q, Py. rewrite !(proj2 (Rltb_false _ _)) by lra. split; [reflexivity|]. apply two_located. split; assumption.
    - transitivity (Rsum (fun _ : item => 1) (filter (is_hit g (flattenIndex g [i; j]) (ev_pair g f ax sn)) its)); [|rewrite Rsum_const; ring]. apply sum_cong. intros x I. apply HI in I. destruct I as (_ & p & w & F & _). unfold value_of. rewrite F. unfold ev_pair, evolution_pair, g in F. destruct (_ =? _)%nat; [discriminate|]. destruct (Rltb _ _); [discriminate|]. destruct (calculate f ax sn x); [|discriminate]. destruct (_ || _); [discriminate|]. injection F as _ <-. reflexivity.
  Qed.
  (** Normalization. *)
  Definition entry (h : list R) (i j : nat) : R := nth (d_bins d2 * i + j) h 0.
  Lemma update_nth k (F : R -> R) h q : (q < length h)%nat -> nth q (update k F h) 0 = if (q =? k)%nat then F (nth q h 0) else nth q h 0.
  Proof. revert k q. induction h as [|x h IH]; intros [|k] [|q] L; cbn [length] in L; try lia; cbn [update nth Nat.eqb]; try reflexivity. apply IH. lia. Qed.
  Lemma flat_lt i j : (i < d_bins d1)%nat -> (j < d_bins d2)%nat -> (d_bins d2 * i + j < d_bins d1 * d_bins d2)%nat. Proof. nia. Qed.
  Lemma flat_inj i j i' j' : (j < d_bins d2)%nat -> (j' < d_bins d2)%nat -> (d_bins d2 * i + j = d_bins d2 * i' + j')%nat -> i = i' /\ j = j'.
  Proof. intros A B E. assert (i = i') by nia. subst. split; [reflexivity|lia]. Qed.
  Lemma inner_loop i t js : NoDup js -> Forall (fun j => (j < d_bins d2)%nat) js -> forall h, length h = (d_bins d1 * d_bins d2)%nat ->
    let h' := fold_left (fun h j => update (flattenIndex g [i; j]) (fun v => v / t) h) js h in
    length h' = length h /\ forall i' j', (i' < d_bins d1)%nat -> (j' < d_bins d2)%nat -> entry h' i' j' = if (i' =? i)%nat && existsb (Nat.eqb j') js then entry h i' j' / t else entry h i' j'.
  Proof.
    intros N F. induction N as [|j js Hj N IH]; intros h L; cbn [fold_left]; [split; [reflexivity|]; intros; cbn [existsb]; rewrite andb_false_r; reflexivity|]. inversion F as [|? ? Fj F']; subst. specialize (IH F'). destruct (IH (update (flattenIndex g [i; j]) (fun v => v / t) h)) as [L' C']; [rewrite update_length; exact L|]. split; [rewrite L', update_length; reflexivity|]. intros i' j' Hi' Hj'. rewrite C' by assumption. unfold entry in *. rewrite !update_nth by (rewrite L; apply flat_lt; assumption). rewrite two_flat. cbn [existsb].
    destruct (Nat.eqb_spec (d_bins d2 * i' + j') (d_bins d2 * i + j)) as [E|E].
    - apply flat_inj in E; [|assumption|assumption]. destruct E as [-> ->]. rewrite !Nat.eqb_refl. cbn [andb orb]. assert (X : existsb (Nat.eqb j) js = false) by (destruct (existsb _ js) eqn:Q; [|reflexivity]; apply existsb_exists in Q; destruct Q as (y & I & Q); apply Nat.eqb_eq in Q; subst; contradiction). rewrite X. reflexivity.
    - destruct (Nat.eqb_spec i' i) as [->|]; [|reflexivity]. destruct (Nat.eqb_spec j' j) as [->|]; [exfalso; apply E; reflexivity|]. reflexivity.
  Qed.
  Lemma row_total h i : fold_left (fun t j => t + nth (flattenIndex g [i; j]) h 0) (seq 0 (d_bins d2)) 0 = Rsum (entry h i) (seq 0 (d_bins d2)).
  Proof.
    assert (E : forall l t, fold_left (fun t j => t + nth (flattenIndex g [i; j]) h 0) l t = t + Rsum (entry h i) l) by (induction l as [|j l IH]; intros t; cbn [fold_left]; [unfold Rsum; cbn; ring|]; rewrite IH, Rsum_cons, two_flat; unfold entry; ring). rewrite E. ring.
  Qed.
  Definition row_step (h : list R) (i : nat) : list R :=
    let t := fold_left (fun t j => t + nth (flattenIndex g [i; j]) h 0) (seq 0 (d_bins d2)) 0 in if Reqb t 0 then h else fold_left (fun h j => update (flattenIndex g [i; j]) (fun v => v / t) h) (seq 0 (d_bins d2)) h.
  Definition share (h : list R) (i j : nat) : R := if Reqb (Rsum (entry h i) (seq 0 (d_bins d2))) 0 then entry h i j else entry h i j / Rsum (entry h i) (seq 0 (d_bins d2)).
  Lemma outer_loop m h : length h = (d_bins d1 * d_bins d2)%nat -> (m <= d_bins d1)%nat ->
    let h' := fold_left row_step (seq 0 m) h in length h' = length h /\ forall i j, (i < d_bins d1)%nat -> (j < d_bins d2)%nat -> entry h' i j = if (i <? m)%nat then share h i j else entry h i j.
  Proof.
    intros L. induction m as [|m IH]; intros Hm; [split; [reflexivity|]; intros; reflexivity|]. cbv zeta in *. rewrite seq_S, fold_left_app. cbn [fold_left plus]. destruct IH as [L' C']; [lia|]. set (h' := fold_left row_step (seq 0 m) h) in *.
    assert (T : Rsum (entry h' m) (seq 0 (d_bins d2)) = Rsum (entry h m) (seq 0 (d_bins d2))) by (apply sum_cong; intros j I; apply in_seq in I; rewrite C' by lia; rewrite (proj2 (Nat.ltb_ge m m)) by lia; reflexivity).
    unfold row_step. cbv zeta. rewrite row_total, T. destruct (Reqb (Rsum (entry h m) (seq 0 (d_bins d2))) 0) eqn:Z.
    - split; [exact L'|]. intros i j Hi Hj. rewrite C' by assumption. destruct (Nat.ltb_spec i m), (Nat.ltb_spec i (S m)); try lia; try reflexivity. assert (i = m) by lia. subst i. unfold share. rewrite Z. reflexivity.
    - destruct (inner_loop m (Rsum (entry h m) (seq 0 (d_bins d2))) (seq 0 (d_bins d2)) (seq_NoDup _ _)) with (h := h') as [L2 C2]; [apply Forall_forall; intros j I; apply in_seq in I; lia|rewrite L'; exact L|]. split; [rewrite L2; exact L'|]. intros i j Hi Hj. rewrite C2 by assumption. rewrite C' by assumption.
      assert (X : existsb (Nat.eqb j) (seq 0 (d_bins d2)) = true) by (apply existsb_exists; exists j; split; [apply in_seq; lia|apply Nat.eqb_refl]). rewrite X, andb_true_r. destruct (Nat.eqb_spec i m) as [->|Q].
      + rewrite (proj2 (Nat.ltb_ge m m)) by lia. rewrite (proj2 (Nat.ltb_lt m (S m))) by lia. unfold share. rewrite Z. reflexivity.
      + destruct (Nat.ltb_spec i m), (Nat.ltb_spec i (S m)); try lia; reflexivity.
  Qed.
  Lemma entry_map F h i j : length h = (d_bins d1 * d_bins d2)%nat -> (i < d_bins d1)%nat -> (j < d_bins d2)%nat -> entry (map F h) i j = F (entry h i j).
  Proof. intros L A B. unfold entry. rewrite (nth_mapped _ _ 0) by (rewrite L; apply flat_lt; assumption). reflexivity. Qed.
  Lemma renormalize_spec n h i j : length h = (d_bins d1 * d_bins d2)%nat -> (i < d_bins d1)%nat -> (j < d_bins d2)%nat ->
    length (renormalizeHistogram g n h) = length h /\ entry (renormalizeHistogram g n h) i j = match n with AVG_COUNT => entry h i j | PDF => share h i j * INR (d_bins d2) / (d_max d2 - d_min d2) | UNIT => share h i j * INR (d_bins d2) end.
  Proof.
    intros L Hi Hj. destruct (outer_loop (d_bins d1) h L (le_n _)) as [L' C']. specialize (C' i j Hi Hj). rewrite (proj2 (Nat.ltb_lt i (d_bins d1))) in C' by exact Hi. unfold renormalizeHistogram, g. fold g. cbv zeta. change (fold_left _ (seq 0 (d_bins d1)) h) with (fold_left row_step (seq 0 (d_bins d1)) h). destruct n; [split; reflexivity| |]; rewrite ?map_length; (split; [exact L'|]); rewrite !entry_map by (rewrite ?map_length, ?L'; assumption); rewrite C'; reflexivity.
  Qed.
  Theorem evolution_counts threads history : Forall (evolution_scheduled d1 d2 f ax b point threads) history -> history <> [] ->
    exists h0 h c, build g threads 0 = Some h0 /\ run g 0 (map additions (map snd history)) h0 = Some h /\
      (forall i j, (i < d_bins d1)%nat -> (j < d_bins d2)%nat -> (exists parts, Forall2 (fun q n => counts (valued_in_bin point b f ax d1 d2 i j (fst q)) n) history parts /\ c i j = list_sum parts) /\
        snd (nth (flattenIndex g [i; j]) (dumpHistogram 0 SUM h) (None, 0%nat)) = c i j) /\
      forall n, length (evolution_dump g n h) = (d_bins d1 * d_bins d2)%nat /\ forall i j, (i < d_bins d1)%nat -> (j < d_bins d2)%nat -> nth (flattenIndex g [i; j]) (evolution_dump g n h) 0 =
        let row := Rsum (fun j => INR (c i j)) (seq 0 (d_bins d2)) in
        match n with
        | AVG_COUNT => INR (c i j) / INR (length history)
        | PDF => if Req_EM_T row 0 then 0 else INR (c i j) / row / ((d_max d2 - d_min d2) / INR (d_bins d2))
        | UNIT => if Req_EM_T row 0 then 0 else INR (c i j) / row * INR (d_bins d2)
        end.
  Proof.
    intros A Ne. pose proof two_proper as P. set (F := ev_pair g f ax). set (its := items b point).
    assert (Ar : Forall (arranged g threads F its) history).
    { rewrite Forall_forall in *. intros h I. destruct (A h I) as (Cb & w & W & Sc). unfold evolution_work in W. unfold arranged, its, items. destruct (enumeratePairs b point (fst h)) as [l|]; [|discriminate]. destruct (evolution_flat _ _ _ _ _ _ W) as [-> _]. split; [|exact Sc]. apply Forall_forall. intros x _. apply ev_tidy. }
    destruct (history_run g threads F its history P Ar) as (h0 & h & m & E0 & E1 & _ & L1 & _ & Sn & C). set (c := fun i j => list_sum (map (fun h => length (hits g F its (flattenIndex g [i; j]) h)) history)). exists h0, h, c. split; [exact E0|]. split; [exact E1|]. rewrite two_size in *.
    assert (Z : (hb_snapshots h =? 0)%nat = false) by (apply Nat.eqb_neq; rewrite Sn; destruct history; [contradiction|cbn; lia]). assert (S0 : 0 < INR (length history)) by (apply lt_0_INR; destruct history; [contradiction|cbn; lia]).
    assert (T : forall i j, (i < d_bins d1)%nat -> (j < d_bins d2)%nat -> nth (flattenIndex g [i; j]) (dumpHistogram 0 SUM h) (None, 0%nat) = (Some (INR (c i j) / INR (length history)), c i j)).
    { intros i j Hi Hj. pose proof (flat_range g _ (two_index i j Hi Hj)) as Hs. rewrite two_size in Hs. rewrite dumped by (rewrite L1; exact Hs). rewrite Z, Sn. destruct (C _ Hs) as [X _]. rewrite X. cbn [fst snd]. f_equal. f_equal. f_equal. unfold c. clear - A Hi Hj D0 D1 B1 D2 B2 Lb. induction A as [|q history (Cb & _) A IH]; [reflexivity|]. rewrite Rsum_cons, IH. cbn [map list_sum fold_right]. unfold list_sum. cbn [fold_right]. rewrite plus_INR. f_equal. destruct (ev_hits (fst q) i j Hi Hj Cb) as (_ & _ & K). exact K. }
    split.
    - intros i j Hi Hj. split; [|rewrite T by assumption; reflexivity]. exists (map (fun h => length (hits g F its (flattenIndex g [i; j]) h)) history). split; [|reflexivity]. clear - A Hi Hj D0 D1 B1 D2 B2 Lb. induction A as [|q history (Cb & _) A IH]; [constructor|]. cbn [map]. constructor; [|exact IH]. destruct (ev_hits (fst q) i j Hi Hj Cb) as (N & M & _). eexists. split; [exact N|]. split; [exact M|reflexivity].
    - intros n. set (v := map (fun x : option R * nat => match fst x with Some v => v | None => 0 end) (dumpHistogram 0 SUM h)). assert (Lv : length v = (d_bins d1 * d_bins d2)%nat) by (unfold v, dumpHistogram; rewrite Z, !map_length; exact L1).
      assert (Ev : forall i j, (i < d_bins d1)%nat -> (j < d_bins d2)%nat -> entry v i j = INR (c i j) / INR (length history)) by (intros i j Hi Hj; unfold entry, v; rewrite (nth_mapped _ _ (None, 0%nat)) by (unfold v in Lv; rewrite map_length in Lv; rewrite Lv; apply flat_lt; assumption); rewrite <- two_flat, T by assumption; reflexivity).
      unfold evolution_dump. fold v. split; [destruct (renormalize_spec n v 0 0 Lv) as [X _]; [lia|lia|]; rewrite X; exact Lv|]. intros i j Hi Hj. rewrite two_flat. fold (entry (renormalizeHistogram g n v) i j). destruct (renormalize_spec n v i j Lv Hi Hj) as [_ ->].
      assert (Tr : Rsum (entry v i) (seq 0 (d_bins d2)) = Rsum (fun j => INR (c i j)) (seq 0 (d_bins d2)) / INR (length history)) by (unfold Rdiv; rewrite <- Rsum_scaled; apply sum_cong; intros y I; apply in_seq in I; rewrite Ev by lia; reflexivity). cbv zeta. set (row := Rsum (fun j => INR (c i j)) (seq 0 (d_bins d2))) in *. pose proof (bins_pos d2 B2).
      assert (Sh : share v i j = if Req_EM_T row 0 then 0 else INR (c i j) / row).
      { unfold share. rewrite Tr, Ev by assumption. unfold Reqb. destruct (Req_EM_T row 0) as [R0|R0].
        - destruct (Req_EM_T (row / INR (length history)) 0) as [_|N]; [|exfalso; apply N; rewrite R0; field; lra]. assert (K : INR (c i j) = 0); [|rewrite K; field; lra]. assert (K : INR (c i j) <= row); [|pose proof (pos_INR (c i j)); lra]. unfold row. clear - Hj. assert (I : In j (seq 0 (d_bins d2))) by (apply in_seq; lia). revert I. generalize (seq 0 (d_bins d2)). induction l as [|y l IH]; intros I; [destruct I|]. rewrite Rsum_cons. assert (0 <= Rsum (fun j => INR (c i j)) l) by (apply Rsum_nonneg; intros; apply pos_INR). destruct I as [->|I]; [lra|]. specialize (IH I). pose proof (pos_INR (c i y)). lra.
        - destruct (Req_EM_T (row / INR (length history)) 0) as [E|_]; [exfalso; apply R0; apply (Rmult_eq_reg_r (/ INR (length history))); [unfold Rdiv in E; rewrite E; ring|apply Rinv_neq_0_compat; lra]|]. field. lra. }
      destruct n; [apply Ev; assumption| |]; rewrite Sh; destruct (Req_EM_T row 0) as [R0|R0]; field; repeat split; lra.
  Qed.
End Two.
(** Consequences. *)
Lemma Rsum_zero {A} (l : list A) : Rsum (fun _ => 0) l = 0. Proof. rewrite Rsum_const. ring. Qed.
Lemma evolution_normalized (d2 : dim) (c : nat -> nat) : d_min d2 < d_max d2 -> (1 <= d_bins d2)%nat -> let row := Rsum (fun j => INR (c j)) (seq 0 (d_bins d2)) in row <> 0 ->
  Rsum (fun j => INR (c j) / row / ((d_max d2 - d_min d2) / INR (d_bins d2)) * step d2) (seq 0 (d_bins d2)) = 1 /\ Rsum (fun j => INR (c j) / row * INR (d_bins d2)) (seq 0 (d_bins d2)) / INR (d_bins d2) = 1.
Proof.
  intros D B row N. pose proof (bins_pos d2 B). split.
  - transitivity (Rsum (fun j => INR (c j) * / row) (seq 0 (d_bins d2))); [apply sum_cong; intros; unfold step; field; repeat split; lra|]. rewrite Rsum_scaled. fold row. field. exact N.
  - transitivity (Rsum (fun j => INR (c j) * (INR (d_bins d2) / row)) (seq 0 (d_bins d2)) / INR (d_bins d2)); [f_equal; apply sum_cong; intros; field; exact N|]. rewrite Rsum_scaled. fold row. field. split; lra.
Qed.
