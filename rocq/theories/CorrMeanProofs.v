From Coq Require Import Reals ZArith List Bool Lia Lra Permutation.
From Verif Require Import GeomModel GeomProofs BoxModel BoxSpec BoxProofs RFloorModel RotModel PackSpec HistModel HistSpec HistProofs BondModel BondOrderProofs CorrModel CorrSpec CorrProofs CorrEnumProofs CorrHistProofs CorrWholeProofs.
Import ListNotations.
Local Open Scope R_scope.

(** Histories. *)
Section History.
  Context {Snap Item : Type}.
  Variables (g : list dim) (threads : nat) (F : Snap -> Item -> work) (its : Snap -> list Item).
  Definition arranged (h : Snap * schedule) : Prop := Forall (tidy g (F (fst h))) (its (fst h)) /\ scheduled threads (flat_map (F (fst h)) (its (fst h))) (snd h).
  Definition hits (k : nat) (h : Snap * schedule) : list Item := filter (is_hit g k (F (fst h))) (its (fst h)).
  Lemma history_legal history : proper g -> Forall arranged history -> Forall (Forall (legal g threads)) (map additions (map snd history)) /\ Forall (Forall (legal g threads)) (map nans (map snd history)).
  Proof.
    intros P A. split; apply Forall_forall; intros l I; rewrite map_map in I; apply in_map_iff in I; destruct I as (h & <- & I); rewrite Forall_forall in A; destruct (A h I) as [T S]; destruct (schedule_tally g threads _ _ _ P T S) as (L1 & L2 & _); assumption.
  Qed.
  Lemma history_tally history k : proper g -> (k < size g)%nat -> Forall arranged history ->
    tally g (reshapeIndex g k) (concat (map additions (map snd history))) (Rsum (fun h => Rsum (value_of (F (fst h))) (hits k h)) history) (list_sum (map (fun h => length (hits k h)) history)) /\
    tally g (reshapeIndex g k) (concat (map nans (map snd history))) (Rsum (fun h => Rsum (flag_of (F (fst h))) (hits k h)) history) (list_sum (map (fun h => length (hits k h)) history)).
  Proof.
    intros P Hk A. induction A as [|h history [T S] A [IH1 IH2]]; [split; constructor|]. destruct (schedule_tally g threads _ _ _ P T S) as (_ & _ & C). destruct (C k Hk) as [T1 T2]. cbn [map concat]. rewrite !Rsum_cons. change (list_sum (length (hits k h) :: map (fun h => length (hits k h)) history)) with (length (hits k h) + list_sum (map (fun h => length (hits k h)) history))%nat. split; apply tally_app; assumption.
  Qed.
  Lemma history_run history : proper g -> Forall arranged history -> exists h0 h m, build g threads 0 = Some h0 /\ run g 0 (map additions (map snd history)) h0 = Some h /\ run g 0 (map nans (map snd history)) h0 = Some m /\
    length (hb_total h) = size g /\ length (hb_total m) = size g /\ hb_snapshots h = length history /\
    forall k, (k < size g)%nat -> nth k (hb_total h) vc0 = (Rsum (fun h => Rsum (value_of (F (fst h))) (hits k h)) history, list_sum (map (fun h => length (hits k h)) history)) /\
      fst (nth k (hb_total m) vc0) = Rsum (fun h => Rsum (flag_of (F (fst h))) (hits k h)) history.
  Proof.
    intros P A. destruct (history_legal history P A) as [L1 L2]. destruct (filled g threads 0 _ P L1) as (h0 & h & E0 & E1 & Len & Sn & C). destruct (filled g threads 0 _ P L2) as (h0' & m & E0' & E2 & Len' & Sn' & C'). rewrite E0 in E0'. injection E0' as <-. exists h0, h, m. rewrite !map_length in *. repeat (split; [assumption|]). intros k Hk. destruct (history_tally history k P Hk A) as [T1 T2]. destruct (reshape_flat g k Hk) as [Ik Ek]. pose proof (C _ _ _ Ik T1) as X. pose proof (C' _ _ _ Ik T2) as Y. rewrite Ek in X, Y. rewrite X, Y. cbn [fst]. split; [f_equal; ring|ring].
  Qed.
End History.
(** Values of correlation functions. *)
Lemma calculated f ax sn x : calculate f ax sn x = pair_value f ax sn x.
Proof.
  destruct x as [[i j] v]. unfold calculate, pair_value, calculateForAxes. fold (axis_of ax sn i). fold (axis_of ax sn j). destruct f; try reflexivity.
  - f_equal. field.
  - unfold normalized, Reqb. destruct (Req_EM_T (vnorm v) 0) as [E|N]; [reflexivity|]. f_equal. rewrite vdot_scale_r. field. exact N.
  - f_equal. field. pose proof PI_RGT_0. lra.
Qed.
(** Averages. *)
Lemma averaged_tidy d f ax sn x : d_min d = 0 -> tidy [d] (averaged_pair (d_max d) f ax sn) x.
Proof.
  intros D0. unfold tidy, averaged_pair. destruct (Rltb (d_max d) (vnorm (snd x))) eqn:E; [left; reflexivity|]. apply Rltb_false in E. right. exists [vnorm (snd x)], (calculate f ax sn x). split; [reflexivity|]. constructor; [|constructor]. unfold in_range. pose proof (vnorm_ge (snd x)). lra.
Qed.
Lemma averaged_hits d f ax b point sn k : d_min d = 0 -> 0 < d_max d -> (k < d_bins d)%nat -> constructed (sn_box sn) -> legal_binning b ->
  let l := filter (is_hit [d] k (averaged_pair (d_max d) f ax sn)) (items b point sn) in NoDup l /\ (forall x, In x l <-> any_in_bin point b d k sn x) /\ (forall x, In x l -> averaged_pair (d_max d) f ax sn x = [([vnorm (snd x)], calculate f ax sn x)]).
Proof.
  intros D0 D1 Hk Cb Lb l. destruct (enumerated b point sn Cb Lb) as (its & E & N & M). assert (P : proper [d]) by (apply proper_one; [lra|lia]).
  assert (Hs : (k < size [d])%nat) by (rewrite size_one; exact Hk). assert (T : Forall (tidy [d] (averaged_pair (d_max d) f ax sn)) its) by (apply Forall_forall; intros x _; apply averaged_tidy; exact D0).
  assert (El : l = filter (is_hit [d] k (averaged_pair (d_max d) f ax sn)) its) by (unfold l, items; rewrite E; reflexivity). clearbody l. subst l.
  assert (HI := fun x => hits_in [d] k (averaged_pair (d_max d) f ax sn) its x P Hs T). rewrite reshape_one in HI by exact Hk.
  split; [apply NoDup_filter; exact N|]. split.
  - intros x. rewrite HI. destruct x as [[i j] v]. rewrite M. unfold any_in_bin, averaged_pair. cbn [snd]. split.
    + intros ((H & S) & p & w & F & L). destruct (Rltb (d_max d) (vnorm v)); [discriminate|]. injection F as <- <-. apply located_one in L. auto.
    + intros (H & S & L). split; [split; assumption|]. pose proof (bin_range d k _ ltac:(lra) L) as R. exists [vnorm v], (calculate f ax sn (i, j, v)). rewrite (proj2 (Rltb_false _ _)) by lra. split; [reflexivity|]. apply located_one. exact L.
  - intros x I. apply HI in I. destruct I as (_ & p & w & F & _). unfold averaged_pair in *. destruct (Rltb _ _); [discriminate|reflexivity].
Qed.
Lemma total_app l l' : total (l ++ l') = match total l, total l' with Some a, Some b => Some (a + b) | _, _ => None end.
Proof. induction l as [|x l IH]; [cbn [app]; change (total []) with (Some 0); destruct (total l'); [rewrite Rplus_0_l|]; reflexivity|]. cbn [app total fold_right]. fold (total (l ++ l')). fold (total l). rewrite IH. destruct x, (total l), (total l'); try reflexivity. rewrite Rplus_assoc. reflexivity. Qed.
Lemma total_sum {A} (v : A -> option R) l : (Rsum (fun x => match v x with Some _ => 0 | None => 1 end) l = 0 -> total (map v l) = Some (Rsum (fun x => match v x with Some y => y | None => 0 end) l)) /\
  (0 <= Rsum (fun x => match v x with Some _ => 0 | None => 1 end) l) /\ (0 < Rsum (fun x => match v x with Some _ => 0 | None => 1 end) l -> total (map v l) = None).
Proof.
  induction l as [|x l (IH1 & IH2 & IH3)]; [repeat split; cbn; try lra; reflexivity|]. cbn [map total fold_right]. fold (total (map v l)). rewrite !Rsum_cons. set (s := Rsum (fun x => match v x with Some _ => 0 | None => 1 end) l) in *. destruct (v x) as [y|].
  - split; [intros H; rewrite IH1 by lra; reflexivity|]. split; [lra|]. intros H. rewrite IH3 by lra. reflexivity.
  - split; [intros H; lra|]. split; [lra|]. intros _. reflexivity.
Qed.
Lemma mean_of l s t n : (s = 0 -> total l = Some t) -> 0 <= s -> (0 < s -> total l = None) -> n = length l -> mean l = if Rltb 0 s then None else if (n =? 0)%nat then None else Some (t / INR n).
Proof.
  intros A B C ->. unfold mean. destruct l as [|x l]; [cbn [length Nat.eqb]; destruct (Rltb 0 s); reflexivity|]. cbn [length Nat.eqb]. destruct (Rltb 0 s) eqn:E; [apply Rltb_true in E; rewrite (C E); reflexivity|apply Rltb_false in E]. rewrite A by lra. reflexivity.
Qed.
Theorem averaged_spec d f ax b point threads history : d_min d = 0 -> 0 < d_max d -> (1 <= d_bins d)%nat -> legal_binning b -> Forall (averaged_scheduled d f ax b point threads) history -> history <> [] ->
  exists h0 h m, build [d] threads 0 = Some h0 /\ averaged_run d (map snd history) h0 h0 = Some (h, m) /\ length (averaged_dump h m) = d_bins d /\
    forall k, (k < d_bins d)%nat -> exists parts, Forall2 (in_bin_list point b d k) history parts /\
      nth k (averaged_dump h m) (None, 0%nat) = (mean (all_values f ax history parts), length (all_values f ax history parts)).
Proof.
  intros D0 D1 B Lb A Ne. assert (P : proper [d]) by (apply proper_one; [lra|lia]). set (F := fun sn => averaged_pair (d_max d) f ax sn). set (its := items b point).
  assert (Ar : Forall (arranged [d] threads F its) history).
  { rewrite Forall_forall in *. intros h I. destruct (A h I) as (Cb & w & W & Sc). unfold averaged_work in W. unfold arranged, its, items. destruct (enumeratePairs b point (fst h)) as [l|]; [|discriminate]. injection W as <-. split; [|exact Sc]. apply Forall_forall. intros x _. apply averaged_tidy. exact D0. }
  destruct (history_run [d] threads F its history P Ar) as (h0 & h & m & E0 & E1 & E2 & L1 & L2 & Sn & C). exists h0, h, m. split; [exact E0|]. unfold averaged_run. rewrite E1, E2. split; [reflexivity|]. rewrite size_one in *.
  assert (Ld : length (dumpHistogram 0 AVERAGE h) = d_bins d) by (unfold dumpHistogram; destruct (hb_snapshots h =? 0)%nat; rewrite map_length; exact L1).
  split; [unfold averaged_dump; rewrite map_length, combine_length, Ld; etransitivity; [apply f_equal; exact L2|apply Nat.min_id]|].
  intros k Hk. exists (map (hits [d] F its k) history). split.
  { clear - A D0 D1 Hk Lb. induction A as [|h history (Cb & _) A IH]; [constructor|]. cbn [map]. constructor; [|exact IH]. destruct (averaged_hits d f ax b point (fst h) k D0 D1 Hk Cb Lb) as (N & M & _). split; assumption. }
  destruct (C k Hk) as [X Y]. clear C.
  assert (V : forall h, In h history -> forall x, In x (hits [d] F its k h) -> averaged_pair (d_max d) f ax (fst h) x = [([vnorm (snd x)], pair_value f ax (fst h) x)]).
  { intros q I x Ix. rewrite Forall_forall in A. destruct (A q I) as (Cb & _). destruct (averaged_hits d f ax b point (fst q) k D0 D1 Hk Cb Lb) as (_ & _ & K). rewrite (K x Ix), calculated. reflexivity. }
  set (vs := all_values f ax history (map (hits [d] F its k) history)).
  assert (G : length vs = list_sum (map (fun h => length (hits [d] F its k h)) history) /\ let s := Rsum (fun h => Rsum (flag_of (F (fst h))) (hits [d] F its k h)) history in let t := Rsum (fun h => Rsum (value_of (F (fst h))) (hits [d] F its k h)) history in (s = 0 -> total vs = Some t) /\ 0 <= s /\ (0 < s -> total vs = None)).
  { unfold vs, all_values. clear - V. induction history as [|q history IH]; [split; [reflexivity|]; cbn; repeat split; try lra; reflexivity|]. cbv zeta in *. cbn [map combine concat fst snd]. rewrite app_length, map_length, total_app, !Rsum_cons. destruct IH as (IH0 & IH1 & IH2 & IH3); [intros h I; apply V; right; exact I|]. specialize (V q (or_introl eq_refl)).
    assert (V1 : Rsum (flag_of (F (fst q))) (hits [d] F its k q) = Rsum (fun x => match pair_value f ax (fst q) x with Some _ => 0 | None => 1 end) (hits [d] F its k q)) by (apply sum_cong; intros x I; unfold flag_of, F; rewrite (V x I); destruct (pair_value f ax (fst q) x); reflexivity).
    assert (V2 : Rsum (value_of (F (fst q))) (hits [d] F its k q) = Rsum (fun x => match pair_value f ax (fst q) x with Some y => y | None => 0 end) (hits [d] F its k q)) by (apply sum_cong; intros x I; unfold value_of, F; rewrite (V x I); destruct (pair_value f ax (fst q) x); reflexivity).
    rewrite V1, V2. destruct (total_sum (pair_value f ax (fst q)) (hits [d] F its k q)) as (T1 & T2 & T3). split; [rewrite IH0; reflexivity|]. split; [|split].
    - intros H. rewrite T1, IH1 by lra. reflexivity.
    - lra.
    - intros H. destruct (Rle_lt_dec (Rsum (fun x => match pair_value f ax (fst q) x with Some _ => 0 | None => 1 end) (hits [d] F its k q)) 0) as [Z|Z]; [|rewrite T3 by exact Z; reflexivity]. rewrite IH3 by lra. destruct (total (map (pair_value f ax (fst q)) (hits [d] F its k q))); reflexivity. }
  cbv zeta in G. destruct G as (G0 & G1 & G2 & G3). rewrite (mean_of vs _ _ _ G1 G2 G3 eq_refl). unfold averaged_dump. rewrite (nth_mapped _ _ ((None, 0%nat), vc0)) by (rewrite combine_length, Ld; unfold ValueCount in *; lia). rewrite combine_nth by (rewrite Ld; symmetry; exact L2). cbn [fst snd]. rewrite dumped by (rewrite L1; exact Hk). assert (Z : (hb_snapshots h =? 0)%nat = false) by (apply Nat.eqb_neq; rewrite Sn; destruct history; [contradiction|cbn; lia]). rewrite Z, X, Y, G0. cbn [fst snd]. reflexivity.
Qed.
