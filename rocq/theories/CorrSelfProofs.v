From Coq Require Import Reals ZArith List Bool Lia Lra Permutation.
From Verif Require Import GeomModel GeomProofs BoxModel BoxSpec BoxProofs RFloorModel RFloorProofs PbcTotalModel PbcProofs RotModel PackSpec PackSumProofs HistModel HistSpec HistProofs BondModel BondOrderProofs CorrModel CorrSpec CorrProofs CorrEnumProofs CorrHistProofs CorrWholeProofs CorrMeanProofs CorrFindProofs.
Import ListNotations.
Local Open Scope R_scope.

(** A particle and itself. *)
Lemma self_joining point sn i : (forall p, sn_translation sn p p = vzero) -> joining point sn i i = vzero.
Proof. intros T. unfold joining. rewrite T. destruct (focal point sn i) as [a b c]. unfold vsub, vadd, vzero. cbn [vx vy vz]. f_equal; ring. Qed.
Lemma vdot_zero_r v : vdot v vzero = 0. Proof. unfold vdot, vzero. cbn [vx vy vz]. ring. Qed.
Lemma vcross_zero_r v : vcross v vzero = vzero. Proof. unfold vcross, vzero. cbn [vx vy vz]. f_equal; ring. Qed.
Lemma vsub_zero_r v : vsub v vzero = v. Proof. destruct v as [a b c]. unfold vsub, vzero. cbn [vx vy vz]. f_equal; ring. Qed.
Lemma vadd_zero_r v : vadd v vzero = v. Proof. destruct v as [a b c]. unfold vadd, vzero. cbn [vx vy vz]. f_equal; ring. Qed.
Lemma self_separated point sn b i : constructed (sn_box sn) -> (forall p, sn_translation sn p p = vzero) -> separated point sn i i b vzero.
Proof.
  intros C T. pose proof (self_joining point sn i T) as J. destruct b as [|a|h k l].
  - rewrite <- J. constructor.
  - constructor; [apply vcross_zero_r|]. rewrite J, vsub_zero_r. apply vdot_zero_r.
  - destruct (waved sn h k l C) as (w & _ & W). eapply Sep_layer; [exact W|apply phased| |apply vdot_zero_r|].
    + rewrite J, vadd_zero_r. reflexivity.
    + rewrite J, vsub_zero_r. apply vcross_zero_r.
Qed.
Lemma edge_zero d : edge d 0 = d_min d. Proof. rewrite edge_step. simpl. ring. Qed.
Lemma zero_norm : vnorm vzero = 0. Proof. unfold vnorm, vnorm2. rewrite vdot_zero_r. apply sqrt_0. Qed.
Lemma zero_bin d k : d_min d = 0 -> 0 < d_max d -> (1 <= d_bins d)%nat -> (in_bin d k 0 <-> k = 0%nat).
Proof.
  intros D0 D1 B. split.
  - intros (K & L & _). destruct k as [|k]; [reflexivity|]. pose proof (edge_mono d 0 (S k) ltac:(lra) B ltac:(lia)) as M. rewrite edge_zero in M. lra.
  - intros ->. split; [lia|]. pose proof (edge_mono d 0 1 ltac:(lra) B ltac:(lia)) as M. rewrite edge_zero in *. cbn [plus]. split; [lra|left; lra].
Qed.
Lemma pairs_split d b point sn k i j v : d_min d = 0 -> 0 < d_max d -> (1 <= d_bins d)%nat -> legal_binning b -> constructed (sn_box sn) -> (forall p, sn_translation sn p p = vzero) ->
  (any_in_bin point b d k sn (i, j, v) <-> distinct_in_bin point b d k sn (i, j, v) \/ (i < length (sn_shapes sn))%nat /\ j = i /\ v = vzero /\ k = 0%nat).
Proof.
  intros D0 D1 B Lb C T. cbn [any_in_bin distinct_in_bin]. split.
  - intros (I & Sv & Bi). destruct (Nat.eq_dec j i) as [->|Ne]; [|left; split; [lia|split; assumption]]. right. assert (v = vzero) as -> by (eapply separated_unique; [exact C|exact Lb|exact Sv|apply self_separated; assumption]). rewrite zero_norm in Bi. apply zero_bin in Bi; try assumption. split; [lia|]. split; [reflexivity|]. split; [reflexivity|exact Bi].
  - intros [(I & Sv & Bi)|(I & -> & -> & ->)]; [split; [lia|split; assumption]|]. split; [lia|]. split; [apply self_separated; assumption|]. rewrite zero_norm. apply zero_bin; auto.
Qed.
(** Means do not depend on the order. *)
Lemma total_cons x l : total (x :: l) = match x, total l with Some v, Some t => Some (v + t) | _, _ => None end. Proof. reflexivity. Qed.
Lemma total_perm l l' : Permutation l l' -> total l = total l'.
Proof.
  induction 1 as [|x l l' P IH|x y l|l l' l'' P IH P' IH']; [reflexivity| | |congruence].
  - rewrite !total_cons, IH. reflexivity.
  - rewrite !total_cons. destruct x, y, (total l); try reflexivity. f_equal. ring.
Qed.
Lemma mean_perm l l' : Permutation l l' -> mean l = mean l'.
Proof.
  intros P. destruct l as [|x l]; [apply Permutation_nil in P; subst; reflexivity|]. destruct l' as [|y l']; [symmetry in P; apply Permutation_nil in P; discriminate|]. unfold mean. rewrite (total_perm _ _ P), (Permutation_length P). reflexivity.
Qed.
Lemma selves_nodup n : NoDup (selves n). Proof. apply FinFun.Injective_map_NoDup; [intros a b E; injection E; auto|apply seq_NoDup]. Qed.
Lemma selves_in n i j v : In (i, j, v) (selves n) <-> (i < n)%nat /\ j = i /\ v = vzero.
Proof.
  unfold selves. rewrite in_map_iff. split.
  - intros (x & E & I). injection E as <- <- <-. apply in_seq in I. split; [lia|split; reflexivity].
  - intros (L & -> & ->). exists i. split; [reflexivity|apply in_seq; lia].
Qed.
Lemma nodup_append {A} (l l' : list A) : NoDup l -> NoDup l' -> (forall x, In x l -> ~ In x l') -> NoDup (l ++ l').
Proof.
  induction l as [|a l IH]; intros N N' D; [exact N'|]. inversion N; subst. cbn. constructor; [rewrite in_app_iff; intros [I|I]; [contradiction|exact (D a (or_introl eq_refl) I)]|]. apply IH; auto. intros x I. apply D. right. exact I.
Qed.
Definition is_distinct (x : nat * nat * vec) : bool := negb (fst (fst x) =? snd (fst x))%nat.
Theorem self_counted d f ax b point threads sn s h0 h m : d_min d = 0 -> 0 < d_max d -> (1 <= d_bins d)%nat -> legal_binning b -> averaged_scheduled d f ax b point threads (sn, s) -> (forall p, sn_translation sn p p = vzero) ->
  build [d] threads 0 = Some h0 -> averaged_run d [s] h0 h0 = Some (h, m) ->
  exists l, NoDup l /\ (forall x, In x l <-> distinct_in_bin point b d 0 sn x) /\
    nth 0 (averaged_dump h m) (None, 0%nat) = (mean (map (pair_value f ax sn) (selves (length (sn_shapes sn)) ++ l)), (length (sn_shapes sn) + length l)%nat).
Proof.
  intros D0 D1 B Lb Sc T E0 E1. pose proof Sc as [C _]. cbn [fst] in C. destruct (averaged_spec d f ax b point threads [(sn, s)] D0 D1 B Lb (Forall_cons _ Sc (Forall_nil _))) as (h0' & h' & m' & E0' & E1' & _ & K); [discriminate|]. rewrite E0 in E0'. injection E0' as <-. cbn [map snd] in E1'. rewrite E1 in E1'. injection E1' as <- <-.
  destruct (K 0%nat ltac:(lia)) as (parts & Pp & Ep). inversion Pp as [|? p ? ps [Np Ip] Pp']; subst. inversion Pp'; subst. cbn [fst] in Ip. rewrite Ep. unfold all_values. cbn [combine map fst snd concat]. rewrite app_nil_r.
  set (l := filter is_distinct p). assert (In_l : forall x, In x l <-> distinct_in_bin point b d 0 sn x).
  { intros [[i j] v]. unfold l. rewrite filter_In, Ip. unfold is_distinct. cbn [fst snd]. rewrite (pairs_split d b point sn 0 i j v D0 D1 B Lb C T). split.
    - intros [[D|(I & -> & _)] N]; [exact D|]. rewrite Nat.eqb_refl in N. discriminate.
    - intros D. split; [left; exact D|]. cbn in D. destruct (Nat.eqb_spec i j); [lia|reflexivity]. }
  exists l. split; [apply NoDup_filter; exact Np|]. split; [exact In_l|].
  assert (P : Permutation p (selves (length (sn_shapes sn)) ++ l)).
  { apply NoDup_Permutation; [exact Np| |].
    - apply nodup_append; [apply selves_nodup|apply NoDup_filter; exact Np|]. intros [[i j] v] I I'. apply selves_in in I. destruct I as (_ & -> & _). apply In_l in I'. cbn in I'. lia.
    - intros [[i j] v]. rewrite in_app_iff, selves_in, In_l, Ip, (pairs_split d b point sn 0 i j v D0 D1 B Lb C T). tauto. }
  f_equal; [apply mean_perm; apply Permutation_map; exact P|]. rewrite map_length, (Permutation_length P), app_length. unfold selves. rewrite map_length, seq_length. reflexivity.
Qed.
Lemma self_value f ax sn i : vdot (axis_of ax sn i) (axis_of ax sn i) = 1 -> pair_value f ax sn (i, i, vzero) = match f with S110 => Some 1 | S220 => Some 1 | S221 => None | AxesAngle => Some 0 end.
Proof.
  intros U. unfold pair_value. cbv zeta. rewrite U. destruct f; [reflexivity|f_equal; field| |].
  - rewrite zero_norm. destruct (Req_EM_T 0 0); [reflexivity|contradiction].
  - rewrite Rabs_R1, acos_1. f_equal. unfold Rdiv. ring.
Qed.
(** S221 in the first bin is not a number. *)
Lemma total_none l : In None l -> total l = None.
Proof. induction l as [|x l IH]; intros I; [destruct I|]. rewrite total_cons. destruct I as [->|I]; [reflexivity|]. rewrite (IH I). destruct x; reflexivity. Qed.
Lemma mean_none l : In None l -> mean l = None.
Proof. intros I. destruct l as [|x l]; [destruct I|]. unfold mean. rewrite (total_none _ I). reflexivity. Qed.
Theorem s221_first d ax b point threads history h0 h m sn s : d_min d = 0 -> 0 < d_max d -> (1 <= d_bins d)%nat -> legal_binning b -> Forall (averaged_scheduled d S221 ax b point threads) history ->
  In (sn, s) history -> sn_shapes sn <> [] -> (forall p, sn_translation sn p p = vzero) ->
  build [d] threads 0 = Some h0 -> averaged_run d (map snd history) h0 h0 = Some (h, m) -> fst (nth 0 (averaged_dump h m) (None, 0%nat)) = None.
Proof.
  intros D0 D1 B Lb Sc I Ne T E0 E1. destruct (averaged_spec d S221 ax b point threads history D0 D1 B Lb Sc) as (h0' & h' & m' & E0' & E1' & _ & K); [intros ->; destruct I|]. rewrite E0 in E0'. injection E0' as <-. rewrite E1 in E1'. injection E1' as <- <-.
  destruct (K 0%nat ltac:(lia)) as (parts & Pp & Ep). rewrite Ep. cbn [fst]. apply mean_none. clear E1 K Ep.
  assert (C : constructed (sn_box sn)) by (rewrite Forall_forall in Sc; exact (proj1 (Sc _ I))). clear Sc. induction Pp as [|x p hs ps Px Pp IH]; [destruct I|]. unfold all_values. cbn [combine map fst snd concat]. apply in_or_app. destruct I as [->|I]; [left|right; exact (IH I)].
  destruct Px as [_ Ip]. cbn [fst] in *. apply in_map_iff. exists (0%nat, 0%nat, vzero). split.
  - unfold pair_value. cbv zeta. rewrite zero_norm. destruct (Req_EM_T 0 0); [reflexivity|contradiction].
  - apply Ip. apply (pairs_split d b point sn 0 0 0 vzero D0 D1 B Lb C T). right. split; [destruct (sn_shapes sn); [contradiction|cbn; lia]|]. auto.
Qed.
(** Additions can always be made. *)
Lemma schedulable d f ax b point sn : constructed (sn_box sn) -> legal_binning b -> exists s, averaged_scheduled d f ax b point 1 (sn, s).
Proof.
  intros C Lb. destruct (enumerated b point sn C Lb) as (l & E & _). exists (plain (flat_map (averaged_pair (d_max d) f ax sn) l)). split; [exact C|]. eexists. cbn [fst snd]. unfold averaged_work. rewrite E. split; [reflexivity|]. split; [rewrite plain_snd; reflexivity|]. unfold plain. apply Forall_forall. intros x I. apply in_map_iff in I. destruct I as (y & <- & _). cbn. lia.
Qed.
