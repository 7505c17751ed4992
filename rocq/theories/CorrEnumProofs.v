From Coq Require Import Reals ZArith List Bool Lia Lra Permutation.
From Verif Require Import GeomModel GeomProofs BoxModel BoxSpec BoxProofs RFloorModel RotModel PackSpec HistModel HistSpec HistProofs BondModel BondOrderProofs CorrModel CorrSpec CorrProofs.
Import ListNotations.
Local Open Scope R_scope.

Lemma nodup_flat {A B} (f : A -> list B) l : NoDup l -> (forall x, In x l -> NoDup (f x)) -> (forall x y z, In x l -> In y l -> In z (f x) -> In z (f y) -> x = y) -> NoDup (flat_map f l).
Proof.
  intros N. induction N as [|a l Ha N IH]; intros F D; cbn [flat_map]; [constructor|].
  assert (G : NoDup (flat_map f l)) by (apply IH; [intros x I; apply F; right; exact I|intros x y z Ix Iy; apply D; right; assumption]).
  assert (K : forall z, In z (f a) -> ~ In z (flat_map f l)).
  { intros z I J. apply in_flat_map in J. destruct J as (y & Iy & J). apply Ha. rewrite (D a y z); [exact Iy|left; reflexivity|right; exact Iy|exact I|exact J]. }
  specialize (F a (or_introl eq_refl)). clear - F G K. revert F K. induction (f a) as [|z m IHm]; intros F K; cbn [app]; [exact G|]. inversion F; subst. constructor.
  - intros I. apply in_app_or in I. destruct I as [I|I]; [contradiction|]. apply (K z); [left; reflexivity|exact I].
  - apply IHm; [assumption|]. intros y I. apply K. right. exact I.
Qed.
(** Each body gives at most one vector. *)
Definition single (body : nat -> nat -> list item) : Prop := forall i j, body i j = [] \/ exists v, body i j = [(i, j, v)].
Lemma loops_in n body i j v : single body -> (In (i, j, v) (loops n body) <-> (i <= j < n)%nat /\ body i j = [(i, j, v)]).
Proof.
  intros S. unfold loops. rewrite in_flat_map. split.
  - intros (a & Ia & I). apply in_flat_map in I. destruct I as (b & Ib & I). apply in_seq in Ia. apply in_seq in Ib. destruct (S a b) as [E|[u E]]; rewrite E in I; [destruct I|]. destruct I as [I|[]]. injection I as -> -> ->. split; [lia|exact E].
  - intros [H E]. exists i. split; [apply in_seq; lia|]. apply in_flat_map. exists j. split; [apply in_seq; lia|]. rewrite E. left. reflexivity.
Qed.
Lemma loops_nodup n body : single body -> NoDup (loops n body).
Proof.
  intros S. assert (K : forall i j z, In z (body i j) -> fst z = (i, j)) by (intros i j z I; destruct (S i j) as [E|[v E]]; rewrite E in I; [destruct I|]; destruct I as [<-|[]]; reflexivity).
  unfold loops. apply nodup_flat; [apply seq_NoDup| |].
  - intros i _. apply nodup_flat; [apply seq_NoDup| |].
    + intros j _. destruct (S i j) as [E|[v E]]; rewrite E; [constructor|]. constructor; [intros []|constructor].
    + intros x y z _ _ I J. apply K in I. apply K in J. congruence.
  - intros x y z _ _ I J. apply in_flat_map in I. apply in_flat_map in J. destruct I as (a & _ & I), J as (b & _ & J). apply K in I. apply K in J. congruence.
Qed.
Lemma points_length point sn : length (dumpNamedPoints point sn) = length (sn_shapes sn). Proof. apply map_length. Qed.
Lemma points_nth point sn i : (i < length (sn_shapes sn))%nat -> nth i (dumpNamedPoints point sn) vzero = focal point sn i.
Proof. intros H. unfold dumpNamedPoints. rewrite (nth_mapped _ _ (vzero, mid)) by exact H. reflexivity. Qed.
Lemma displaced point sn i j : (i <= j < length (sn_shapes sn))%nat -> displacement sn (dumpNamedPoints point sn) i j = joining point sn i j.
Proof. intros H. unfold displacement, joining. rewrite !points_nth by lia. reflexivity. Qed.
Lemma sum_points {A B} (f : B -> R) (g : A -> B) (d : A) l : Rsum f (map g l) = Rsum (fun i => f (g (nth i l d))) (seq 0 (length l)).
Proof.
  assert (K : forall m, (fun i => f (g (nth i (m ++ l) d))) = (fun i => f (g (nth i (m ++ l) d)))) by reflexivity. clear K.
  assert (E : forall m, Rsum f (map g l) = Rsum (fun i => f (g (nth i (m ++ l) d))) (seq (length m) (length l))).
  { induction l as [|a l IH]; intros m; [reflexivity|]. cbn [map length seq]. unfold Rsum in *. cbn [fold_right]. rewrite app_nth2, Nat.sub_diag by lia. cbn [nth]. f_equal. specialize (IH (m ++ [a])). rewrite app_length in IH. cbn [length] in IH. rewrite Nat.add_1_r in IH. rewrite IH. rewrite <- app_assoc. reflexivity. }
  apply (E []).
Qed.
Lemma phased w point sn : phase w point sn (calculateTauAngle w (dumpNamedPoints point sn)).
Proof.
  unfold calculateTauAngle. cbv zeta. rewrite fold_cadd. cbn [fst snd]. rewrite !Rplus_0_l. unfold phase.
  assert (E : forall g, Rsum (fun x => g (vdot w x)) (dumpNamedPoints point sn) = Rsum (fun i => g (vdot w (focal point sn i))) (seq 0 (length (sn_shapes sn)))) by (intros g; unfold dumpNamedPoints; rewrite (sum_points _ _ (vzero, mid)); reflexivity).
  rewrite (E cos), (E sin). apply atan2_arg.
Qed.
(** Projections. *)
Lemma along f d : f <> vzero -> let v := vscale (vdot d (vscale (/ vnorm f) f)) (vscale (/ vnorm f) f) in vcross f v = vzero /\ vdot f (vsub d v) = 0.
Proof.
  intros N v. pose proof (norm_pos f N) as P. pose proof (norm_sqr f) as Q. unfold v. clear v. generalize dependent (vnorm f). intros n P Q. destruct f as [a b c], d as [p q r]. unfold vnorm2, vdot in Q. unfold vcross, vdot, vscale, vsub, vzero. cbn [vx vy vz] in *. split; [f_equal; ring|].
  set (m := / n). assert (M : m * n = 1) by (unfold m; apply Rinv_l; lra). clearbody m. transitivity ((a * p + b * q + c * r) * (1 - m * m * (a * a + b * b + c * c))); [ring|]. rewrite <- Q. replace (m * m * (n * n)) with ((m * n) * (m * n)) by ring. rewrite M. ring.
Qed.
Lemma along_unique f d u v : f <> vzero -> vcross f u = vzero -> vdot f (vsub d u) = 0 -> vcross f v = vzero -> vdot f (vsub d v) = 0 -> u = v.
Proof.
  intros N Cu Du Cv Dv. apply (scale_inj (vnorm2 f)); [pose proof (norm2_pos f N); lra|]. rewrite (parallel f u Cu), (parallel f v Cv). rewrite vdot_sub_r in Du, Dv. f_equal. lra.
Qed.
Lemma sub_sub d v : vsub d (vsub d v) = v. Proof. destruct d as [a b c], v as [p q r]. unfold vsub. cbn [vx vy vz]. f_equal; ring. Qed.
Lemma across f d : f <> vzero -> let v := vsub d (vscale (vdot d (vscale (/ vnorm f) f)) (vscale (/ vnorm f) f)) in vdot f v = 0 /\ vcross f (vsub d v) = vzero.
Proof. intros N v. unfold v. rewrite sub_sub. destruct (along f d N) as [A B]. split; assumption. Qed.
Lemma across_unique f d u v : f <> vzero -> vdot f u = 0 -> vcross f (vsub d u) = vzero -> vdot f v = 0 -> vcross f (vsub d v) = vzero -> u = v.
Proof. intros N Du Cu Dv Cv. rewrite <- (sub_sub d u), <- (sub_sub d v). f_equal. apply (along_unique f d); auto; rewrite sub_sub; assumption. Qed.
Theorem separated_unique point sn b i j u v : constructed (sn_box sn) -> legal_binning b -> separated point sn i j b u -> separated point sn i j b v -> u = v.
Proof.
  intros Cb L Su Sv. apply constructed_valid in Cb. destruct Su as [|a u Cu Du|h k l w t u W Ph R Du Cu].
  - inversion Sv. reflexivity.
  - inversion Sv as [|? ? Cv Dv|]; subst. apply (along_unique (box_face (sn_box sn) a) (joining point sn i j)); auto. apply face_nonzero. exact Cb.
  - inversion Sv as [| |? ? ? w' t' ? W' Ph' R' Dv Cv]; subst. assert (w' = w) by (eapply wave_unique; eauto). subst w'. apply (across_unique w (joining point sn i j)); auto. eapply wave_nonzero; eauto.
Qed.
Lemma joined_end point sn i j : vadd (focal point sn i) (joining point sn i j) = vadd (focal point sn j) (sn_translation sn (focal point sn i) (focal point sn j)).
Proof. unfold joining. generalize (focal point sn i), (vadd (focal point sn j) (sn_translation sn (focal point sn i) (focal point sn j))). intros [a b c] [p q r]. unfold vadd, vsub. cbn [vx vy vz]. f_equal; ring. Qed.
(** What is enumerated: each pair once, each particle also with itself. *)
Theorem enumerated b point sn : constructed (sn_box sn) -> legal_binning b -> exists l, enumeratePairs b point sn = Some l /\ NoDup l /\
  forall i j v, In (i, j, v) l <-> (i <= j < length (sn_shapes sn))%nat /\ separated point sn i j b v.
Proof.
  intros Cb L. pose proof (proj1 (constructed_valid _) Cb) as V. destruct b as [|a|h k l]; unfold enumeratePairs; cbv zeta; rewrite points_length.
  - eexists. split; [reflexivity|]. assert (S : single (fun i j => [(i, j, displacement sn (dumpNamedPoints point sn) i j)])) by (intros i j; right; eexists; reflexivity). split; [apply loops_nodup; exact S|]. intros i j v. rewrite loops_in by exact S. split.
    + intros [H E]. split; [exact H|]. injection E as <-. rewrite displaced by exact H. constructor.
    + intros [H E]. split; [exact H|]. inversion E; subst. rewrite displaced by exact H. reflexivity.
  - pose proof (face_nonzero _ a V) as F. rewrite normalized_of by exact F. eexists. split; [reflexivity|]. set (body := fun i j : nat => _).
    assert (S : single body) by (intros i j; right; eexists; reflexivity). split; [apply loops_nodup; exact S|]. intros i j v. rewrite loops_in by exact S. unfold body. split.
    + intros [H E]. split; [exact H|]. injection E as <-. rewrite displaced by exact H. destruct (along _ (joining point sn i j) F) as [A B]. constructor; assumption.
    + intros [H E]. split; [exact H|]. rewrite displaced by exact H. destruct (along _ (joining point sn i j) F) as [A B]. do 2 f_equal. eapply separated_unique; [exact Cb|exact L| |exact E]. constructor; assumption.
  - destruct (waved sn h k l Cb) as (w & -> & W). pose proof (wave_nonzero _ _ _ _ _ L W) as F. rewrite normalized_of by exact F. eexists. split; [reflexivity|]. set (body := fun i j : nat => _).
    assert (S : single body) by (intros i j; unfold body; cbv zeta; destruct (negb _); [left; reflexivity|right; eexists; reflexivity]). split; [apply loops_nodup; exact S|]. intros i j v. rewrite loops_in by exact S. unfold body. cbv zeta. clear S body.
    pose proof (phased w point sn) as Ph. set (t := calculateTauAngle _ _) in *. clearbody t.
    split; intros [H E]; (split; [exact H|]); rewrite !points_nth in * by lia; rewrite <- joined_end in *; fold (joining point sn i j) in *.
    + destruct (Z.eqb _ _) eqn:Z; cbn [negb] in E; [|discriminate]. apply Z.eqb_eq in Z. unfold layerOf in Z. rewrite !(vdot_comm _ w) in Z. injection E as <-. replace (vsub (vadd (focal point sn i) (joining point sn i j)) (focal point sn i)) with (joining point sn i j) by (rewrite joined_end; reflexivity). destruct (across w (joining point sn i j) F) as [A B]. econstructor; eauto.
    + inversion E as [| |? ? ? w' t' ? W' Ph' R' Dv Cv]; subst. assert (w' = w) by (eapply wave_unique; eauto). subst w'. assert (t' = t) by (eapply phase_unique; eauto). subst t'. assert (Z : Z.eqb (layerOf w t (focal point sn i)) (layerOf w t (vadd (focal point sn i) (joining point sn i j))) = true) by (apply Z.eqb_eq; unfold layerOf; rewrite !(vdot_comm _ w); exact R'). rewrite Z. cbn [negb]. replace (vsub (vadd (focal point sn i) (joining point sn i j)) (focal point sn i)) with (joining point sn i j) by (rewrite joined_end; reflexivity). destruct (across w (joining point sn i j) F) as [A B]. do 2 f_equal. eapply across_unique; eauto.
Qed.
