(** Single moves of a simulation. *)
From Coq Require Import Reals ZArith List Bool Lia Lra Permutation.
From Verif Require Import GeomModel BoxModel BoxSpec RFloorModel PbcModel PbcSpec NGModel GeomProofs BoxProofs NGListProofs.
From Verif Require Import PackModel PackSpec PackSumProofs PackGridProofs PackCountProofs PackTotalProofs PackProofs PackInvProofs PackHistProofs PackFinalProofs.
From Verif Require Import DomModel DomSpec DomFinalProofs DomRunProofs DomRunFinalProofs RotModel RotSpec RotProofs RotFlipProofs SimModel SimSpec.
Import ListNotations.
Open Scope nat_scope.

Section Moves.
Variables (inter : interaction) (ov : law bool) (en : law R).
Hypothesis HL : lawful inter ov en.
Notation inv := (inv inter).

Lemma accept_all_spec pk o th i p tm temps : inv pk -> op_target o = Some (th, i) -> nth_error (pk_parts pk) i = Some p ->
  nth_error (pk_temps pk) th = Some tm ->
  let c := candidate (pk_box pk) o p in let r := move_result inter pk i p c (tm_delta tm) in
  set_nth (pk_temps pk) th (Temp i (snd r) c) = Some temps -> inv (set_temps pk temps) ->
  exists pk', acceptMove th (set_temps pk temps) = Some pk' /\ replaced pk pk' i c /\ inv pk' /\
    pk_wall pk' = pk_wall pk /\ pk_counting pk' = pk_counting pk /\ pk_temps pk' = temps /\ pk_box pk' = pk_box pk /\
    tot pk' inter + walls pk' inter false + new_count inter pk i p = tot pk inter + walls pk inter false + new_count inter pk i c /\
    (etot inter pk' - etot inter pk = epart inter pk i c - epart inter pk i p)%R.
Proof.
  intros Hi Ho Hp Ht c r Es Hi'.
  pose proof (candidate_inv inter (pk_box pk) o p (i_box _ _ Hi) (inv_part inter pk i p Hi Hp)) as Hc. fold c in Hc.
  assert (Hn : nth_error temps th = Some (Temp i (snd r) c)).
  { rewrite (set_nth_get _ _ _ _ th Es), Nat.eqb_refl. auto. }
  unfold acceptMove. cbn [pk_temps set_temps pk_parts]. rewrite Hn. cbn [obind tm_last]. rewrite Hp. cbn [obind tm_part tm_delta].
  apply (replace_spec inter ov en HL (set_temps pk temps) true i p c (snd r)); auto; [discriminate|].
  intros C. unfold r, move_result. change (pk_counting (set_temps pk temps)) with (pk_counting pk) in C. rewrite C.
  destruct (in_hard inter) eqn:Hh; [reflexivity|]. cbn [negb snd].
  change (new_count inter (set_temps pk temps)) with (new_count inter pk).
  rewrite !(no_hard_part inter ov en HL pk i _ Hh). simpl.
  pose proof (i_delta _ _ Hi Hh) as Hd. rewrite Forall_forall in Hd. apply Hd. eapply nth_error_In; eauto.
Qed.

Lemma move_all pk o thread i s : inv pk -> particle_move o thread i -> nth_error (shapes_of pk) i = Some s ->
  thread < length (pk_temps pk) ->
  exists pk1 e s', try_op inter o pk = Some (pk1, e) /\ same_packing pk pk1 /\ inv pk1 /\ length (pk_temps pk1) = length (pk_temps pk) /\ moves_to (pk_box pk) o s s' /\
    (outside_domain o (sh_pos s') -> e = PosInf) /\
    (~ outside_domain o (sh_pos s') -> exists pk2 n0 n2 e0 e2, acceptMove thread pk1 = Some pk2 /\ inv pk2 /\ pk_size pk2 = pk_size pk /\ pk_temps pk2 = pk_temps pk1 /\ length (pk_temps pk1) = length (pk_temps pk) /\
       set_nth (shapes_of pk) i s' = Some (shapes_of pk2) /\ pk_box pk2 = pk_box pk /\ pk_wall pk2 = pk_wall pk /\
       pk_counting pk2 = pk_counting pk /\
       countTotalOverlaps pk inter false = Some n0 /\ countTotalOverlaps pk2 inter false = Some n2 /\
       getTotalEnergy pk inter = Some e0 /\ getTotalEnergy pk2 inter = Some e2 /\
       (pk_counting pk = true \/ n0 = 0 -> e = energy_change n0 n2 e0 e2 (pk_counting pk)) /\
       (e = Fin (e2 - e0) \/ e = PosInf \/ e = NegInf) /\
       (pk_counting pk = false -> e <> NegInf) /\
       (pk_counting pk = false -> e <> PosInf -> n2 <= n0)).
Proof.
  intros Hi Ho Hs Hth. pose proof (inv_pgood inter pk Hi) as Hg.
  assert (Ht : op_target o = Some (thread, i)) by (destruct o; try contradiction; destruct Ho; subst; reflexivity).
  unfold shapes_of in Hs. rewrite nth_error_map in Hs. destruct (nth_error (pk_parts pk) i) as [p|] eqn:Hp; [|discriminate].
  simpl in Hs. injection Hs as <-. destruct (nth_error (pk_temps pk) thread) as [tm|] eqn:Htm; [|apply nth_error_None in Htm; lia].
  destruct (try_move_spec inter pk o thread i p tm Hi Ht Hp Htm) as (temps & e & E & Hi1 & Hlt & He).
  exists (set_temps pk temps), e, (pt_shape (candidate (pk_box pk) o p)).
  split; [exact E|]. split; [unfold same_packing; simpl; auto 10|]. split; [exact Hi1|]. split; [exact Hlt|].
  split; [apply (candidate_moves _ _ _ thread i); auto; [apply Hi|apply (inv_part inter pk i p Hi Hp)]|].
  rewrite <- outside_candidate. destruct (op_outside (pk_box pk) o p); [split; [auto|congruence]|]. split; [discriminate|]. intros _.
  cbv zeta in He. destruct He as [-> Hset].
  destruct (accept_all_spec pk o thread i p tm temps Hi Ht Hp Htm Hset Hi1) as (pk2 & Ea & Hrep & Hi2 & Hw & Hc & Hpt & Hb & Hcnt & Hen).
  pose proof (inv_pgood inter pk2 Hi2) as Hg2.
  destruct (count_total inter ov en HL pk false Hg (inv_range inter pk Hi)) as (n0 & En0 & N0 & _).
  destruct (count_total inter ov en HL pk2 false Hg2 (inv_range inter pk2 Hi2)) as (n2 & En2 & N2 & _).
  specialize (N0 eq_refl). specialize (N2 eq_refl). pose proof (part_le_total inter ov en HL pk i p Hi Hp) as Hle.
  exists pk2, n0, n2, (etot inter pk), (etot inter pk2). split; [exact Ea|]. split; [exact Hi2|]. split; [exact (replaced_size _ _ _ _ Hrep)|]. split; [exact Hpt|]. split; [exact Hlt|]. split.
  { destruct Hrep as (_ & _ & _ & _ & _ & Hset2). clear - Hset2. unfold shapes_of. revert Hset2. generalize (pk_parts pk), (pk_parts pk2).
    revert i. intros i l. revert i. induction l as [|x l IH]; intros [|i] l' H; simpl in *; try discriminate.
    - injection H as <-. reflexivity.
    - destruct (set_nth l i _) as [l2|] eqn:El; [|discriminate]. injection H as <-. rewrite (IH i l2 El). reflexivity. }
  split; [exact Hb|]. split; [exact Hw|]. split; [exact Hc|]. split; [exact En0|]. split; [exact En2|].
  split; [apply (energy_total inter ov en HL); auto; apply inv_range; auto|].
  split; [apply (energy_total inter ov en HL); auto; apply inv_range; auto|].
  set (c := candidate (pk_box pk) o p) in *. rewrite <- N0, <- N2 in *.
  assert (Hz : in_hard inter = false -> n0 = 0 /\ n2 = 0).
  { intros Hh. rewrite N0, N2, !(no_hard_tot inter ov en HL _ Hh). auto. }
  unfold move_result, energy_change. rewrite <- Hen. destruct (in_hard inter) eqn:Hh; cbn [negb].
  2: { destruct (Hz eq_refl) as [-> ->]. cbn [fst]. destruct (pk_counting pk); simpl; (split; [auto|split; [auto|split; [intros; discriminate|auto]]]). }
  destruct (pk_counting pk); cbn [fst].
  - split; [|split; [|split; discriminate]].
    + intros _. destruct (Z.ltb_spec (Z.of_nat (new_count inter pk i c) - Z.of_nat (new_count inter pk i p)) 0), (Nat.ltb_spec n2 n0); try lia; auto.
      destruct (Z.ltb_spec 0 (Z.of_nat (new_count inter pk i c) - Z.of_nat (new_count inter pk i p))), (Nat.ltb_spec n0 n2); try lia; auto.
    + destruct (_ <? 0)%Z; auto. destruct (0 <? _)%Z; auto.
  - split; [|split; [|split]].
    + intros [|Hn0]; [discriminate|]. destruct (Nat.ltb_spec 0 (new_count inter pk i c)), (Nat.ltb_spec 0 n2); try lia; auto.
    + destruct (0 <? _); auto.
    + intros _. destruct (0 <? _); discriminate.
    + intros _. destruct (Nat.ltb_spec 0 (new_count inter pk i c)); [congruence|]. intros _. lia.
Qed.

Definition vgood (threads : nat) (pk : packing) : Prop := inv pk /\ length (pk_temps pk) = threads /\ rotated_properly pk.
Definition total (pk : packing) : nat := tot pk inter + walls pk inter false.
Lemma total_count pk : inv pk -> countTotalOverlaps pk inter false = Some (total pk).
Proof.
  intros Hi. destruct (count_total inter ov en HL pk false (inv_pgood inter pk Hi) (inv_range inter pk Hi)) as (n & E & N & _).
  rewrite E, (N eq_refl). reflexivity.
Qed.
Lemma set_nth_In {A} (l : list A) i x l' y : set_nth l i x = Some l' -> In y l' -> y = x \/ In y l.
Proof.
  revert i l'. induction l as [|z l IH]; intros [|i] l' H Hy; simpl in *; try discriminate.
  - injection H as <-. destruct Hy as [->|Hy]; auto.
  - destruct (set_nth l i x) as [l2|] eqn:E; [|discriminate]. injection H as <-. destruct Hy as [->|Hy]; auto.
    destruct (IH i l2 E Hy); auto.
Qed.
Lemma isometry_mmul m m' : isometry m -> isometry m' -> isometry (mmul m m').
Proof. intros H H' v. rewrite mvec_mmul, H. apply H'. Qed.
Lemma rotated_set pk pk' i s' : rotated_properly pk -> set_nth (shapes_of pk) i s' = Some (shapes_of pk') -> isometry (sh_rot s') -> rotated_properly pk'.
Proof. intros H E Hs s Hin. destruct (set_nth_In _ _ _ _ _ E Hin) as [->|Hi]; auto. Qed.
Lemma same_total pk pk' : pk_parts pk' = pk_parts pk -> pk_box pk' = pk_box pk -> pk_wall pk' = pk_wall pk -> pk_ng pk' = pk_ng pk ->
  pk_k pk' = pk_k pk -> total pk' = total pk.
Proof.
  destruct pk, pk'. simpl. intros -> -> -> -> ->. reflexivity.
Qed.
Lemma moved_isometry b o s s' pl thread n : good_plan n thread pl -> o = pl_op pl s -> isometry (sh_rot s) -> moves_to b o s s' -> isometry (sh_rot s').
Proof.
  intros [_ Hp] -> Hs Hm. destruct (Hp s Hs) as [P I]. destruct (pl_op pl s); try contradiction; cbn [moves_to] in Hm.
  - destruct Hm as [_ ->]. auto.
  - destruct Hm as [_ ->]. apply isometry_mmul; auto.
  - destruct Hm as [_ ->]. apply isometry_mmul; auto.
Qed.
Lemma same_vgood threads pk pk1 : vgood threads pk -> same_packing pk pk1 -> inv pk1 -> length (pk_temps pk1) = length (pk_temps pk) ->
  vgood threads pk1 /\ total pk1 = total pk /\ pk_size pk1 = pk_size pk.
Proof.
  intros (Hi & Ht & Hr) Hsame Hi1 Hlt. pose proof Hsame as (S1 & S2 & S3 & S4 & S5 & S6 & S7 & S8). split; [|split].
  - split; [exact Hi1|]. split; [lia|]. unfold rotated_properly, shapes_of. rewrite S2. exact Hr.
  - exact (same_total pk pk1 S2 S1 S8 S5 S3).
  - unfold pk_size. rewrite S2. reflexivity.
Qed.

Lemma perform_spec threads thread pl pk : vgood threads pk -> thread < threads -> good_plan (pk_size pk) thread pl -> pl_accept pl PosInf = false ->
  exists s pk' ok s', nth_error (shapes_of pk) (pl_i pl) = Some s /\ perform_plan inter thread pl pk = Some (pk', ok) /\ vgood threads pk' /\
    moves_to (pk_box pk) (pl_op pl s) s s' /\
    pk_size pk' = pk_size pk /\ pk_box pk' = pk_box pk /\ pk_wall pk' = pk_wall pk /\ pk_counting pk' = pk_counting pk /\
    (pk_counting pk = false -> total pk' <= total pk) /\
    (ok = false -> same_packing pk pk') /\ (ok = true -> moved_packing pk (pl_i pl) s' pk').
Proof.
  intros HV Hth Hpl Ha. pose proof HV as (Hi & Ht & Hr). pose proof Hpl as [Hn Hop].
  destruct (nth_error (pk_parts pk) (pl_i pl)) as [p|] eqn:Ep; [|apply nth_error_None in Ep; unfold pk_size in Hn; lia].
  assert (Es : nth_error (shapes_of pk) (pl_i pl) = Some (pt_shape p)) by (unfold shapes_of; rewrite nth_error_map, Ep; reflexivity).
  assert (Hiso : isometry (sh_rot (pt_shape p))) by (apply Hr; eapply nth_error_In; exact Es).
  destruct (move_all pk (pl_op pl (pt_shape p)) thread (pl_i pl) (pt_shape p) Hi (proj1 (Hop _ Hiso)) Es)
    as (pk1 & e & s' & E & Hsame & Hi1 & Hlt & Hm & Hout & Hin); [lia|].
  exists (pt_shape p). unfold perform_plan. rewrite Ep. cbn [obind]. rewrite E. cbn [obind fst snd].
  destruct (same_vgood threads pk pk1 HV Hsame Hi1 Hlt) as (V1 & T1 & Z1). pose proof Hsame as (S1 & S2 & S3 & S4 & S5 & S6 & S7 & S8).
  destruct (pl_accept pl e) eqn:Hacc.
  2:{ exists pk1, false, s'. split; [exact Es|]. split; [reflexivity|]. split; [exact V1|]. split; [exact Hm|]. split; [exact Z1|].
      split; [exact S1|]. split; [exact S8|]. split; [exact S6|]. split; [lia|]. split; [auto|discriminate]. }
  assert (Hno : ~ outside_domain (pl_op pl (pt_shape p)) (sh_pos s')).
  { intros C. specialize (Hout C). congruence. }
  destruct (Hin Hno) as (pk2 & n0 & n2 & e0 & e2 & A1 & A2 & A3 & A4 & A5 & A6 & A7 & A8 & A9 & A10 & A11 & A12 & _ & _ & _ & A13).
  rewrite A1. cbn [obind]. exists pk2, true, s'. split; [exact Es|]. split; [reflexivity|].
  split. { split; [exact A2|]. split; [congruence|]. apply (rotated_set pk pk2 _ _ Hr A6). apply (moved_isometry (pk_box pk) (pl_op pl (pt_shape p)) (pt_shape p) s' pl thread (pk_size pk)); auto. }
  split; [exact Hm|]. split; [exact A3|]. split; [exact A7|]. split; [exact A8|]. split; [exact A9|]. split.
  { intros C. rewrite (total_count pk Hi) in A10. rewrite (total_count pk2 A2) in A11. injection A10 as <-. injection A11 as <-.
    apply A13; auto. congruence. }
  split; [discriminate|]. intros _. split; auto.
Qed.
End Moves.
