(** Packings met in a simulation: domain moves, scaling, renormalisation keep what the moves rely on. *)
From Coq Require Import Reals ZArith List Bool Lia Lra Permutation.
From Verif Require Import GeomModel BoxModel BoxSpec RFloorModel PbcModel PbcSpec NGModel GeomProofs BoxProofs NGListProofs.
From Verif Require Import PackModel PackSpec PackSumProofs PackGridProofs PackCountProofs PackTotalProofs PackProofs PackInvProofs PackHistProofs PackFinalProofs.
From Verif Require Import DomModel DomSpec DomFinalProofs DomRunProofs DomRunFinalProofs DomMoreProofs RotModel RotSpec RotProofs RotFlipProofs SimModel SimSpec SimMoveProofs.
Import ListNotations.
Open Scope nat_scope.

Section State.
Variables (inter : interaction) (ov : law bool) (en : law R).
Hypothesis HL : lawful inter ov en.
Notation inv := (inv inter).
Notation vgood := (vgood inter).
Notation total := (total inter).

(** *** Domains *)
Lemma pair_step k ws w pl todo pk sch st : nth_error ws k = Some w -> wk_pending w = None -> wk_todo w = pl :: todo ->
  run_workers inter (k :: k :: sch) (pk, ws) = Some st ->
  exists pk1 ok e ws1, perform_plan inter (wk_thread w) pl pk = Some (pk1, ok) /\
    set_nth ws k (Worker (wk_thread w) todo None (e :: wk_log w)) = Some ws1 /\ run_workers inter sch (pk1, ws1) = Some st.
Proof.
  intros Hw Hp Ht. cbn [run_workers workers_step]. rewrite Hw. cbn [obind]. rewrite Hp. destruct (busy _ ws); [discriminate|].
  unfold worker_step at 1. rewrite Hp, Ht. unfold perform_plan. destruct (nth_error (pk_parts pk) (pl_i pl)) as [p|]; [|discriminate]. cbn [obind].
  destruct (try_op inter _ pk) as [[pk1 e]|] eqn:E; [|discriminate]. cbn [obind fst snd].
  destruct (set_nth ws k _) as [ws1|] eqn:E1; [|discriminate]. cbn [obind run_workers workers_step].
  assert (E2 : nth_error ws1 k = Some (Worker (wk_thread w) todo (Some (pl, e)) (e :: wk_log w))).
  { rewrite (set_nth_get _ _ _ _ k E1), Nat.eqb_refl. reflexivity. }
  rewrite E2. cbn [obind wk_pending]. unfold worker_step. cbn [wk_pending wk_thread wk_todo wk_log].
  assert (E3 : forall v, exists ws2, set_nth ws k v = Some ws2 /\ set_nth ws1 k v = Some ws2).
  { intros v. clear - E1. revert ws ws1 E1. induction k as [|k IH]; intros [|x ws] ws1 E1; simpl in *; try discriminate.
    - injection E1 as <-. exists (v :: ws). auto.
    - destruct (set_nth ws k _) as [ws'|] eqn:E; [|discriminate]. injection E1 as <-. destruct (IH ws ws' E) as (ws2 & -> & A). simpl. rewrite A. eauto. }
  destruct (E3 (Worker (wk_thread w) todo None (e :: wk_log w))) as (ws2 & A1 & A2).
  destruct (pl_accept pl e).
  - destruct (acceptMove (wk_thread w) pk1) as [pk2|]; [|discriminate]. cbn [obind snd fst]. rewrite A2. cbn [obind]. intros R.
    exists pk2, true, e, ws2. auto.
  - cbn [obind snd fst]. rewrite A2. cbn [obind]. intros R. exists pk1, false, e, ws2. auto.
Qed.
Definition kept (pk0 : packing) (threads : nat) (pk : packing) : Prop :=
  vgood threads pk /\ pk_size pk = pk_size pk0 /\ pk_counting pk = pk_counting pk0 /\ pk_box pk = pk_box pk0 /\ pk_wall pk = pk_wall pk0 /\
  (pk_counting pk0 = false -> total pk <= total pk0).
Definition safe (n thread : nat) (pl : plan) : Prop := good_plan n thread pl /\ pl_accept pl PosInf = false.
Lemma kept_perform pk0 threads thread pl pk pk1 ok : kept pk0 threads pk -> thread < threads -> safe (pk_size pk0) thread pl ->
  perform_plan inter thread pl pk = Some (pk1, ok) -> kept pk0 threads pk1.
Proof.
  intros (V & Z & C & B & W & T) Hth [Hg Ha] E. rewrite <- Z in Hg.
  destruct (perform_spec inter ov en HL threads thread pl pk V Hth Hg Ha) as (s & pk' & ok' & s' & _ & E' & V' & _ & Z' & B' & W' & C' & T' & _).
  rewrite E in E'. injection E' as <- <-. split; [exact V'|]. split; [congruence|]. split; [congruence|]. split; [congruence|]. split; [congruence|].
  intros H. rewrite C in T'. specialize (T H). specialize (T' H). lia.
Qed.
Lemma solo_kept pk0 threads k : forall todo ws w pk sch st, nth_error ws k = Some w -> wk_pending w = None -> wk_todo w = todo ->
  wk_thread w < threads -> (forall pl, In pl todo -> safe (pk_size pk0) (wk_thread w) pl) -> kept pk0 threads pk ->
  run_workers inter (repeat k (2 * length todo) ++ sch) (pk, ws) = Some st ->
  exists pk1 ws1 log, kept pk0 threads pk1 /\ set_nth ws k (Worker (wk_thread w) [] None log) = Some ws1 /\ run_workers inter sch (pk1, ws1) = Some st.
Proof.
  induction todo as [|pl todo IH]; intros ws w pk sch st Hw Hp Ht Hth Hs Hk R.
  - exists pk, ws, (wk_log w). split; [exact Hk|]. split; [|exact R]. clear - Hw Hp Ht. destruct w as [th td pe lg]. simpl in *. subst.
    revert ws Hw. induction k as [|k IH]; intros [|x ws] Hw; simpl in *; try discriminate; [congruence|]. rewrite (IH ws Hw). reflexivity.
  - replace (2 * length (pl :: todo)) with (S (S (2 * length todo))) in R by (simpl; lia). cbn [repeat app] in R.
    destruct (pair_step k ws w pl todo pk _ st Hw Hp Ht R) as (pk1 & ok & e & ws1 & E1 & E2 & E3).
    assert (K1 : kept pk0 threads pk1) by (apply (kept_perform pk0 threads (wk_thread w) pl pk pk1 ok); auto; apply Hs; left; auto).
    destruct (IH ws1 (Worker (wk_thread w) todo None (e :: wk_log w)) pk1 sch st) as (pk2 & ws2 & log & A & B & C); auto.
    { rewrite (set_nth_get _ _ _ _ k E2), Nat.eqb_refl. reflexivity. }
    { intros pl' Hpl'. apply Hs. right. exact Hpl'. }
    exists pk2, ws2, log. split; [exact A|]. split; [|exact C]. cbn [wk_thread] in B. clear - E2 B. revert ws ws1 ws2 E2 B.
    induction k as [|k IH]; intros [|x ws] ws1 ws2 E2 B; simpl in *; try discriminate.
    + injection E2 as <-. simpl in B. exact B.
    + destruct (set_nth ws k _) as [ws'|] eqn:E; [|discriminate]. injection E2 as <-. simpl in B.
      destruct (set_nth ws' k _) as [ws''|] eqn:E'; [|discriminate]. rewrite (IH ws ws' ws'' E E'). exact B.
Qed.
Lemma all_kept pk0 threads : forall (suf pre ws : list worker) pk st, length ws = length pre + length suf ->
  (forall k w, nth_error suf k = Some w -> nth_error ws (length pre + k) = Some w /\ wk_pending w = None /\ wk_thread w < threads /\
     forall pl, In pl (wk_todo w) -> safe (pk_size pk0) (wk_thread w) pl) ->
  kept pk0 threads pk ->
  run_workers inter (flat_map (fun kw : nat * worker => repeat (fst kw) (2 * length (wk_todo (snd kw)))) (combine (seq (length pre) (length suf)) suf)) (pk, ws) = Some st ->
  kept pk0 threads (fst st).
Proof.
  induction suf as [|w suf IH]; intros pre ws pk st Hl Hs Hk R.
  - simpl in R. injection R as <-. exact Hk.
  - cbn [length seq combine flat_map fst snd] in R. destruct (Hs 0 w eq_refl) as (A1 & A2 & A3 & A4). rewrite Nat.add_0_r in A1.
    destruct (solo_kept pk0 threads (length pre) (wk_todo w) ws w pk _ st A1 A2 eq_refl A3 A4 Hk R) as (pk1 & ws1 & log & K1 & E1 & R1).
    apply (IH (pre ++ [w]) ws1 pk1 st); auto.
    + rewrite (set_nth_length _ _ _ _ E1), app_length. simpl in *. lia.
    + intros k w' Hw'. destruct (Hs (S k) w' Hw') as (B1 & B2). split; [|exact B2]. rewrite app_length. simpl.
      rewrite (set_nth_get _ _ _ _ _ E1). destruct (Nat.eqb_spec (length pre + 1 + k) (length pre)); [lia|].
      replace (length pre + 1 + k) with (length pre + S k) by lia. exact B1.
    + rewrite app_length. simpl. replace (length pre + 1) with (S (length pre)) by lia. exact R1.
Qed.
Lemma legal_safe threads d c w pk div origin pl : inv pk -> (in_rangeRadius inter <= in_totalRange inter)%R ->
  (forall a, 1 <= div a) -> in_box (pk_box pk) origin -> decompose pk inter div origin = DdReady d -> legal_worker threads d c w -> In pl (wk_todo w) ->
  safe (pk_size pk) (wk_thread w) pl.
Proof.
  intros Hi Hr Hdiv Ho Hd (Hc & Ht & Hp & ad & l & Had & Hl & Hpl) Hin. destruct (Hpl pl Hin) as (I1 & I2 & I3).
  split; [|exact I2]. split.
  - unfold decompose in Hd. destruct (pk_ng pk) as [g|] eqn:Eg; [|discriminate].
    pose proof (run_legal inter pk g div origin Hi Eg Hdiv Ho) as Hleg.
    assert (Ed : dd_div d = div).
    { pose proof (decomposition_spec pk inter div (cget (getCellDivisions g)) origin (inv_well_placed _ _ Hi) Hr Hleg) as Sp. rewrite Hd in Sp. apply Sp. }
    rewrite Ed in Hc.
    destruct (lists pk inter div (cget (getCellDivisions g)) origin (inv_well_placed _ _ Hi) Hr Hleg d Hd c Hc) as (ad' & l' & _ & El' & Efl).
    rewrite Hl in El'. injection El' as <-. rewrite Efl in I1. apply filter_In in I1. destruct I1 as [I1 _]. apply in_seq in I1. lia.
  - intros s Hs. specialize (I3 s Hs). destruct (pl_op pl s); try contradiction; simpl.
    + destruct I3 as (-> & -> & _). auto.
    + destruct I3 as (-> & -> & H). auto.
    + destruct I3 as (-> & -> & _ & H). auto.
Qed.
Lemma domains_kept threads pk ws schedule pk' ws' : vgood threads pk -> (in_rangeRadius inter <= in_totalRange inter)%R -> centres_reach inter ->
  domain_workers threads inter pk ws -> run_workers inter schedule (pk, ws) = Some (pk', ws') ->
  vgood threads pk' /\ pk_size pk' = pk_size pk /\ pk_counting pk' = pk_counting pk /\ pk_box pk' = pk_box pk /\ pk_wall pk' = pk_wall pk /\
  (Forall finished ws' -> pk_counting pk = false -> total pk' <= total pk).
Proof.
  intros V Hr HC (div & origin & d & cs & Hdiv & Ho & Hd & Hleg & Hdiff) R. pose proof V as (Hi & Ht & Hrot).
  destruct (run_facts_inv inter ov en HL Hr HC threads pk Hi Ht Hrot div origin d Hdiv Ho Hd cs ws Hleg Hdiff) as (A & B & C).
  destruct (B schedule pk' ws' R) as ((B1 & B2 & B3 & B4 & B5 & B6 & B7) & Brot & _).
  split; [split; [exact B1|split; [congruence|exact Brot]]|]. split; [exact B6|]. split; [exact B5|]. split; [exact B3|]. split; [exact B4|].
  intros F Hc. destruct A as (pk2 & ws2 & R2 & F2). destruct (C _ _ _ _ _ _ R F R2 F2) as (_ & _ & _ & E & _).
  destruct (B _ _ _ R2) as ((I2 & _) & _). rewrite (total_count inter ov en HL pk' B1), (total_count inter ov en HL pk2 I2) in E. injection E as ->.
  assert (K : kept pk threads pk).
  { split; [exact V|]. split; [reflexivity|]. split; [reflexivity|]. split; [reflexivity|]. split; [reflexivity|]. auto. }
  apply (all_kept pk threads ws [] ws pk (pk2, ws2)); auto.
  intros k w Hw. pose proof (Forall2_len _ _ _ Hleg) as Hlen.
  assert (Hk : k < length cs) by (rewrite Hlen; apply nth_error_Some; congruence).
  destruct (nth_error cs k) as [c|] eqn:Ec; [|apply nth_error_None in Ec; lia].
  pose proof (Forall2_nth _ _ _ Hleg k c w Ec Hw) as Lw. split; [exact Hw|]. split; [apply Lw|]. split; [apply Lw|].
  intros pl Hpl. exact (legal_safe threads d c w pk div origin pl Hi Hr Hdiv Ho Hd Lw Hpl).
Qed.

(** *** Scaling, setup, counting, renormalisation *)
Lemma setup_kept threads pk : vgood threads pk -> exists pk', setupForInteraction inter pk = Some pk' /\ vgood threads pk' /\
  shapes_of pk' = shapes_of pk /\ pk_box pk' = pk_box pk /\ pk_wall pk' = pk_wall pk /\ pk_size pk' = pk_size pk.
Proof.
  intros (Hi & Ht & Hr). pose proof (inv_pgood inter pk Hi) as Hg.
  destruct (setup_spec inter ov en HL pk (i_box _ _ Hi) (i_size _ _ Hi) (i_few _ _ Hi)) as (pk' & E & Hi' & Es & Eb & Ew & Ec & Et).
  - intros p Hp. pose proof (i_parts _ _ Hi) as H. rewrite Forall_forall in H. apply (H p Hp).
  - pose proof (i_ng _ _ Hi) as Hn. rewrite <- (i_k _ _ Hi). change (grid_shaped (sites_total pk) (pk_ng pk)).
    destruct (pk_ng pk); [|exact I]. apply grid_holds_shaped in Hn. rewrite (pgood_length pk Hg) in Hn. auto.
  - rewrite <- (i_k _ _ Hi). apply (i_tng _ _ Hi).
  - apply (i_delta _ _ Hi).
  - exists pk'. split; [exact E|]. split; [|].
    + split; [exact Hi'|]. split; [congruence|]. unfold rotated_properly. rewrite Es. exact Hr.
    + split; [exact Es|]. split; [exact Eb|]. split; [exact Ew|].
      unfold pk_size. unfold shapes_of in Es. apply (f_equal (@length _)) in Es. rewrite !map_length in Es. exact Es.
Qed.
Lemma counting_kept threads on pk : vgood threads pk -> exists pk', toggleOverlapCounting on inter pk = Some pk' /\ vgood threads pk' /\
  pk_parts pk' = pk_parts pk /\ pk_box pk' = pk_box pk /\ pk_wall pk' = pk_wall pk /\ pk_counting pk' = on.
Proof.
  intros (Hi & Ht & Hr). destruct (counting_spec inter ov en HL on pk Hi) as (pk' & E & Hi' & Ep & Eb & Ew & Ec & Et & En).
  exists pk'. split; [exact E|]. split; [|auto]. split; [exact Hi'|]. split; [congruence|]. unfold rotated_properly, shapes_of. rewrite Ep. exact Hr.
Qed.
Lemma scaling_kept threads newBox pk : vgood threads pk -> constructed newBox ->
  exists pk1 e, tryScaling newBox inter pk = Some (pk1, e) /\ vgood threads pk1 /\ pk_size pk1 = pk_size pk /\
    pk_counting pk1 = pk_counting pk /\ vgood threads (revertScaling pk1) /\ total (revertScaling pk1) = total pk /\
    same_packing pk (revertScaling pk1) /\ e = scaling_result inter pk pk1 /\ pk_box pk1 = newBox /\
    (pk_counting pk = false -> in_convex inter = false -> e <> PosInf -> total pk1 = 0).
Proof.
  intros (Hi & Ht & Hr) Hb. apply constructed_valid in Hb.
  destruct (scaling_spec inter ov en HL newBox pk Hi Hb) as (pk1 & e & E & Hi1 & Ee & Eb & Es & Ew & Ec & Et & Hi2 & F1 & F2 & F3 & F4 & F5 & F6 & F7).
  assert (Rk : forall s, In s (map (rescaled (pk_box pk) newBox) (shapes_of pk)) -> isometry (sh_rot s)).
  { intros s Hs. apply in_map_iff in Hs. destruct Hs as (s0 & <- & Hs0). apply (Hr s0 Hs0). }
  assert (Same : same_packing pk (revertScaling pk1)).
  { unfold same_packing. rewrite F1, F2, F3, F4, F5, F6, (i_k _ _ Hi2), (i_k _ _ Hi), (i_range _ _ Hi2), (i_range _ _ Hi).
    split; [reflexivity|]. split; [reflexivity|]. split; [reflexivity|]. split; [reflexivity|]. split; [reflexivity|]. split; [reflexivity|].
    split; reflexivity. }
  exists pk1, e. split; [exact E|]. split.
  { split; [exact Hi1|]. split; [congruence|]. unfold rotated_properly. rewrite Es. exact Rk. }
  split. { unfold shapes_of in Es. apply (f_equal (@length _)) in Es. rewrite !map_length in Es. exact Es. }
  split; [exact Ec|].
  assert (V : vgood threads pk) by (split; auto).
  destruct (same_vgood inter threads pk (revertScaling pk1) V Same Hi2) as (V2 & T2 & _); [congruence|].
  split; [exact V2|]. split; [exact T2|]. split; [exact Same|]. split; [exact Ee|]. split; [exact Eb|].
  intros C Hc He. rewrite Ee in He. unfold scaling_result in He. rewrite C, Hc in He. cbn [andb] in He.
  change (tot pk1 inter + walls pk1 inter false) with (total pk1) in He.
  destruct (in_hard inter) eqn:Hh; cbn [negb] in He.
  - destruct (Nat.ltb_spec 0 (total pk1)); [congruence|lia].
  - exact (no_hard_tot inter ov en HL pk1 Hh).
Qed.
Lemma renormalize_kept threads th allow pk : vgood threads pk -> th < threads ->
  exists pk' n, renormalizeOrientations th inter allow pk = Some (pk', n) /\ vgood threads pk' /\ pk_size pk' = pk_size pk /\
    pk_box pk' = pk_box pk /\ pk_wall pk' = pk_wall pk /\ pk_counting pk' = pk_counting pk /\ shapes_of pk' = shapes_of pk /\
    (allow = false -> total pk' <= total pk).
Proof.
  intros (Hi & Ht & Hr) Hth. destruct (renormalize_spec inter ov en HL th allow pk Hi) as (pk' & bad & E & Hi' & Eb & Ew & Ec & Et & Ez & Ha & Hna); [lia|].
  assert (Es : shapes_of pk' = shapes_of pk).
  { destruct allow; [apply Ha; auto|]. destruct (Hna eq_refl) as (_ & _ & Hren & _).
    assert (El : length (shapes_of pk') = length (shapes_of pk)) by (unfold shapes_of; rewrite !map_length; exact Ez).
    apply nth_error_ext'. intros i. destruct (nth_error (shapes_of pk) i) as [s|] eqn:Ei.
    - pose proof (Hr s (nth_error_In _ _ Ei)) as Hs. destruct (Hren i s Ei) as [Hi1 Hi2].
      assert (Hsz : i < pk_size pk).
      { assert (i < length (shapes_of pk)) by (apply nth_error_Some; congruence). unfold shapes_of in H. rewrite map_length in H. exact H. }
      destruct (in_dec Nat.eq_dec i bad) as [Hb|Hb]; [apply Hi2; auto|].
      rewrite Hi1 by (auto; apply in_seq; lia). unfold fixed_shape. rewrite fix_fixed by exact Hs. destruct s; reflexivity.
    - apply nth_error_None in Ei. apply nth_error_None. lia. }
  exists pk', (length bad). split; [exact E|]. split; [split; [exact Hi'|split; [congruence|unfold rotated_properly; rewrite Es; exact Hr]]|].
  split; [exact Ez|]. split; [exact Eb|]. split; [exact Ew|]. split; [exact Ec|]. split; [exact Es|]. intros A. apply (Hna A).
Qed.
End State.
