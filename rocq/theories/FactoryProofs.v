(** Proofs about moves and dynamic parameters of old input files. *)
From Coq Require Import Reals ZArith List Bool String Lia Lra Permutation Sorting.Sorted.
From Verif Require Import TextModel StringsModel StringsSpec StringsProofs RamsnapSpec GeomModel ScalingModel ScalingSpec ScalingProofs InputModel LegacyModel LegacySpec LegacyProofs LegacyCommandProofs FactoryModel FactorySpec OptModel.
Import ListNotations.
Open Scope Z_scope.

Lemma rlt_iff a b : Rltb a b = true <-> (a < b)%R. Proof. unfold Rltb. destruct (Rlt_dec a b); split; intros; auto; discriminate. Qed.
Lemma rle_iff a b : Rleb a b = true <-> (a <= b)%R. Proof. unfold Rleb. destruct (Rle_dec a b); split; intros; auto; discriminate. Qed.
Lemma skip_nil l : skip_ws l = [] <-> spaces l.
Proof.
  split; [|apply skip_all]. induction l as [|c l IH]; intros H; [constructor|]. cbn in H. destruct (is_space c) eqn:C; [|discriminate]. constructor; [exact C|exact (IH H)].
Qed.
Lemma left_spec l : isAnythingLeft l = true <-> ~ spaces l.
Proof.
  unfold isAnythingLeft. rewrite <- skip_nil. destruct l as [|c l]; [split; [discriminate|intros H; destruct H; reflexivity]|]. destruct (skip_ws (c :: l)); split; intros; auto; try discriminate.
Qed.
Lemma left_spec_f l : isAnythingLeft l = false <-> spaces l.
Proof. destruct (isAnythingLeft l) eqn:E; split; intros H; auto; try discriminate; [apply left_spec in E; contradiction|]. rewrite <- skip_nil. unfold isAnythingLeft in E. destruct l; [reflexivity|]. destruct (skip_ws (z :: l)); [reflexivity|discriminate]. Qed.
Lemma parsed_spec l : fully_parsed l = true <-> spaces l.
Proof. unfold fully_parsed. rewrite <- skip_nil. destruct (skip_ws l); split; intros; auto; discriminate. Qed.
Lemma headed_iff t name args : extract_word t = Some (name, args) <-> headed t name args.
Proof. rewrite extract_word_iff. split; intros (b & H); exists b; tauto. Qed.

Section Scan.
Variable scan : text -> option (R * text).
Hypothesis good : scanner scan.
Lemma scan_spaces l : spaces l -> scan l = None.
Proof.
  intros H. assert (E : scan [] = None). { destruct (scan []) as [[x r]|] eqn:E; [|reflexivity]. apply (sc_consumes _ good) in E. cbn in E. lia. }
  induction H as [|c l C _ IH]; [exact E|]. rewrite (sc_skips _ good) by exact C. exact IH.
Qed.
Lemma scan_left l x r : scan l = Some (x, r) -> ~ spaces l. Proof. intros E H. rewrite scan_spaces in E by exact H. discriminate. Qed.

Ltac inv H := inversion H; subst; clear H.
Lemma num1 t x r : numbers scan t [x] r <-> scan t = Some (x, r).
Proof. split; intros H. - inv H. match goal with K : numbers _ _ [] _ |- _ => inv K end. assumption. - econstructor; [exact H|constructor]. Qed.
Lemma num2 t x y r : numbers scan t [x; y] r <-> exists r1, scan t = Some (x, r1) /\ scan r1 = Some (y, r).
Proof. split. - intros H. inv H. match goal with K : numbers _ _ [y] _ |- _ => apply num1 in K end. eauto. - intros (r1 & A & B). econstructor; [exact A|]. apply num1. exact B. Qed.
Lemma num3 t x y z r : numbers scan t [x; y; z] r <-> exists r1 r2, scan t = Some (x, r1) /\ scan r1 = Some (y, r2) /\ scan r2 = Some (z, r).
Proof. split. - intros H. inv H. match goal with K : numbers _ _ [y; z] _ |- _ => apply num2 in K; destruct K as (r2 & A & B) end. eauto 8. - intros (r1 & r2 & A & B & C). econstructor; [exact A|]. apply num2. eauto. Qed.

(** *** Moves *)
Lemma rototranslation_iff l m : create_rototranslation scan l = Some m <->
  exists x rot max, m = Rototranslation x rot max /\ (0 < x)%R /\
      match rot with
      | None => max = 0%R /\ only_numbers scan l [x]
      | Some y => (0 < y)%R /\ ((max = 0%R /\ only_numbers scan l [x; y]) \/ ((0 < max)%R /\ (x <= max)%R /\ exists r, numbers scan l [x; y; max] r))
      end.
Proof.
  unfold create_rototranslation, only_numbers. split.
  - destruct (scan l) as [[x r]|] eqn:E; cbn [obind fst snd]; [|discriminate]. destruct (Rltb 0 x) eqn:P; [|discriminate]. apply rlt_iff in P.
    destruct (isAnythingLeft r) eqn:L; [|intros H; injection H as <-; apply left_spec_f in L; exists x, None, 0%R; repeat split; auto; exists r; rewrite num1; auto].
    destruct (scan r) as [[y r2]|] eqn:E2; cbn [obind fst snd]; [|discriminate]. destruct (Rltb 0 y) eqn:P2; [|discriminate]. apply rlt_iff in P2.
    destruct (isAnythingLeft r2) eqn:L2; [|intros H; injection H as <-; apply left_spec_f in L2; exists x, (Some y), 0%R; split; [reflexivity|]; split; [exact P|]; split; [exact P2|]; left; split; [reflexivity|]; exists r2; rewrite num2; eauto].
    destruct (scan r2) as [[z r3]|] eqn:E3; cbn [obind fst snd]; [|discriminate]. destruct (Rltb 0 z) eqn:P3; cbn [andb]; [|discriminate]. destruct (Rleb x z) eqn:Q; [|discriminate]. apply rlt_iff in P3. apply rle_iff in Q.
    intros H. injection H as <-. exists x, (Some y), z. split; [reflexivity|]. split; [exact P|]. split; [exact P2|]. right. split; [exact P3|]. split; [exact Q|]. exists r3. rewrite num3. eauto 8.
  - intros (x & [y|] & max & -> & P & H).
    + destruct H as (P2 & [(-> & r & N & S)|(P3 & Q & r & N)]).
      * rewrite num2 in N. destruct N as (r1 & A & B). rewrite A. cbn [obind fst snd]. rewrite (proj2 (rlt_iff _ _) P), (proj2 (left_spec _) (scan_left _ _ _ B)), B. cbn [obind fst snd]. rewrite (proj2 (rlt_iff _ _) P2), (proj2 (left_spec_f _) S). reflexivity.
      * rewrite num3 in N. destruct N as (r1 & r2 & A & B & C). rewrite A. cbn [obind fst snd]. rewrite (proj2 (rlt_iff _ _) P), (proj2 (left_spec _) (scan_left _ _ _ B)), B. cbn [obind fst snd]. rewrite (proj2 (rlt_iff _ _) P2), (proj2 (left_spec _) (scan_left _ _ _ C)), C. cbn [obind fst snd].
        rewrite (proj2 (rlt_iff _ _) P3), (proj2 (rle_iff _ _) Q). reflexivity.
    + destruct H as (-> & r & N & S). rewrite num1 in N. rewrite N. cbn [obind fst snd]. rewrite (proj2 (rlt_iff _ _) P), (proj2 (left_spec_f _) S). reflexivity.
Qed.
Lemma translation_iff l m : create_translation scan l = Some m <->
  exists x max, m = Translation x max /\ (0 < x)%R /\ ((max = 0%R /\ only_numbers scan l [x]) \/ ((0 < max)%R /\ (x <= max)%R /\ exists r, numbers scan l [x; max] r)).
Proof.
  unfold create_translation, only_numbers. split.
  - destruct (scan l) as [[x r]|] eqn:E; cbn [obind fst snd]; [|discriminate]. destruct (Rltb 0 x) eqn:P; [|discriminate]. apply rlt_iff in P.
    destruct (isAnythingLeft r) eqn:L; [|intros H; injection H as <-; apply left_spec_f in L; exists x, 0%R; repeat split; auto; left; split; [reflexivity|]; exists r; rewrite num1; auto].
    destruct (scan r) as [[z r3]|] eqn:E3; cbn [obind fst snd]; [|discriminate]. destruct (Rltb 0 z) eqn:P3; cbn [andb]; [|discriminate]. destruct (Rleb x z) eqn:Q; [|discriminate]. apply rlt_iff in P3. apply rle_iff in Q.
    intros H. injection H as <-. exists x, z. split; [reflexivity|]. split; [exact P|]. right. split; [exact P3|]. split; [exact Q|]. exists r3. rewrite num2. eauto 8.
  - intros (x & max & -> & P & [(-> & r & N & S)|(P3 & Q & r & N)]).
    + rewrite num1 in N. rewrite N. cbn [obind fst snd]. rewrite (proj2 (rlt_iff _ _) P), (proj2 (left_spec_f _) S). reflexivity.
    + rewrite num2 in N. destruct N as (r1 & A & B). rewrite A. cbn [obind fst snd]. rewrite (proj2 (rlt_iff _ _) P), (proj2 (left_spec _) (scan_left _ _ _ B)), B. cbn [obind fst snd].
      rewrite (proj2 (rlt_iff _ _) P3), (proj2 (rle_iff _ _) Q). reflexivity.
Qed.
Lemma rotation_iff l m : create_rotation scan l = Some m <-> exists y r, m = Rotation y /\ (0 < y)%R /\ numbers scan l [y] r.
Proof.
  unfold create_rotation. split.
  - destruct (scan l) as [[x r]|] eqn:E; cbn [obind fst snd]; [|discriminate]. destruct (Rltb 0 x) eqn:P; [|discriminate]. apply rlt_iff in P. intros H. injection H as <-. exists x, r. rewrite num1. auto.
  - intros (y & r & -> & P & N). rewrite num1 in N. rewrite N. cbn [obind fst snd]. rewrite (proj2 (rlt_iff _ _) P). reflexivity.
Qed.
Lemma flip_iff l m : create_flip l = Some m <-> exists n, m = Flip n /\ ((spaces l /\ n = 10) \/ (~ spaces l /\ 0 < n /\ exists r, extract_size l = Some (n, r))).
Proof.
  unfold create_flip. split.
  - destruct (isAnythingLeft l) eqn:L; [apply left_spec in L|apply left_spec_f in L; intros H; injection H as <-; exists 10; auto].
    destruct (extract_size l) as [[n r]|] eqn:E; cbn [obind fst snd]; [|discriminate]. destruct (Z.ltb_spec 0 n) as [P|P]; [|discriminate]. intros H. injection H as <-. exists n. split; [reflexivity|]. right. eauto.
  - intros (n & -> & [(S & ->)|(S & P & r & E)]).
    + rewrite (proj2 (left_spec_f _) S). reflexivity.
    + rewrite (proj2 (left_spec _) S), E. cbn [obind fst snd]. apply Z.ltb_lt in P. rewrite P. reflexivity.
Qed.
Theorem move_iff t m : create_move scan t = Some m <-> move_text scan t m.
Proof.
  unfold create_move. split.
  - destruct (extract_word t) as [[name args]|] eqn:E; cbn [obind fst snd]; [|discriminate]. apply headed_iff in E.
    destruct (text_eqb name (str "rototranslation")) eqn:N1; [apply eqb_eq in N1; subst name; intros H; apply rototranslation_iff in H; destruct H as (x & rot & max & -> & H); cbn; eauto|].
    destruct (text_eqb name (str "translation")) eqn:N2; [apply eqb_eq in N2; subst name; intros H; apply translation_iff in H; destruct H as (x & max & -> & H); cbn; eauto|].
    destruct (text_eqb name (str "rotation")) eqn:N3; [apply eqb_eq in N3; subst name; intros H; apply rotation_iff in H; destruct H as (x & max & -> & H); cbn; destruct H; eauto 8|].
    destruct (text_eqb name (str "flip")) eqn:N4; [apply eqb_eq in N4; subst name; intros H; apply flip_iff in H; destruct H as (x & -> & H); cbn; eauto|]. discriminate.
  - destruct m as [x rot max|x max|y|n]; cbn [move_text].
    + intros (args & H & P). apply headed_iff in H. rewrite H. cbn [obind fst snd]. change (text_eqb (str "rototranslation") (str "rototranslation")) with true. cbv iota. apply rototranslation_iff. eauto 8.
    + intros (args & H & P). apply headed_iff in H. rewrite H. cbn [obind fst snd]. change (text_eqb (str "translation") (str "rototranslation")) with false. change (text_eqb (str "translation") (str "translation")) with true. cbv iota. apply translation_iff. eauto 8.
    + intros (args & r & H & P). apply headed_iff in H. rewrite H. cbn [obind fst snd]. change (text_eqb (str "rotation") (str "rototranslation")) with false. change (text_eqb (str "rotation") (str "translation")) with false. change (text_eqb (str "rotation") (str "rotation")) with true. cbv iota. apply rotation_iff. destruct P. eauto 8.
    + intros (args & H & P). apply headed_iff in H. rewrite H. cbn [obind fst snd]. change (text_eqb (str "flip") (str "rototranslation")) with false. change (text_eqb (str "flip") (str "translation")) with false. change (text_eqb (str "flip") (str "rotation")) with false. change (text_eqb (str "flip") (str "flip")) with true. cbv iota. apply flip_iff. eauto.
Qed.
End Scan.
