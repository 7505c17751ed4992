(** Examples for moves, dynamic parameters and scaling in old input files. *)
From Coq Require Import Reals ZArith List Bool String Lia Lra Sorting.Sorted.
From Verif Require Import TextModel StringsModel StringsSpec StringsProofs RamsnapSpec GeomModel ScalingModel ScalingSpec InputModel LegacyModel LegacySpec LegacyProofs LegacyCommandProofs LegacyExamples FactoryModel FactorySpec FactoryProofs FactoryFinalProofs OptModel.
Import ListNotations.
Open Scope Z_scope.

(** *** Parameters inside others *)
Definition no_comma (t : text) : Prop := Forall (fun c => c <> 44) t.
Lemma one_piece t ps : no_comma t -> comma_list t ps -> (List.length ps <= 1)%nat.
Proof.
  intros N (F & [->|(A & B & ->)]).
  - destruct ps as [|p ps]; [cbn; lia|]. cbn [flat_map] in N. apply Forall_app in N. destruct N as (N & _). apply Forall_app in N. destruct N as (_ & N). inversion N. contradiction.
  - destruct ps as [|p [|q ps]]; [cbn; lia|cbn; lia|]. rewrite joined_cons in N. apply Forall_app in N. destruct N as (_ & N). inversion N. contradiction.
Qed.
Lemma pieces_length scan ts ps : pieces_text scan ts ps -> List.length ps = List.length ts.
Proof. induction 1; cbn; auto. Qed.
Lemma pieces_in scan ts ps c d : pieces_text scan ts ps -> In (c, d) ps -> exists t r u, In t ts /\ extract_size t = Some (c, r) /\ first_line r u /\ parameter_text scan u d.
Proof.
  induction 1 as [|t c' r u d' ts ps E L P _ IH]; [intros []|]. intros [H|H]; [injection H as -> ->; exists t, r, u; cbn; auto|]. destruct (IH H) as (t' & r' & u' & I & Q). exists t', r', u'. cbn. auto.
Qed.
Lemma sub_size t c r : extract_size t = Some (c, r) -> exists b, t = b ++ r.
Proof.
  unfold extract_size. destruct (skip_ws_split t) as (b & _ & E & _). remember (skip_ws t) as l1. clear Heql1.
  destruct (match l1 with 45 :: r0 => (true, r0) | 43 :: r0 => (false, r0) | _ => (false, l1) end) as [neg l2] eqn:E2.
  assert (S2 : exists b', l1 = b' ++ l2).
  { destruct l1 as [|a l1]; [injection E2 as _ <-; exists []; reflexivity|]. assert (X : l2 = l1 \/ l2 = a :: l1). { repeat (match type of E2 with context[match ?p with _ => _ end] => destruct p end); injection E2 as _ <-; auto. } destruct X as [->| ->]; [exists [a]|exists []]; reflexivity. }
  assert (D : exists b2, l2 = b2 ++ snd (take_digits l2)). { clear. induction l2 as [|x l (b2 & IH)]; [exists []; reflexivity|]. cbn [take_digits]. destruct (is_digit x); cbn [snd]; [exists (x :: b2); cbn; rewrite <- IH; reflexivity|exists []; reflexivity]. }
  destruct S2 as (b' & S2). destruct D as (b2 & D). destruct (take_digits l2) as [u rest]. cbn [snd] in D. intros H. assert (r = rest). { destruct u; try discriminate; (destruct (Z.leb _ _); [discriminate|]); injection H as _ <-; reflexivity. } subst r.
  exists (b ++ b' ++ b2). rewrite E, S2, D, <- !app_assoc. reflexivity.
Qed.
Lemma nested_one scan t ps c qs : create_parameter scan t = Some (DPiecewise ps) -> In (c, DPiecewise qs) ps -> List.length qs = 1%nat.
Proof.
  intros H I. apply parameter_iff in H. inversion H as [| | | |? args texts ? P _ Cm Ps _ _]; subst. destruct (pieces_in _ _ _ _ _ Ps I) as (t' & r & u & It & Es & Li & Pu).
  destruct Cm as (F & _). rewrite Forall_forall in F. specialize (F t' It). destruct (sub_size _ _ _ Es) as (b & ->). apply Forall_app in F. destruct F as (_ & F).
  assert (Nu : no_comma u) by (destruct Li as (_ & _ & [->|(r' & ->)]); [exact F|apply Forall_app in F; apply F]).
  inversion Pu as [| | | |? args' texts' ? P' _ Cm' Ps' (d0 & ps0 & E0) _]; subst. assert (Na : no_comma args').
  { destruct P' as (b1 & e & -> & _). apply Forall_app in Nu. destruct Nu as (_ & Nu). apply Forall_app in Nu. destruct Nu as (_ & Nu). apply Forall_app in Nu. apply Nu. }
  pose proof (one_piece _ _ Na Cm') as L. rewrite <- (pieces_length _ _ _ Ps') in L. cbn [List.length] in *. lia.
Qed.

(** *** Samples, with natural numbers *)
Lemma moves_sample : create_move digits_scan (str " flip 5 times") = Some (Flip 5) /\ create_move digits_scan (str "flip ") = Some (Flip 10) /\ create_move digits_scan (str "flip -18446744073709551615") = Some (Flip 1) /\ create_move digits_scan (str "jump 1") = None.
Proof. repeat split; vm_compute; reflexivity. Qed.
Lemma scaler_sample : forall step, create_scaler (str "independent log (xy)z") step = Some (Some (Log [(true, true, false); (false, false, true)] step true)) /\
  create_scaler (str "linear [xyz]") step = None /\ create_scaler (str "independent delta V") step = None.
Proof. intros step. repeat split; reflexivity. Qed.
Lemma parameter_sample : create_parameter digits_scan (str "piecewise 0 5, 10 linear 1 2 , 20 exp 3 1") = Some (DPiecewise [(0, DConst 5); (10, DLinear 2 1); (20, DExp 3 1)]) /\
  create_parameter digits_scan (str "7") = Some (DConst 7) /\ create_parameter digits_scan (str "const 7 8") = None /\ create_parameter digits_scan (str "piecewise 5 1") = None /\
  create_parameter digits_scan (str "piecewise 0 piecewise 0 1, 5 2") = Some (DPiecewise [(0, DPiecewise [(0, DConst 1)]); (5, DConst 2)]).
Proof. repeat split; vm_compute; reflexivity. Qed.
Lemma steps_sample : create_move digits_scan (str "rototranslation 1 2 3") = Some (Rototranslation 1 (Some 2%R) 3) /\ create_move digits_scan (str "rotation 1 2") = Some (Rotation 1) /\ create_move digits_scan (str "translation 2 1") = None.
Proof.
  assert (P : forall x, 0 < x -> Rltb 0 (IZR x) = true) by (intros x H; apply rlt_iff, IZR_lt, H).
  repeat split.
  - change (create_rototranslation digits_scan (str " 1 2 3") = Some (Rototranslation 1 (Some 2%R) 3)). unfold create_rototranslation. change (digits_scan (str " 1 2 3")) with (Some (1%R, str " 2 3")). cbn [obind fst snd]. rewrite (P 1) by lia.
    change (isAnythingLeft (str " 2 3")) with true. change (digits_scan (str " 2 3")) with (Some (2%R, str " 3")). cbv iota. cbn [obind fst snd]. rewrite (P 2) by lia. change (isAnythingLeft (str " 3")) with true. change (digits_scan (str " 3")) with (Some (3%R, @nil Z)). cbv iota. cbn [obind fst snd].
    rewrite (P 3) by lia. rewrite (proj2 (rle_iff 1 3)) by lra. reflexivity.
  - change (create_rotation digits_scan (str " 1 2") = Some (Rotation 1)). unfold create_rotation. change (digits_scan (str " 1 2")) with (Some (1%R, str " 2")). cbn [obind fst snd]. rewrite (P 1) by lia. reflexivity.
  - change (create_translation digits_scan (str " 2 1") = None). unfold create_translation. change (digits_scan (str " 2 1")) with (Some (2%R, str " 1")). cbn [obind fst snd]. rewrite (P 2) by lia. change (isAnythingLeft (str " 1")) with true. change (digits_scan (str " 1")) with (Some (1%R, @nil Z)). cbv iota. cbn [obind fst snd].
    rewrite (P 1) by lia. destruct (Rleb 2 1) eqn:E; [apply rle_iff in E; lra|reflexivity].
Qed.
Lemma ignored_move : ~ (forall scan t m ws, scanner scan -> create_move scan t = Some (Rotation m) -> words_of t ws -> List.length ws = 2%nat).
Proof.
  intros H. assert (W : words_of (str "rotation 1 2") (map str ["rotation"; "1"; "2"]%string)) by (apply tokenize_words_iff; reflexivity).
  specialize (H digits_scan (str "rotation 1 2") 1%R _ digits_scanner (proj1 (proj2 steps_sample)) W). discriminate H.
Qed.
Lemma negative_flip : ~ (forall scan w n, create_move scan (str "flip -" ++ w) <> Some (Flip n)).
Proof. intros H. apply (H digits_scan (str "18446744073709551615") 1). vm_compute. reflexivity. Qed.
