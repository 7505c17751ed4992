(** Proofs about dynamic parameters and scaling of the box in old input files. *)
From Coq Require Import Reals ZArith List Bool String Lia Lra Permutation Sorting.Sorted.
From Verif Require Import TextModel StringsModel StringsSpec StringsProofs RamsnapSpec GeomModel ScalingModel ScalingSpec ScalingProofs InputModel LegacyModel LegacySpec LegacyProofs LegacyCommandProofs FactoryModel FactorySpec FactoryProofs OptModel.
Import ListNotations.
Open Scope Z_scope.

(** *** Lines and lists *)
Lemma getlines_nil s : getlines 44 s = [] -> s = [].
Proof. destruct s as [|c s]; [reflexivity|]. cbn [getlines]. destruct (Z.eqb c 44); [discriminate|]. destruct (getlines 44 s); discriminate. Qed.
Lemma joined_cons (p q : text) ps : joined_by [44] (p :: q :: ps) = p ++ [44] ++ joined_by [44] (q :: ps). Proof. reflexivity. Qed.
Lemma comma_lines t : comma_list t (getlines 44 t).
Proof.
  induction t as [|c t (F & IH)]; [split; [constructor|left; reflexivity]|]. cbn [getlines]. destruct (Z.eqb_spec c 44) as [->|N].
  - split; [constructor; [constructor|exact F]|]. destruct IH as [IH|(A & B & C)]; [left; rewrite IH at 1; reflexivity|right].
    split; [discriminate|]. destruct (getlines 44 t) as [|q ps]; [contradiction A; reflexivity|]. split; [exact B|]. rewrite C at 1. reflexivity.
  - destruct (getlines 44 t) as [|x xs] eqn:G.
    + apply getlines_nil in G. subst t. split; [repeat constructor; exact N|]. right. split; [discriminate|]. split; [discriminate|reflexivity].
    + inversion F as [|? ? Fx Fxs]; subst. split; [constructor; [constructor; assumption|assumption]|]. destruct IH as [IH|(A & B & C)]; [left; rewrite IH; reflexivity|right]. split; [discriminate|].
      split; [destruct xs; [discriminate|exact B]|]. rewrite C. destruct xs; reflexivity.
Qed.
Lemma lines_comma ps : forall t, comma_list t ps -> getlines 44 t = ps.
Proof.
  induction ps as [|p ps IH]; intros t (F & H).
  - destruct H as [->|(A & _)]; [reflexivity|contradiction A; reflexivity].
  - inversion F as [|? ? Fp Fps]; subst. destruct H as [->|(_ & B & ->)].
    + cbn [flat_map]. rewrite <- app_assoc. cbn [app]. rewrite getlines_piece by exact Fp. f_equal. apply IH. split; [exact Fps|left; reflexivity].
    + destruct ps as [|q ps]; [cbn [joined_by]; rewrite getlines_last by exact Fp; destruct p; [contradiction B; reflexivity|reflexivity]|].
      rewrite joined_cons. cbn [app]. rewrite getlines_piece by exact Fp. f_equal. apply IH. split; [exact Fps|right; split; [discriminate|split; [exact B|reflexivity]]].
Qed.
Lemma comma_iff t ps : getlines 44 t = ps <-> comma_list t ps.
Proof. split; [intros <-; apply comma_lines|apply lines_comma]. Qed.
Lemma comma_short t p : In p (getlines 44 t) -> (List.length p <= List.length t)%nat.
Proof.
  revert p. induction t as [|c t IH]; intros p; cbn [getlines]; [intros []|]. destruct (Z.eqb c 44).
  - intros [<-|H]; [cbn; lia|]. apply IH in H. cbn. lia.
  - destruct (getlines 44 t) as [|x xs]; [intros [<-|[]]; cbn; lia|]. intros [<-|H]; [specialize (IH x (or_introl eq_refl)); cbn; lia|]. specialize (IH p (or_intror H)). cbn. lia.
Qed.
Lemma take_line_spec t : Forall (fun c => c <> newline) (fst (take_line newline t)) /\ (t = fst (take_line newline t) \/ exists r, t = fst (take_line newline t) ++ newline :: r).
Proof.
  induction t as [|c t (F & IH)]; [split; [constructor|left; reflexivity]|]. cbn [take_line]. destruct (Z.eqb_spec c newline) as [->|N].
  - cbn [fst]. split; [constructor|right; exists t; reflexivity].
  - cbn [fst]. split; [constructor; assumption|]. destruct IH as [IH|(r & IH)]; [left; rewrite IH at 1; reflexivity|right; exists r; rewrite IH at 1; reflexivity].
Qed.
Lemma line_take u : Forall (fun c => c <> newline) u -> forall t, (t = u \/ exists r, t = u ++ newline :: r) -> fst (take_line newline t) = u.
Proof.
  induction 1 as [|c u N F IH]; intros t H.
  - destruct H as [->|(r & ->)]; [reflexivity|]. cbn. reflexivity.
  - destruct t as [|c' t]; [destruct H as [H|(r & H)]; discriminate|]. assert (E : c' = c /\ (t = u \/ exists r, t = u ++ newline :: r)) by (destruct H as [H|(r & H)]; injection H as -> ->; eauto).
    destruct E as (-> & E). cbn [take_line]. destruct (Z.eqb_spec c newline); [contradiction|]. cbn [fst]. rewrite (IH t E). reflexivity.
Qed.
Lemma line_iff t u : (exists r, getline newline t = Some (u, r)) <-> first_line t u.
Proof.
  unfold first_line. destruct (take_line_spec t) as (F & E). split.
  - intros (r & H). unfold getline in H. destruct t as [|c t]; [discriminate|]. assert (U : fst (take_line newline (c :: t)) = u) by (assert (H1 : take_line newline (c :: t) = (u, r)) by congruence; rewrite H1; reflexivity). rewrite U in F, E. split; [discriminate|]. auto.
  - intros (N & F' & E'). exists (snd (take_line newline t)). unfold getline. destruct t as [|c t]; [contradiction N; reflexivity|]. rewrite <- (line_take u F' _ E') at 1. rewrite <- surjective_pairing. reflexivity.
Qed.
Lemma line_short t u : first_line t u -> (List.length u <= List.length t)%nat.
Proof. intros (_ & _ & [->|(r & ->)]); [lia|]. rewrite app_length. lia. Qed.
Lemma digits_short l : (List.length (snd (take_digits l)) <= List.length l)%nat /\ (fst (take_digits l) <> Decimal.Nil -> (List.length (snd (take_digits l)) < List.length l)%nat).
Proof.
  induction l as [|c l (IH & _)]; [split; [cbn; lia|intros H; contradiction H; reflexivity]|]. cbn [take_digits]. destruct (is_digit c); cbn [fst snd List.length]; [split; intros; lia|]. split; [lia|]. intros H. contradiction H. reflexivity.
Qed.
Lemma skip_short l : (List.length (skip_ws l) <= List.length l)%nat.
Proof. destruct (skip_ws_split l) as (w & _ & E & _). rewrite E at 2. rewrite app_length. lia. Qed.
Lemma size_short t c r : extract_size t = Some (c, r) -> (List.length r < List.length t)%nat.
Proof.
  unfold extract_size. pose proof (skip_short t) as S. remember (skip_ws t) as l1. clear Heql1.
  destruct (match l1 with 45 :: r0 => (true, r0) | 43 :: r0 => (false, r0) | _ => (false, l1) end) as [neg l2] eqn:E2.
  assert (S2 : (List.length l2 <= List.length l1)%nat).
  { destruct l1 as [|a l1]; [injection E2 as _ <-; lia|]. assert (X : l2 = l1 \/ l2 = a :: l1). { repeat (match type of E2 with context[match ?p with _ => _ end] => destruct p end); injection E2 as _ <-; auto. } destruct X as [->| ->]; cbn; lia. }
  destruct (digits_short l2) as (_ & D). destruct (take_digits l2) as [u rest] eqn:T. cbn [fst snd] in D. destruct u; try discriminate; (destruct (Z.leb _ _); [discriminate|]); intros H; injection H as _ <-; specialize (D ltac:(discriminate)); lia.
Qed.
Lemma some_iff {A B} (f : A -> option B) l : forall ys, all_some f l = Some ys <-> Forall2 (fun x y => f x = Some y) l ys.
Proof.
  induction l as [|x l IH]; intros ys; cbn [all_some].
  - split; [intros H; injection H as <-; constructor|intros H; inversion H; reflexivity].
  - split.
    + destruct (f x) as [y|] eqn:E; cbn [obind]; [|discriminate]. destruct (all_some f l) as [ys'|]; cbn [obind]; [|discriminate]. intros H. injection H as <-. constructor; [exact E|]. apply IH. reflexivity.
    + intros H. inversion H as [|? y ? ys' E F]; subst. rewrite E. cbn [obind]. apply IH in F. rewrite F. reflexivity.
Qed.
Lemma sorted_iff l : cycles_sorted l = true <-> Sorted Z.le (map fst l).
Proof.
  induction l as [|x [|y l] IH]; [split; [constructor|reflexivity]|split; [repeat constructor|reflexivity]|].
  change (cycles_sorted (x :: y :: l)) with (negb (fst y <? fst x) && cycles_sorted (y :: l)). rewrite andb_true_iff, IH, negb_true_iff, Z.ltb_ge. cbn [map]. split.
  - intros (A & B). constructor; [exact B|]. constructor. exact A.
  - intros H. inversion H as [|? ? S Hd]; subst. inversion Hd; subst. auto.
Qed.
Lemma piecewise_iff l d : make_piecewise l = Some d <-> d = DPiecewise l /\ (exists e l', l = (0, e) :: l') /\ Sorted Z.le (map fst l).
Proof.
  unfold make_piecewise. destruct l as [|[c e] l]; [split; [discriminate|intros (_ & (e & l' & H) & _); discriminate]|]. cbn [fst]. rewrite <- sorted_iff. destruct (Z.eqb_spec c 0) as [->|N]; cbn [andb].
  - destruct (cycles_sorted ((0, e) :: l)); split; try discriminate; [intros H; injection H as <-; eauto 8|intros (-> & _); reflexivity|intros (_ & _ & H); discriminate].
  - split; [discriminate|]. intros (_ & (e' & l' & H) & _). injection H as E _ _. contradiction.
Qed.

Section Scan.
Variable scan : text -> option (R * text).
Lemma convert_iff w x : convert_number scan w = Some x <-> is_number scan w x.
Proof.
  unfold convert_number, is_number. split.
  - destruct (scan w) as [[y r]|]; cbn [obind fst snd]; [|discriminate]. destruct (skip_ws r) eqn:E; [|discriminate]. intros H. injection H as <-. apply skip_nil in E. eauto.
  - intros (r & -> & S). cbn [obind fst snd]. rewrite (skip_all _ S). reflexivity.
Qed.
Lemma convert_none w : convert_number scan w = None <-> forall y, ~ is_number scan w y.
Proof. destruct (convert_number scan w) as [x|] eqn:E; split; auto; try discriminate. - intros H. apply convert_iff in E. destruct (H x E). - intros _ y H. apply convert_iff in H. congruence. Qed.
Lemma one_number l (f : R -> dyn) d : (a <- scan l ;; if fully_parsed (snd a) then Some (f (fst a)) else None) = Some d <-> exists x, d = f x /\ only_numbers scan l [x].
Proof.
  unfold only_numbers. split.
  - destruct (scan l) as [[x r]|] eqn:E; cbn [obind fst snd]; [|discriminate]. destruct (fully_parsed r) eqn:P; [|discriminate]. apply parsed_spec in P. intros H. injection H as <-. exists x. split; [reflexivity|]. exists r. rewrite num1. auto.
  - intros (x & -> & r & N & S). rewrite num1 in N. rewrite N. cbn [obind fst snd]. apply parsed_spec in S. rewrite S. reflexivity.
Qed.
Lemma two_numbers l (f : R -> R -> dyn) d : (a <- scan l ;; b <- scan (snd a) ;; if fully_parsed (snd b) then Some (f (fst a) (fst b)) else None) = Some d <-> exists x y, d = f x y /\ only_numbers scan l [x; y].
Proof.
  unfold only_numbers. split.
  - destruct (scan l) as [[x r]|] eqn:E; cbn [obind fst snd]; [|discriminate]. destruct (scan r) as [[y r2]|] eqn:E2; cbn [obind fst snd]; [|discriminate]. destruct (fully_parsed r2) eqn:P; [|discriminate]. apply parsed_spec in P. intros H. injection H as <-. exists x, y. split; [reflexivity|]. exists r2. rewrite num2. eauto.
  - intros (x & y & -> & r & N & S). rewrite num2 in N. destruct N as (r1 & A & B). rewrite A. cbn [obind fst snd]. rewrite B. cbn [obind fst snd]. apply parsed_spec in S. rewrite S. reflexivity.
Qed.
Definition piece_of (f : nat) (t : text) : option (Z * dyn) := c <- extract_size t ;; u <- getline newline (snd c) ;; d <- create_parameter_in scan f (fst u) ;; Some (fst c, d).
Lemma in_step f s : create_parameter_in scan (S f) s =
    (w <- extract_word (trim s) ;;
    match convert_number scan (fst w) with
    | Some x => if fully_parsed (snd w) then Some (DConst x) else None
    | None =>
      if text_eqb (fst w) (str "const") then a <- scan (snd w) ;; if fully_parsed (snd a) then Some (DConst (fst a)) else None
      else if text_eqb (fst w) (str "linear") then a <- scan (snd w) ;; b <- scan (snd a) ;; if fully_parsed (snd b) then Some (DLinear (fst b) (fst a)) else None
      else if text_eqb (fst w) (str "exp") then a <- scan (snd w) ;; b <- scan (snd a) ;; if fully_parsed (snd b) then Some (DExp (fst a) (fst b)) else None
      else if text_eqb (fst w) (str "piecewise") then ps <- all_some (piece_of f) (getlines 44 (snd w)) ;; make_piecewise ps
      else None
    end).
Proof. reflexivity. Qed.
Lemma piece_iff f t c d : piece_of f t = Some (c, d) <-> exists r u, extract_size t = Some (c, r) /\ first_line r u /\ create_parameter_in scan f u = Some d.
Proof.
  unfold piece_of. split.
  - destruct (extract_size t) as [[c' r]|]; cbn [obind fst snd]; [|discriminate]. destruct (getline newline r) as [[u r']|] eqn:G; cbn [obind fst snd]; [|discriminate]. destruct (create_parameter_in scan f u) as [d'|] eqn:C; cbn [obind]; [|discriminate].
    intros H. injection H as <- <-. exists r, u. split; [reflexivity|]. split; [|exact C]. apply line_iff. eauto.
  - intros (r & u & -> & L & C). cbn [obind fst snd]. apply line_iff in L. destruct L as (r' & ->). cbn [obind fst snd]. rewrite C. reflexivity.
Qed.
Lemma parameter_sound : forall f s d, create_parameter_in scan f s = Some d -> parameter_text scan s d.
Proof.
  induction f as [|f IH]; intros s d; [discriminate|]. rewrite in_step. destruct (extract_word (trim s)) as [[w args]|] eqn:E; cbn [obind fst snd]; [|discriminate]. apply parts_iff in E.
  destruct (convert_number scan w) as [x|] eqn:C.
  - destruct (fully_parsed args) eqn:P; [|discriminate]. apply parsed_spec in P. apply convert_iff in C. intros H. injection H as <-. apply (plain_number scan s w args); assumption.
  - assert (NN : forall y, ~ is_number scan w y) by (apply convert_none; exact C).
    destruct (text_eqb w (str "const")) eqn:N1; [apply eqb_eq in N1; subst w; intros H; apply (one_number args DConst) in H; destruct H as (x & -> & O); apply (const_text scan s args); assumption|].
    destruct (text_eqb w (str "linear")) eqn:N2; [apply eqb_eq in N2; subst w; intros H; apply (two_numbers args (fun x y => DLinear y x)) in H; destruct H as (x & y & -> & O); apply (linear_text scan s args); assumption|].
    destruct (text_eqb w (str "exp")) eqn:N3; [apply eqb_eq in N3; subst w; intros H; apply (two_numbers args DExp) in H; destruct H as (x & y & -> & O); apply (exp_text scan s args); assumption|].
    destruct (text_eqb w (str "piecewise")) eqn:N4; [|discriminate]. apply eqb_eq in N4. subst w.
    destruct (all_some (piece_of f) (getlines 44 args)) as [ps|] eqn:A; cbn [obind]; [|discriminate]. intros H. apply piecewise_iff in H. destruct H as (-> & Z0 & So).
    apply (piecewise_text scan s args (getlines 44 args)); try assumption; [apply comma_lines|]. apply some_iff in A. clear - A IH. induction A as [|t [c d] ts ps P _ IHA]; [constructor|].
    apply piece_iff in P. destruct P as (r & u & P1 & P2 & P3). apply (one_more_piece scan t c r u d ts ps); auto.
Qed.
Scheme parameter_ind2 := Minimality for parameter_text Sort Prop with pieces_ind2 := Minimality for pieces_text Sort Prop.
Lemma parts_short t w args : headed_trimmed t w args -> (List.length args < List.length t)%nat.
Proof. intros (b & e & -> & _ & _ & (N & _) & _). rewrite !app_length. destruct w; [contradiction N; reflexivity|]. cbn. lia. Qed.
Lemma parameter_complete s d : parameter_text scan s d -> forall f, (List.length s < f)%nat -> create_parameter_in scan f s = Some d.
Proof.
  revert s d. apply (parameter_ind2 scan (fun s d => forall f, (List.length s < f)%nat -> create_parameter_in scan f s = Some d)
    (fun ts ps => forall f, Forall (fun t => (List.length t <= f)%nat) ts -> Forall2 (fun t p => piece_of f t = Some p) ts ps)).
  - intros t w args x P N S [|f] L; [lia|]. rewrite in_step. apply parts_iff in P. rewrite P. cbn [obind fst snd]. apply convert_iff in N. rewrite N. apply parsed_spec in S. rewrite S. reflexivity.
  - intros t args x P N O [|f] L; [lia|]. rewrite in_step. apply parts_iff in P. rewrite P. cbn [obind fst snd]. apply convert_none in N. rewrite N. change (text_eqb (str "const") (str "const")) with true. cbv iota. apply (one_number args DConst). eauto.
  - intros t args x y P N O [|f] L; [lia|]. rewrite in_step. apply parts_iff in P. rewrite P. cbn [obind fst snd]. apply convert_none in N. rewrite N. change (text_eqb (str "linear") (str "const")) with false. change (text_eqb (str "linear") (str "linear")) with true. cbv iota. apply (two_numbers args (fun x y => DLinear y x)). eauto.
  - intros t args x y P N O [|f] L; [lia|]. rewrite in_step. apply parts_iff in P. rewrite P. cbn [obind fst snd]. apply convert_none in N. rewrite N. change (text_eqb (str "exp") (str "const")) with false. change (text_eqb (str "exp") (str "linear")) with false. change (text_eqb (str "exp") (str "exp")) with true. cbv iota. apply (two_numbers args DExp). eauto.
  - intros t args texts ps P N Cm _ IH Z0 So [|f] L; [lia|]. rewrite in_step. pose proof (parts_short _ _ _ P) as Sh. apply parts_iff in P. rewrite P. cbn [obind fst snd]. apply convert_none in N. rewrite N.
    change (text_eqb (str "piecewise") (str "const")) with false. change (text_eqb (str "piecewise") (str "linear")) with false. change (text_eqb (str "piecewise") (str "exp")) with false. change (text_eqb (str "piecewise") (str "piecewise")) with true. cbv iota.
    apply comma_iff in Cm. rewrite Cm. assert (A : all_some (piece_of f) texts = Some ps). { apply some_iff, IH. apply Forall_forall. intros u U. rewrite <- Cm in U. apply comma_short in U. lia. }
    rewrite A. cbn [obind]. apply piecewise_iff. auto.
  - intros f _. constructor.
  - intros t c r u d ts ps E Li _ IHd _ IHs f F. inversion F as [|? ? F1 F2]; subst. constructor; [|apply IHs; exact F2]. apply piece_iff. exists r, u. split; [exact E|]. split; [exact Li|]. apply IHd. apply size_short in E. apply line_short in Li. lia.
Qed.
Theorem parameter_iff s d : create_parameter scan s = Some d <-> parameter_text scan s d.
Proof. split; [apply parameter_sound|]. intros H. apply (parameter_complete s d H). lia. Qed.
End Scan.

(** *** Scaling *)
Lemma direction_same s : create_direction s = scalingDirection s.
Proof. unfold create_direction, scalingDirection. rewrite manual_iff. reflexivity. Qed.
Lemma direction_iff s d : create_direction s = Some d <-> direction_text s d.
Proof. rewrite direction_same. apply scaling_direction_iff. Qed.
Lemma starts_iff s p : startsWith s p = true <-> exists u, s = p ++ u.
Proof.
  unfold startsWith. rewrite andb_true_iff, eqb_eq, Nat.leb_le. split.
  - intros (E & _). exists (skipn (List.length p) s). rewrite <- E at 1. symmetry. apply firstn_skipn.
  - intros (u & ->). rewrite firstn_app, firstn_all, Nat.sub_diag, firstn_O, app_nil_r, app_length. split; [reflexivity|lia].
Qed.
Lemma independent_word u : extract_word (independent_prefix ++ u) = Some (str "independent", 32 :: u).
Proof. reflexivity. Qed.
Lemma space_word u : extract_word (32 :: u) = extract_word u. Proof. reflexivity. Qed.
Definition scaler_of (l : text) (step : R) (independent : bool) : option scaler :=
    w <- extract_word l ;;
    make <- (if text_eqb (fst w) (str "linear") then Some Linear else if text_eqb (fst w) (str "log") then Some Log else None) ;;
    t <- getline newline (skip_ws (snd w)) ;;
    d0 <- create_direction (fst t) ;;
    d <- nonempty d0 ;;
    Some (make d step independent).
Lemma aniso_iff args d : (exists b u, args = b ++ u /\ spaces b /\ ~ stops u /\ d <> [] /\ exists v, first_line u v /\ direction_text v d) <->
  (t <- getline newline (skip_ws args) ;; d0 <- create_direction (fst t) ;; nonempty d0) = Some d.
Proof.
  split.
  - intros (b & u & -> & B & U & N & v & L & D). assert (E : skip_ws (b ++ u) = u).
    { clear - B U. induction B as [|c b C B IH]; cbn [app]; [destruct u as [|c u]; [reflexivity|]; cbn in *; destruct (is_space c); [contradiction U; reflexivity|reflexivity]|]. cbn [skip_ws]. rewrite C. exact IH. }
    rewrite E. apply line_iff in L. destruct L as (r & ->). cbn [obind fst]. apply direction_iff in D. rewrite D. cbn [obind]. destruct d; [contradiction N; reflexivity|reflexivity].
  - destruct (getline newline (skip_ws args)) as [[v r]|] eqn:G; cbn [obind fst]; [|discriminate]. destruct (create_direction v) as [d0|] eqn:D; cbn [obind]; [|discriminate]. unfold nonempty. destruct d0 as [|m d0]; [discriminate|]. intros H. injection H as <-.
    destruct (skip_ws_split args) as (b & B & E & Q). exists b, (skip_ws args). split; [exact E|]. split; [exact B|]. split.
    + destruct (skip_ws args) as [|c r']; [discriminate|]. cbn. rewrite (Q c r' eq_refl). discriminate.
    + split; [discriminate|]. exists v. split; [apply line_iff; eauto|apply direction_iff; exact D].
Qed.
Lemma scaler_of_iff l step ind c : scaler_of l step ind = Some c <->
  exists d, (c = Linear d step ind /\ anisotropic_text l (str "linear") d) \/ (c = Log d step ind /\ anisotropic_text l (str "log") d).
Proof.
  unfold scaler_of, anisotropic_text. split.
  - destruct (extract_word l) as [[w args]|] eqn:E; cbn [obind fst snd]; [|discriminate]. apply headed_iff in E.
    destruct (text_eqb w (str "linear")) eqn:N1; [|destruct (text_eqb w (str "log")) eqn:N2; [|discriminate]]; cbn [obind];
      destruct (getline newline (skip_ws args)) as [tt|] eqn:G; cbn [obind]; try discriminate; destruct (create_direction (fst tt)) as [d0|] eqn:D; cbn [obind]; try discriminate;
      destruct (nonempty d0) as [d|] eqn:M; cbn [obind]; try discriminate; intros H; injection H as <-; exists d.
    + left. split; [reflexivity|]. apply eqb_eq in N1. subst w. assert (A : (t <- getline newline (skip_ws args) ;; d0 <- create_direction (fst t) ;; nonempty d0) = Some d) by (rewrite G; cbn [obind]; rewrite D; exact M).
      apply aniso_iff in A. destruct A as (b & u & A). exists args, b, u. split; [exact E|exact A].
    + right. split; [reflexivity|]. apply eqb_eq in N2. subst w. assert (A : (t <- getline newline (skip_ws args) ;; d0 <- create_direction (fst t) ;; nonempty d0) = Some d) by (rewrite G; cbn [obind]; rewrite D; exact M).
      apply aniso_iff in A. destruct A as (b & u & A). exists args, b, u. split; [exact E|exact A].
  - assert (X : forall args d, (exists b u, args = b ++ u /\ spaces b /\ ~ stops u /\ d <> [] /\ exists v, first_line u v /\ direction_text v d) ->
      exists t d0, getline newline (skip_ws args) = Some t /\ create_direction (fst t) = Some d0 /\ nonempty d0 = Some d).
    { intros args d H. apply aniso_iff in H. destruct (getline newline (skip_ws args)) as [tt|] eqn:G; cbn [obind] in H; [|discriminate]. destruct (create_direction (fst tt)) as [d0|] eqn:D; cbn [obind] in H; [|discriminate]. eauto. }
    intros (d & [(-> & args & b & u & H & A)|(-> & args & b & u & H & A)]); apply headed_iff in H; rewrite H; cbn [obind fst snd]; destruct (X args d ltac:(exists b, u; exact A)) as (t & d0 & G & D & M).
    + change (text_eqb (str "linear") (str "linear")) with true. cbv iota. cbn [obind]. rewrite G. cbn [obind]. rewrite D. cbn [obind]. rewrite M. reflexivity.
    + change (text_eqb (str "log") (str "linear")) with false. change (text_eqb (str "log") (str "log")) with true. cbv iota. cbn [obind]. rewrite G. cbn [obind]. rewrite D. cbn [obind]. rewrite M. reflexivity.
Qed.
Lemma volume_iff s step c : create_volume_scaler s step = Some c <->
  (s = str "delta V" /\ c = DeltaV step) \/ (exists u, s = independent_prefix ++ u /\ scaler_of u step true = Some c) \/ ((forall u, s <> independent_prefix ++ u) /\ s <> str "delta V" /\ scaler_of s step false = Some c).
Proof.
  unfold create_volume_scaler. destruct (text_eqb s (str "delta V")) eqn:E.
  - apply eqb_eq in E. subst s. split; [intros H; injection H as <-; auto|]. intros [(_ & ->)|[(u & H & _)|(_ & H & _)]]; [reflexivity|discriminate|contradiction H; reflexivity].
  - apply eqb_false in E. destruct (startsWith s independent_prefix) eqn:P.
    + apply starts_iff in P. destruct P as (u & ->). rewrite independent_word. cbn [snd]. rewrite space_word. fold (scaler_of u step true). split; [intros H; right; left; eauto|].
      intros [(H & _)|[(v & H & S)|(H & _)]]; [contradiction|apply app_inv_head in H; subst v; exact S|destruct (H u eq_refl)].
    + fold (scaler_of s step false). assert (P' : forall u, s <> independent_prefix ++ u) by (intros u H; assert (startsWith s independent_prefix = true) by (apply starts_iff; eauto); congruence).
      split; [intros H; right; right; auto|]. intros [(H & _)|[(v & H & S)|(_ & _ & H)]]; [contradiction|destruct (P' v H)|exact H].
Qed.
Lemma word_is l name d : anisotropic_text l name d -> exists args, extract_word l = Some (name, args).
Proof. intros (args & b & u & H & _). apply headed_iff in H. eauto. Qed.
Theorem scaler_iff t step s : create_scaler t step = Some s <-> scaler_text t step s.
Proof.
  unfold create_scaler. split.
  - destruct (text_eqb t (str "disabled")) eqn:E; [apply eqb_eq in E; subst t; intros H; injection H as <-; reflexivity|].
    destruct (startsWith t independent_prefix) eqn:P; cbn [negb].
    + apply starts_iff in P. destruct P as (u & ->). rewrite skipn_app, skipn_all, Nat.sub_diag, skipn_O. cbn [app]. destruct (text_eqb u (str "delta triclinic")) eqn:T.
      * apply eqb_eq in T. subst u. intros H. injection H as <-. cbn. auto.
      * destruct (create_volume_scaler (independent_prefix ++ u) step) as [c|] eqn:V; cbn [obind]; [|discriminate]. intros H. injection H as <-. apply volume_iff in V.
        destruct V as [(H & ->)|[(v & H & S)|(H & _)]]; [discriminate|apply app_inv_head in H; subst v|destruct (H u eq_refl)].
        apply scaler_of_iff in S. destruct S as (d & [(-> & A)|(-> & A)]); cbn [scaler_text]; split; auto; exists u; auto.
    + destruct (text_eqb t (str "delta triclinic")) eqn:T.
      * apply eqb_eq in T. subst t. intros H. injection H as <-. cbn. auto.
      * destruct (create_volume_scaler t step) as [c|] eqn:V; cbn [obind]; [|discriminate]. intros H. injection H as <-. apply volume_iff in V.
        destruct V as [(H & ->)|[(v & H & S)|(_ & _ & S)]]; [cbn; auto|assert (startsWith t independent_prefix = true) by (apply starts_iff; eauto); congruence|].
        apply scaler_of_iff in S. destruct S as (d & [(-> & A)|(-> & A)]); cbn [scaler_text]; auto.
  - assert (Plain : forall name d c, (name = str "linear" \/ name = str "log") -> anisotropic_text t name d -> scaler_of t step false = Some c -> s = Some c ->
      (if text_eqb t (str "disabled") then Some None else
       let together := negb (startsWith t independent_prefix) in let stripped := if together then t else skipn (List.length independent_prefix) t in
       if text_eqb stripped (str "delta triclinic") then Some (Some (DeltaTriclinic step together)) else c <- create_volume_scaler t step ;; Some (Some c)) = Some s).
    { intros name d c Nm A S ->. apply word_is in A. destruct A as (args & A).
      assert (D1 : text_eqb t (str "disabled") = false) by (apply eqb_false; intros ->; destruct Nm as [->| ->]; discriminate A).
      assert (D2 : startsWith t independent_prefix = false) by (destruct (startsWith t independent_prefix) eqn:P; [|reflexivity]; apply starts_iff in P; destruct P as (u & ->); rewrite independent_word in A; destruct Nm as [->| ->]; discriminate A).
      assert (D3 : text_eqb t (str "delta triclinic") = false) by (apply eqb_false; intros ->; destruct Nm as [->| ->]; discriminate A).
      rewrite D1, D2. cbv zeta. cbn [negb]. rewrite D3. assert (V : create_volume_scaler t step = Some c).
      { apply volume_iff. right. right. split; [intros u ->; rewrite independent_word in A; destruct Nm as [->| ->]; discriminate A|]. split; [intros ->; destruct Nm as [->| ->]; discriminate A|exact S]. }
      rewrite V. reflexivity. }
    assert (Indep : forall u name d c, t = independent_prefix ++ u -> (name = str "linear" \/ name = str "log") -> anisotropic_text u name d -> scaler_of u step true = Some c -> s = Some c ->
      (if text_eqb t (str "disabled") then Some None else
       let together := negb (startsWith t independent_prefix) in let stripped := if together then t else skipn (List.length independent_prefix) t in
       if text_eqb stripped (str "delta triclinic") then Some (Some (DeltaTriclinic step together)) else c <- create_volume_scaler t step ;; Some (Some c)) = Some s).
    { intros u name d c -> Nm A S ->. apply word_is in A. destruct A as (args & A).
      assert (D2 : startsWith (independent_prefix ++ u) independent_prefix = true) by (apply starts_iff; eauto).
      assert (D3 : text_eqb u (str "delta triclinic") = false) by (apply eqb_false; intros ->; destruct Nm as [->| ->]; discriminate A).
      change (text_eqb (independent_prefix ++ u) (str "disabled")) with false. rewrite D2. cbv zeta iota. cbn [negb]. rewrite skipn_app, skipn_all, Nat.sub_diag, skipn_O. cbn [app]. rewrite D3.
      assert (V : create_volume_scaler (independent_prefix ++ u) step = Some c) by (apply volume_iff; right; left; eauto). rewrite V. reflexivity. }
    destruct s as [[x|d x ind|d x ind|x together]|]; cbn [scaler_text].
    + intros (-> & ->). reflexivity.
    + intros (-> & A). destruct ind; [destruct A as (u & -> & A); apply (Indep u (str "linear") d (Linear d step true)); auto|apply (Plain (str "linear") d (Linear d step false)); auto]; apply scaler_of_iff; eauto.
    + intros (-> & A). destruct ind; [destruct A as (u & -> & A); apply (Indep u (str "log") d (Log d step true)); auto|apply (Plain (str "log") d (Log d step false)); auto]; apply scaler_of_iff; eauto.
    + intros (-> & ->). destruct together; reflexivity.
    + intros ->. reflexivity.
Qed.
