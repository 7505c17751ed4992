From Coq Require Import ZArith List Bool Lia.
From Verif Require Import OptModel TextModel TextProofs LinesModel LinesSpec LinesProofs ObsModel ObsSpec ObsProofs.
Import ListNotations.
Open Scope Z_scope.

Lemma joined_cons_pos d p ps : p <> [] -> (0 < length (joined d (p :: ps)))%nat.
Proof. intros N. destruct p as [|x p]; [contradiction N; reflexivity|]. destruct ps; cbn; lia. Qed.
Lemma is_nil_spec {A} (l : list A) : is_nil l = true <-> l = [].
Proof. destruct l; cbn; split; congruence. Qed.
(** What is found at the end of a text which starts with a non-empty line. *)
Lemma found_single h : h <> [] -> Forall (fun c => c <> newline) h -> findOnTheFlyLastCycleNumber h = None.
Proof.
  intros N F. unfold findOnTheFlyLastCycleNumber, seek_end. pose proof (read_first newline h [] F N (or_introl eq_refl)) as R. rewrite app_nil_r in R. rewrite R. cbn [fst snd].
  destruct h; [contradiction N; reflexivity|]. cbn [is_nil]. rewrite andb_false_r. reflexivity.
Qed.
Lemma found_more h mid q : h <> [] -> Forall (Forall (fun c => c <> newline)) (h :: mid ++ [q]) ->
  findOnTheFlyLastCycleNumber (joined newline (h :: mid ++ [q])) =
    if is_nil q then match rev mid with [] => Some 0 | r :: _ => n <- extract_size r ;; Some (fst n) end else None.
Proof.
  intros N F. change (h :: mid ++ [q]) with ((h :: mid) ++ [q]) in *. rewrite joined_snoc by discriminate. apply Forall_app in F. destruct F as [F Fq]. apply Forall_inv in Fq.
  unfold findOnTheFlyLastCycleNumber, seek_end. rewrite app_length. cbn [length].
  pose proof (read_piece newline (joined newline (h :: mid)) q [] Fq (joined_cons_pos _ _ _ N) (or_introl eq_refl)) as R1. rewrite app_nil_r in R1.
  replace (length (joined newline (h :: mid)) + S (length q))%nat with (length (joined newline (h :: mid)) + 1 + length q)%nat by lia. rewrite R1. cbn [fst snd].
  destruct (rev mid) as [|r m] eqn:E.
  - apply (f_equal (@rev _)) in E. rewrite rev_involutive in E. cbn in E. subst mid. cbn [joined].
    rewrite (read_first newline h (newline :: q)); [|exact (Forall_inv F)|exact N|eauto]. cbn [fst snd sm_fail sm_pos negb Nat.eqb andb]. reflexivity.
  - apply (f_equal (@rev _)) in E. rewrite rev_involutive in E. cbn [rev] in E. subst mid. change (h :: rev m ++ [r]) with ((h :: rev m) ++ [r]) in *. rewrite joined_snoc by discriminate.
    apply Forall_app in F. destruct F as [F Fr]. apply Forall_inv in Fr. rewrite <- app_assoc. cbn [app]. rewrite app_length. cbn [length].
    replace (length (joined newline (h :: rev m)) + S (length r))%nat with (length (joined newline (h :: rev m)) + 1 + length r)%nat by lia.
    rewrite (read_piece newline (joined newline (h :: rev m)) r (newline :: q)); [|exact Fr|apply joined_cons_pos; exact N|eauto]. cbn [fst snd sm_fail sm_pos negb andb].
    pose proof (joined_cons_pos newline h (rev m) N) as L. destruct (Nat.eqb_spec (length (joined newline (h :: rev m))) 0); [lia|]. reflexivity.
Qed.
Lemma first_line d p ps : Forall (fun c => c <> d) p -> fst (take_line d (joined d (p :: ps))) = p.
Proof.
  intros F. destruct ps as [|q ps]; [cbn [joined]; rewrite take_line_end by exact F; reflexivity|]. change (joined d (p :: q :: ps)) with (p ++ d :: joined d (q :: ps)). rewrite take_line_app by exact F. reflexivity.
Qed.

Section final.
Variables (D P : Type) (show show_short : D -> list Z).
Notation observable := (observable D P).
Notation collector := (collector D P).

(** The header without the line feed. *)
Definition bare_header (os : list (observable * kind)) : list Z := flat_map (fun t => t ++ [space]) (cycle_word :: names D P os).
Lemma bare_header_line os : header_line D P os = bare_header os ++ [newline]. Proof. reflexivity. Qed.
Lemma one_line_cells cs : Forall one_line cs -> one_line (flat_map (fun t => t ++ [space]) cs).
Proof.
  induction 1 as [|t cs H _ IH]; [constructor|]. cbn [flat_map]. apply Forall_app. split; [|exact IH]. apply Forall_app. split; [exact H|]. constructor; [discriminate|constructor].
Qed.
Lemma bare_header_clean os : clean_observables D P show os -> one_line (bare_header os).
Proof. intros [H _]. apply one_line_cells. constructor; [|exact H]. repeat (constructor; [discriminate|]). constructor. Qed.

(** Attaching, for every content. *)
Definition attached (os : list (observable * kind)) (ps : list (list Z)) : option Z :=
  match ps with
  | h :: ps' => if text_eqb h (bare_header os) then
                  match rev ps' with
                  | [] => None
                  | q :: m => if is_nil q then match m with [] => Some 0 | r :: _ => n <- extract_size r ;; Some (fst n) end else None
                  end
                else None
  | [] => None
  end.
Lemma attach_general os rows avs c content ps : holds D P show os rows avs c -> content <> [] -> pieces_of newline content ps ->
  match attached os ps with
  | Some n => exists c', attachOnTheFlyOutput D P content c = Some c' /\ co_out D P c' = Some content /\ co_last D P c' = n /\ holds D P show os rows avs c'
  | None => attachOnTheFlyOutput D P content c = None
  end.
Proof.
  intros H N (Np & F & E). destruct ps as [|h ps]; [contradiction Np; reflexivity|]. unfold attachOnTheFlyOutput. destruct (is_nil content) eqn:En; [apply is_nil_spec in En; contradiction|].
  assert (Hh : header_text D P c = bare_header os) by (pose proof (header_printed D P show os rows avs c H) as B; rewrite bare_header_line in B; apply app_inv_tail in B; exact B).
  rewrite E, first_line by exact (Forall_inv F). rewrite Hh. unfold attached. destruct (text_eqb h (bare_header os)) eqn:Eh; [|reflexivity].
  apply text_eqb_eq in Eh. assert (Nh : h <> []) by (rewrite Eh; discriminate).
  assert (Fi : findOnTheFlyLastCycleNumber (joined newline (h :: ps)) = match rev ps with [] => None | q :: m => if is_nil q then match m with [] => Some 0 | r :: _ => n <- extract_size r ;; Some (fst n) end else None end).
  { destruct (rev ps) as [|q m] eqn:Er; apply (f_equal (@rev _)) in Er; rewrite rev_involutive in Er; cbn [rev] in Er; subst ps.
    - apply found_single; [exact Nh|exact (Forall_inv F)].
    - rewrite found_more by auto. rewrite rev_involutive. reflexivity. }
  rewrite Fi. destruct (match rev ps with [] => None | q :: m => _ end) as [n|]; [|reflexivity]. cbn [obind]. eexists. split; [reflexivity|]. cbn [co_out co_last]. split; [reflexivity|]. split; [reflexivity|]. exact H.
Qed.
Lemma table_pieces os rs : clean_observables D P show os ->
  pieces_of newline (table D P show os rs) (bare_header os :: map (fun r => flat_map (fun t => t ++ [space]) (decimal (fst r) :: cells D P show os (snd r))) rs ++ [[]]).
Proof.
  intros C. split; [discriminate|]. split.
  - constructor; [apply bare_header_clean; exact C|]. apply Forall_app. split; [|constructor; constructor]. apply Forall_forall. intros x Hx. apply in_map_iff in Hx. destruct Hx as (r & <- & _).
    apply one_line_cells. constructor; [|apply C]. eapply Forall_impl; [|apply decimal_no_space]. intros a Ha ->. discriminate Ha.
  - unfold table. rewrite bare_header_line, <- app_assoc. cbn [app].
    assert (G : forall ls h, joined newline (h :: ls ++ [[]]) = h ++ newline :: flat_map (fun l => l ++ [newline]) ls).
    { induction ls as [|l ls IH]; intros h; [reflexivity|]. change (joined newline (h :: (l :: ls) ++ [[]])) with (h ++ newline :: joined newline (l :: ls ++ [[]])). rewrite IH. cbn [flat_map]. rewrite <- app_assoc. reflexivity. }
    rewrite G. do 2 f_equal. rewrite flat_map_concat_map, flat_map_concat_map, map_map. reflexivity.
Qed.
Lemma attach_table os rows avs c rs : clean_observables D P show os -> clean_cycles P rs -> holds D P show os rows avs c ->
  exists c', attachOnTheFlyOutput D P (table D P show os rs) c = Some c' /\ co_out D P c' = Some (table D P show os rs) /\ co_last D P c' = last_cycle P rs 0 /\ holds D P show os rows avs c'.
Proof.
  intros C Cy H. assert (N : table D P show os rs <> []) by discriminate. pose proof (attach_general os rows avs c _ _ H N (table_pieces os rs C)) as G.
  assert (A : attached os (bare_header os :: map (fun r => flat_map (fun t => t ++ [space]) (decimal (fst r) :: cells D P show os (snd r))) rs ++ [[]]) = Some (last_cycle P rs 0)).
  { unfold attached. rewrite text_eqb_refl, rev_app_distr. cbn [rev app is_nil]. unfold last_cycle. rewrite <- map_rev. destruct (rev rs) as [|r m] eqn:E; [reflexivity|]. cbn [map flat_map]. rewrite <- app_assoc. cbn [app].
    assert (Hr : In r rs) by (apply in_rev; rewrite E; left; reflexivity). unfold clean_cycles in Cy. rewrite Forall_forall in Cy. rewrite extract_decimal; [reflexivity|apply Cy; exact Hr|reflexivity]. }
  rewrite A in G. exact G.
Qed.
Lemma attach_empty os rows avs c : holds D P show os rows avs c ->
  exists c', attachOnTheFlyOutput D P [] c = Some c' /\ co_out D P c' = Some (table D P show os []) /\ co_last D P c' = 0 /\ holds D P show os rows avs c'.
Proof.
  intros H. eexists. split; [reflexivity|]. cbn [co_out co_last]. rewrite (header_printed D P show os rows avs c H). unfold table. cbn [flat_map]. rewrite app_nil_r. split; [reflexivity|]. split; [reflexivity|]. exact H.
Qed.
Lemma session_spec os es file rs : all_regular D P os -> clean_observables D P show os -> clean_cycles P rs -> (file = table D P show os rs \/ (file = [] /\ rs = [])) ->
  session D P show os es file = Some (table D P show os (rs ++ all_snapshots P es), last_cycle P rs 0, last_cycle P (rs ++ all_snapshots P es) 0).
Proof.
  intros R C Cy Hf. unfold session. destruct (add_all D P show os [] _ (holds_none D P show)) as (c & Ec & H & _). cbn [app] in H. rewrite Ec. cbn [obind].
  assert (A : exists c', attachOnTheFlyOutput D P file c = Some c' /\ co_out D P c' = Some (table D P show os rs) /\ co_last D P c' = last_cycle P rs 0 /\ holds D P show os [] [] c').
  { destruct Hf as [->|[-> ->]]; [apply attach_table; auto|apply attach_empty; auto]. }
  destruct A as (c1 & -> & O1 & L1 & H1). cbn [obind]. destruct (events_held D P show os R es [] [] c1 H1) as (c2 & -> & H2 & O2 & L2). cbn [obind]. unfold detachOnTheFlyOutput. rewrite O2, O1, L2, L1, O1.
  f_equal. f_equal; [f_equal; unfold table; rewrite flat_map_app, <- app_assoc; reflexivity|].
  unfold last_cycle. rewrite rev_app_distr. destruct (rev (all_snapshots P es)); reflexivity.
Qed.
Lemma other_header os rows avs c content : holds D P show os rows avs c -> content <> [] -> fst (take_line newline content) ++ [newline] <> header_line D P os -> attachOnTheFlyOutput D P content c = None.
Proof.
  intros H N E. unfold attachOnTheFlyOutput. destruct (is_nil content) eqn:En; [apply is_nil_spec in En; contradiction|].
  destruct (text_eqb (fst (take_line newline content)) (header_text D P c)) eqn:Eh; [|reflexivity]. apply text_eqb_eq in Eh. exfalso. apply E. rewrite Eh. eapply header_printed; eauto.
Qed.
Lemma cut_row os rows avs c content x : holds D P show os rows avs c -> x <> newline -> attachOnTheFlyOutput D P (content ++ [x]) c = None.
Proof.
  intros H N. destruct (pieces_exist newline (content ++ [x])) as (ps & Pp). assert (Nc : content ++ [x] <> []) by (destruct content; discriminate). pose proof (attach_general os rows avs c _ _ H Nc Pp) as G.
  destruct (attached os ps) as [n|] eqn:A; [|exact G]. exfalso. clear G. destruct Pp as (_ & _ & E). unfold attached in A. destruct ps as [|h ps]; [discriminate|]. destruct (text_eqb h (bare_header os)); [|discriminate].
  destruct (rev ps) as [|q m] eqn:Er; [discriminate|]. destruct (is_nil q) eqn:Eq; [|discriminate]. apply is_nil_spec in Eq. subst q. apply (f_equal (@rev _)) in Er. rewrite rev_involutive in Er. cbn [rev] in Er. subst ps.
  change (h :: rev m ++ [[]]) with ((h :: rev m) ++ [[]]) in E. rewrite joined_snoc in E by discriminate. apply app_inj_tail in E. tauto.
Qed.

(** Averages. *)
Lemma flat_samples_combine : forall h (x : list (list D)), (length h <= length x)%nat -> flat_samples D h x = Some (combine h x).
Proof. induction h as [|a h IH]; intros [|b x] L; cbn [length] in L; try lia; try reflexivity. cbn [flat_samples combine]. rewrite IH by lia. reflexivity. Qed.
Lemma combine_app {A B} : forall (a a' : list A) (b b' : list B), length a = length b -> combine (a ++ a') (b ++ b') = combine a b ++ combine a' b'.
Proof. induction a as [|x a IH]; intros a' [|y b] b' L; cbn in L; try lia; [reflexivity|]. cbn [app combine]. rewrite IH by lia. reflexivity. Qed.
Lemma samples_columns (l : list observable) (ps : list P) : Forall (regular D P) l ->
  combine (flat_map (ob_interval D P) l) (cols (length (flat_map (ob_interval D P) l)) (map (fun p => flat_map (fun o => ob_intervals D P o p) l) ps)) = flat_map (fun o => named_samples D P o ps) l.
Proof.
  induction 1 as [|o l R F IH]; [reflexivity|]. cbn [flat_map]. rewrite <- IH. clear IH. set (n := length (ob_interval D P o)). set (m := length (flat_map (ob_interval D P) l)).
  assert (E : cols (length (ob_interval D P o ++ flat_map (ob_interval D P) l)) (map (fun p => ob_intervals D P o p ++ flat_map (fun o => ob_intervals D P o p) l) ps) =
    map (fun i => samples_of D P o i ps) (seq 0 n) ++ cols m (map (fun p => flat_map (fun o => ob_intervals D P o p) l) ps)).
  { unfold cols. rewrite app_length. fold n m. rewrite seq_app, map_app. f_equal.
    - apply map_ext_in. intros j Hj. apply in_seq in Hj. rewrite flat_map_concat_map, map_map, <- flat_map_concat_map. unfold samples_of, opt_list. rewrite !flat_map_concat_map. f_equal. apply map_ext. intros p.
      rewrite nth_error_app1; [reflexivity|]. destruct (R p) as [-> _]. fold n. lia.
    - assert (S : forall k s, seq (n + s) k = map (Nat.add n) (seq s k)) by (induction k as [|k IH]; intros s; [reflexivity|]; cbn [seq map]; rewrite <- IH; f_equal; f_equal; lia).
      replace (0 + n)%nat with (n + 0)%nat by lia. rewrite S, map_map. apply map_ext. intros j. rewrite !flat_map_concat_map, !map_map. f_equal. apply map_ext. intros p. rewrite nth_error_app2 by (destruct (R p) as [-> _]; fold n; lia).
      destruct (R p) as [-> _]. fold n. do 2 f_equal. lia. }
  rewrite E. rewrite combine_app by (rewrite map_length, seq_length; reflexivity). f_equal. unfold named_samples. fold n.
  assert (G : forall (hs : list (list Z)) s, combine hs (map (fun i => samples_of D P o i ps) (seq s (length hs))) = map (fun ih : nat * list Z => (snd ih, samples_of D P o (fst ih) ps)) (combine (seq s (length hs)) hs)).
  { induction hs as [|h hs IH]; intros s; [reflexivity|]. cbn [length seq map combine fst snd]. rewrite IH. reflexivity. }
  unfold n. apply G.
Qed.
Lemma named_length o ps : length (named_samples D P o ps) = length (ob_interval D P o).
Proof. unfold named_samples. rewrite map_length, combine_length, seq_length. lia. Qed.
Lemma flat_averages os rows avs c : all_regular D P os -> holds D P show os rows avs c -> getFlattenedSamples D P c = Some (flat_map (fun o => named_samples D P o avs) (chosen D P k_averaging os)).
Proof.
  intros F (H1 & H2 & H3 & H4 & H5 & H6 & H7 & H8 & H9). unfold getFlattenedSamples. rewrite H6, H9, flat_samples_combine by (rewrite cols_length; lia). f_equal. apply samples_columns. apply chosen_regular. exact F.
Qed.
Lemma group_spec obs avs : forall os idxs pre, map (nth_error obs) idxs = map Some os ->
  group_samples D P obs idxs (pre ++ flat_map (fun o => named_samples D P o avs) os) (length pre) =
    Some (map (fun o => (ob_name D P o, named_samples D P o avs)) os, length (pre ++ flat_map (fun o => named_samples D P o avs) os)).
Proof.
  induction os as [|o os IH]; intros idxs pre E; destruct idxs as [|x idxs]; try discriminate E; cbn [group_samples flat_map map]; [rewrite app_nil_r; reflexivity|]. cbn [map] in E. injection E as Ex E. rewrite Ex. cbn [obind].
  destruct (Nat.leb_spec (length pre + length (ob_interval D P o)) (length (pre ++ named_samples D P o avs ++ flat_map (fun o => named_samples D P o avs) os))) as [L|L]; [|rewrite !app_length, named_length in L; lia].
  specialize (IH idxs (pre ++ named_samples D P o avs) E). rewrite app_length, named_length, <- app_assoc in IH. rewrite IH. cbn [obind fst snd]. do 4 f_equal.
  rewrite skipn_app, skipn_all, Nat.sub_diag. cbn [skipn app]. rewrite <- (named_length o avs) at 1. rewrite firstn_app, firstn_all, Nat.sub_diag. cbn [firstn]. apply app_nil_r.
Qed.
Lemma grouped_averages os rows avs c : all_regular D P os -> holds D P show os rows avs c -> getGroupedSamples D P c = Some (map (fun o => (ob_name D P o, named_samples D P o avs)) (chosen D P k_averaging os)).
Proof.
  intros F H. unfold getGroupedSamples. rewrite (flat_averages os rows avs c F H). cbn [obind]. destruct H as (H1 & H2 & H3 & H4 & _). rewrite H1.
  pose proof (group_spec (map fst os) avs (chosen D P k_averaging os) _ [] H4) as G. cbn [app length] in G. rewrite G. cbn [obind fst snd]. rewrite Nat.eqb_refl. reflexivity.
Qed.

(** Inline strings. *)
Lemma comma_app a b : a <> [] -> b <> [] -> comma_joined (a ++ b) = comma_joined a ++ comma ++ comma_joined b.
Proof.
  intros Na Nb. induction a as [|x a IH]; [contradiction Na; reflexivity|]. destruct a as [|y a].
  - cbn [app]. destruct b; [contradiction Nb; reflexivity|]. reflexivity.
  - assert (E : forall t, comma_joined (x :: y :: t) = x ++ [44; 32] ++ comma_joined (y :: t)) by reflexivity. cbn [app] in *. rewrite !E, IH by discriminate. rewrite <- !app_assoc. reflexivity.
Qed.
Lemma items_spec : forall hs vs left, length hs = length vs -> (length hs <= left)%nat ->
  inline_items left hs vs = ((match hs with [] => [] | _ => comma_joined (labelled hs vs) ++ if Nat.ltb (length hs) left then comma else [] end), (left - length hs)%nat).
Proof.
  induction hs as [|h hs IH]; intros [|v vs] left L H; try discriminate L; [cbn; rewrite Nat.sub_0_r; reflexivity|]. cbn [length] in *. cbn [inline_items].
  rewrite IH by lia. cbn [fst snd]. f_equal; [|lia]. unfold labelled. cbn [combine map]. fold (labelled hs vs). unfold colon. destruct hs as [|h' hs].
  - destruct vs; [|discriminate L]. change (labelled [] []) with (@nil (list Z)). cbn [comma_joined fst snd length]. rewrite <- !app_assoc, app_nil_r. reflexivity.
  - destruct vs as [|v' vs]; [discriminate L|]. cbn [length] in *. assert (Nat.ltb 1 left = true) as -> by (apply Nat.ltb_lt; lia).
    assert (Ec : forall x t, t <> [] -> comma_joined (x :: t) = x ++ comma ++ comma_joined t) by (intros x [|y t] Nt; [contradiction Nt; reflexivity|reflexivity]).
    rewrite Ec by discriminate. cbn [fst snd].
    rewrite <- !app_assoc. assert (Nat.ltb (S (length hs)) (left - 1) = Nat.ltb (S (S (length hs))) left) as ->; [|reflexivity].
    destruct (Nat.ltb_spec (S (length hs)) (left - 1)), (Nat.ltb_spec (S (S (length hs))) left); try lia; reflexivity.
Qed.
Lemma labelled_nil hs vs : length hs = length vs -> labelled hs vs = [] <-> hs = [].
Proof. intros L. destruct hs, vs; try discriminate L; cbn; split; congruence. Qed.
Lemma inline_one o p : regular D P o -> ob_interval D P o ++ ob_nominal D P o <> [] -> printInlineObservable D P show_short o p = Some (comma_joined (inline_labels D P show_short o p)).
Proof.
  intros R N. destruct (R p) as [Li Ln]. unfold printInlineObservable. rewrite Li, Ln, !Nat.eqb_refl.
  assert (T : (0 < length (ob_interval D P o) + length (ob_nominal D P o))%nat) by (rewrite <- app_length; destruct (ob_interval D P o ++ ob_nominal D P o); [contradiction N; reflexivity|cbn; lia]).
  apply Nat.ltb_lt in T. rewrite T. cbn [andb]. rewrite (items_spec (ob_interval D P o) (map show_short (ob_intervals D P o p))) by (rewrite ?map_length; lia). cbn [fst snd].
  replace (length (ob_interval D P o) + length (ob_nominal D P o) - length (ob_interval D P o))%nat with (length (ob_nominal D P o)) by lia. rewrite items_spec by lia. cbn [fst snd]. rewrite Nat.sub_diag, Nat.ltb_irrefl. cbn [Nat.eqb].
  f_equal. unfold inline_labels.
  assert (Lm : length (ob_interval D P o) = length (map show_short (ob_intervals D P o p))) by (rewrite map_length; auto).
  destruct (ob_interval D P o) as [|h hs] eqn:Ei; [cbn [labelled combine map app]; destruct (ob_nominal D P o) eqn:En; [contradiction N; reflexivity|apply app_nil_r]|]. rewrite <- Ei in *.
  destruct (ob_nominal D P o) as [|h' hs'] eqn:En.
  - assert (Nat.ltb (length (ob_interval D P o)) (length (ob_interval D P o) + length (@nil (list Z))) = false) as -> by (apply Nat.ltb_ge; cbn; lia). cbn [labelled combine map]. rewrite !app_nil_r. reflexivity.
  - rewrite <- En in *. assert (Nat.ltb (length (ob_interval D P o)) (length (ob_interval D P o) + length (ob_nominal D P o)) = true) as -> by (apply Nat.ltb_lt; rewrite En; cbn; lia).
    rewrite comma_app; [rewrite app_nil_r, <- app_assoc; reflexivity| |]; rewrite labelled_nil by auto; congruence.
Qed.
Lemma inline_all obs p : forall os idxs, map (nth_error obs) idxs = map Some os -> Forall (regular D P) os -> Forall (fun o => ob_interval D P o ++ ob_nominal D P o <> []) os ->
  inline_strings D P show_short obs idxs p = Some (comma_joined (flat_map (fun o => inline_labels D P show_short o p) os)).
Proof.
  assert (L : forall o, regular D P o -> ob_interval D P o ++ ob_nominal D P o <> [] -> inline_labels D P show_short o p <> []).
  { intros o R N E. unfold inline_labels in E. apply app_eq_nil in E. destruct E as [E1 E2]. destruct (R p) as [L1 L2]. apply labelled_nil in E1; [|rewrite map_length; auto]. apply labelled_nil in E2; [|auto]. apply N. rewrite E1, E2. reflexivity. }
  induction os as [|o os IH]; intros idxs E F N; destruct idxs as [|x idxs]; try discriminate E; [reflexivity|]. cbn [map] in E. injection E as Ex E. inversion F as [|? ? R F']; subst. inversion N as [|? ? No N']; subst.
  destruct idxs as [|x' idxs].
  - destruct os; [|discriminate E]. cbn [inline_strings flat_map]. rewrite Ex. cbn [obind]. rewrite app_nil_r. apply inline_one; auto.
  - destruct os as [|o' os]; [discriminate E|].
    assert (St : inline_strings D P show_short obs (x :: x' :: idxs) p = (o <- nth_error obs x ;; (s <- printInlineObservable D P show_short o p ;; (r <- inline_strings D P show_short obs (x' :: idxs) p ;; Some (s ++ comma ++ r))))) by reflexivity.
    rewrite St, Ex. cbn [obind]. rewrite inline_one by auto. cbn [obind]. rewrite (IH _ E F' N'). cbn [obind]. f_equal.
    assert (Fl : flat_map (fun o => inline_labels D P show_short o p) (o :: o' :: os) = inline_labels D P show_short o p ++ flat_map (fun o => inline_labels D P show_short o p) (o' :: os)) by reflexivity. rewrite Fl, comma_app; [reflexivity|auto|].
    cbn [flat_map]. intros Z. apply app_eq_nil in Z. destruct Z as [Z _]. inversion F'; inversion N'; subst. eapply L; eauto.
Qed.

(** An observable cannot be added after values have been captured. *)
Lemma late_refused os rows avs c o k : all_regular D P os -> holds D P show os rows avs c -> (rows <> [] /\ names D P os <> []) \/ (avs <> [] /\ flat_map (ob_interval D P) (chosen D P k_averaging os) <> []) -> addObservable D P o k c = None.
Proof.
  intros F (H1 & H2 & H3 & H4 & H5 & H6 & H7 & H8 & H9) HN. unfold addObservable. rewrite H8, H9. 
  assert (G : forall A n (tbl : list (list A)), Forall (fun r => length r = n) tbl -> tbl <> [] -> n <> 0%nat -> front_empty (cols n tbl) = false).
  { intros A n tbl Ft Nt Nn. destruct n as [|n]; [contradiction Nn; reflexivity|]. destruct tbl as [|r tbl]; [contradiction Nt; reflexivity|]. inversion Ft; subst. destruct r; [discriminate|]. reflexivity. }
  destruct HN as [[Nr Nn]|[Na Nn]].
  - rewrite (G _ _ (map (fun r : Z * P => cells D P show os (snd r)) rows)); [reflexivity|apply rows_regular; exact F|destruct rows; [contradiction Nr; reflexivity|discriminate]|destruct (names D P os); [contradiction Nn; reflexivity|discriminate]].
  - rewrite (G _ _ (map (fun p => flat_map (fun o => ob_intervals D P o p) (chosen D P k_averaging os)) avs)); [rewrite andb_false_r; reflexivity| |destruct avs; [contradiction Na; reflexivity|discriminate]|destruct (flat_map (ob_interval D P) (chosen D P k_averaging os)); [contradiction Nn; reflexivity|discriminate]].
    apply Forall_forall. intros x Hx. apply in_map_iff in Hx. destruct Hx as (p & <- & _). apply values_length. exact F.
Qed.

(** From the beginning. *)
Lemma whole_history os es : all_regular D P os -> exists c c', with_observables D P os (no_collector D P) = Some c /\ after D P show es c = Some c' /\ holds D P show os (snapshots P es) (averaged P es) c'.
Proof.
  intros F. destruct (add_all D P show os [] _ (holds_none D P show)) as (c & Ec & H & _). cbn [app] in H. destruct (events_held D P show os F es [] [] c H) as (c' & E & H' & _). exists c, c'. auto.
Qed.
Lemma history_held os es c c' : all_regular D P os -> with_observables D P os (no_collector D P) = Some c -> after D P show es c = Some c' -> holds D P show os (snapshots P es) (averaged P es) c'.
Proof. intros F E1 E2. destruct (whole_history os es F) as (d & d' & Ed & Ed' & H). congruence. Qed.
Lemma added_held os c : with_observables D P os (no_collector D P) = Some c -> holds D P show os [] [] c.
Proof. intros E. destruct (add_all D P show os [] _ (holds_none D P show)) as (c' & Ec & H & _). cbn [app] in H. congruence. Qed.
Lemma tables_final os es h : Forall (fun ok => regular D P (fst ok)) os -> names D P os <> [] ->
  exists c c', with_observables D P os (no_collector D P) = Some c /\ after D P show es c = Some c' /\
    printSnapshots D P c' h = Some ((if h then header_line D P os else []) ++ flat_map (row_line D P show os) (snapshots P es)).
Proof. intros F N. destruct (whole_history os es F) as (c & c' & E1 & E2 & H). exists c, c'. split; [exact E1|]. split; [exact E2|]. eapply table_printed; eauto. Qed.
Lemma aligned_final os p : Forall (fun ok => regular D P (fst ok)) os -> length (cells D P show os p) = length (names D P os) /\
  forall a o k b, os = a ++ (o, k) :: b -> k_snapshot k = true ->
    (forall i v, nth_error (ob_intervals D P o p) i = Some v -> exists j h, nth_error (ob_interval D P o) i = Some h /\ nth_error (names D P os) j = Some h /\ nth_error (cells D P show os p) j = Some (show v)) /\
    (forall i v, nth_error (ob_nominals D P o p) i = Some v -> exists j h, nth_error (ob_nominal D P o) i = Some h /\ nth_error (names D P os) j = Some h /\ nth_error (cells D P show os p) j = Some v).
Proof.
  intros F. split; [apply cells_length; exact F|]. intros a o k b -> Hk. apply Forall_app in F. destruct F as [Fa Fb]. inversion Fb as [|? ? R _]; subst. cbn [fst] in R. destruct (R p) as [Li Ln].
  assert (En : names D P (a ++ (o, k) :: b) = names D P a ++ (ob_interval D P o ++ ob_nominal D P o) ++ names D P b) by (unfold names, chosen; rewrite filter_app, map_app, flat_map_app; cbn [filter snd]; rewrite Hk; reflexivity).
  assert (Ec : cells D P show (a ++ (o, k) :: b) p = cells D P show a p ++ (map show (ob_intervals D P o p) ++ ob_nominals D P o p) ++ cells D P show b p) by (unfold cells, chosen; rewrite filter_app, map_app, flat_map_app; cbn [filter snd]; rewrite Hk; reflexivity).
  pose proof (cells_length D P show a p Fa) as La. rewrite En, Ec. split; intros i v Hv.
  - assert (L : (i < length (ob_intervals D P o p))%nat) by (apply nth_error_Some; congruence). destruct (nth_error (ob_interval D P o) i) as [h|] eqn:Eh; [|apply nth_error_None in Eh; lia].
    exists (length (names D P a) + i)%nat, h. split; [reflexivity|]. split.
    + rewrite nth_error_app2 by lia. rewrite nth_error_app1 by (rewrite app_length; lia). rewrite nth_error_app1 by lia. rewrite <- Eh. f_equal. lia.
    + rewrite nth_error_app2 by lia. rewrite nth_error_app1 by (rewrite app_length, map_length; lia). rewrite nth_error_app1 by (rewrite map_length; lia). replace (length (names D P a) + i - length (cells D P show a p))%nat with i by lia. apply map_nth_error. exact Hv.
  - assert (L : (i < length (ob_nominals D P o p))%nat) by (apply nth_error_Some; congruence). destruct (nth_error (ob_nominal D P o) i) as [h|] eqn:Eh; [|apply nth_error_None in Eh; lia].
    exists (length (names D P a) + length (ob_interval D P o) + i)%nat, h. split; [reflexivity|]. split.
    + rewrite nth_error_app2 by lia. rewrite nth_error_app1 by (rewrite app_length; lia). rewrite nth_error_app2 by lia. rewrite <- Eh. f_equal. lia.
    + rewrite nth_error_app2 by lia. rewrite nth_error_app1 by (rewrite app_length, map_length; lia). rewrite nth_error_app2 by (rewrite map_length; lia). rewrite map_length. rewrite <- Hv. f_equal. lia.
Qed.
Lemma averages_final os es : Forall (fun ok => regular D P (fst ok)) os ->
  exists c c', with_observables D P os (no_collector D P) = Some c /\ after D P show es c = Some c' /\
    getFlattenedSamples D P c' = Some (flat_map (fun o => named_samples D P o (averaged P es)) (chosen D P k_averaging os)) /\
    getGroupedSamples D P c' = Some (map (fun o => (ob_name D P o, named_samples D P o (averaged P es))) (chosen D P k_averaging os)).
Proof. intros F. destruct (whole_history os es F) as (c & c' & E1 & E2 & H). exists c, c'. split; [exact E1|]. split; [exact E2|]. split; [eapply flat_averages|eapply grouped_averages]; eauto. Qed.
Lemma inline_final os es p : Forall (fun ok => regular D P (fst ok)) os -> Forall (fun ok => ob_interval D P (fst ok) ++ ob_nominal D P (fst ok) <> []) os ->
  exists c c', with_observables D P os (no_collector D P) = Some c /\ after D P show es c = Some c' /\
    generateInlineObservablesString D P show_short c' p = Some (comma_joined (flat_map (fun o => inline_labels D P show_short o p) (chosen D P k_inline os))).
Proof.
  intros F N. destruct (whole_history os es F) as (c & c' & E1 & E2 & H). exists c, c'. split; [exact E1|]. split; [exact E2|]. destruct H as (H1 & _ & H3 & _). unfold generateInlineObservablesString. rewrite H1. apply inline_all; auto; [apply chosen_regular; exact F|].
  apply Forall_forall. intros o Ho. unfold chosen in Ho. apply in_map_iff in Ho. destruct Ho as (ok & <- & Ho). apply filter_In in Ho. rewrite Forall_forall in N. apply N. tauto.
Qed.
Lemma late_final os es c c' o k : Forall (fun ok => regular D P (fst ok)) os -> with_observables D P os (no_collector D P) = Some c -> after D P show es c = Some c' ->
  (snapshots P es <> [] /\ names D P os <> []) \/ (averaged P es <> [] /\ flat_map (ob_interval D P) (chosen D P k_averaging os) <> []) -> addObservable D P o k c' = None.
Proof. intros F E1 E2. eapply late_refused; eauto. eapply history_held; eauto. Qed.
Lemma sessions_final os : Forall (fun ok => regular D P (fst ok)) os -> clean_observables D P show os -> forall runs, Forall (fun es => clean_cycles P (all_snapshots P es)) runs -> runs <> [] ->
  sessions D P show os runs [] = Some (table D P show os (flat_map (all_snapshots P) runs)).
Proof.
  intros F C runs. assert (G : forall runs rs, clean_cycles P rs -> Forall (fun es => clean_cycles P (all_snapshots P es)) runs -> sessions D P show os runs (table D P show os rs) = Some (table D P show os (rs ++ flat_map (all_snapshots P) runs))).
  { clear runs. induction runs as [|es runs IH]; intros rs Cr Ce; cbn [sessions flat_map]; [rewrite app_nil_r; reflexivity|]. inversion Ce; subst. rewrite (session_spec os es _ rs F C Cr (or_introl eq_refl)). cbn [obind fst].
    rewrite IH; [rewrite <- app_assoc; reflexivity| |auto]. apply Forall_app. auto. }
  intros Ce N. destruct runs as [|es runs]; [contradiction N; reflexivity|]. inversion Ce; subst. cbn [sessions flat_map]. rewrite (session_spec os es [] [] F C (Forall_nil _) (or_intror (conj eq_refl eq_refl))). cbn [obind fst app]. apply G; auto.
Qed.
Lemma found_final os c c' content : with_observables D P os (no_collector D P) = Some c -> content <> [] -> attachOnTheFlyOutput D P content c = Some c' ->
  co_out D P c' = Some content /\ exists lines, Forall one_line lines /\ content = header_line D P os ++ flat_map (fun l => l ++ [newline]) lines /\
    match rev lines with [] => co_last D P c' = 0 | r :: _ => exists rest, extract_size r = Some (co_last D P c', rest) end.
Proof.
  intros E N A. apply added_held in E. destruct (pieces_exist newline content) as (ps & Pp). pose proof (attach_general os [] [] c content ps E N Pp) as G. destruct (attached os ps) as [n|] eqn:At; [|congruence].
  destruct G as (d & Ad & Od & Ld & _). rewrite A in Ad. injection Ad as <-. split; [exact Od|]. destruct Pp as (_ & F & Ec). unfold attached in At. destruct ps as [|h ps]; [discriminate|]. destruct (text_eqb h (bare_header os)) eqn:Eh; [|discriminate]. apply text_eqb_eq in Eh. subst h.
  destruct (rev ps) as [|q m] eqn:Er; [discriminate|]. destruct (is_nil q) eqn:Eq; [|discriminate]. apply is_nil_spec in Eq. subst q. apply (f_equal (@rev _)) in Er. rewrite rev_involutive in Er. cbn [rev] in Er. subst ps.
  exists (rev m). inversion F as [|? ? _ F']; subst. apply Forall_app in F'. split; [tauto|]. split.
  - clear -m. rewrite bare_header_line, <- app_assoc. cbn [app]. generalize (bare_header os). generalize (rev m). clear. intros ls0. induction ls0 as [|l ls IH]; intros h; [reflexivity|]. change (joined newline (h :: (l :: ls) ++ [[]])) with (h ++ newline :: joined newline (l :: ls ++ [[]])). rewrite IH. cbn [flat_map]. rewrite <- app_assoc. reflexivity.
  - rewrite rev_involutive. destruct m as [|r m]; [congruence|]. destruct (extract_size r) as [[v rest]|]; [|discriminate]. cbn [obind fst] in At. exists rest. congruence.
Qed.
Lemma header_final os c content : with_observables D P os (no_collector D P) = Some c -> content <> [] -> fst (take_line newline content) ++ [newline] <> header_line D P os -> attachOnTheFlyOutput D P content c = None.
Proof. intros E. apply added_held in E. eapply other_header; eauto. Qed.
Lemma cut_final os c content x : with_observables D P os (no_collector D P) = Some c -> x <> newline -> attachOnTheFlyOutput D P (content ++ [x]) c = None.
Proof. intros E. apply added_held in E. eapply cut_row; eauto. Qed.
End final.
