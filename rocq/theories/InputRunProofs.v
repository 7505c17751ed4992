(** Runs and the whole input. *)
From Coq Require Import Reals ZArith List Bool Lia ZifyBool Sorted String Permutation.
From Verif Require Import TextModel TextProofs StringsModel StringsSpec StringsProofs ScalingModel PyonModel MatchModel MatchSpec MatchProofs GeomModel GeomProofs SimModel SimSpec SimEnvProofs OptModel InputModel InputSpec InputParseProofs InputCallProofs InputPartProofs.
Import ListNotations.
Open Scope Z_scope.

(** *** Lists *)
Lemma first_iff {A} (b : A -> bool) (is : A -> Prop) (file : A -> text) : (forall x, b x = true <-> is x) -> forall l o, (x <- List.find b l ;; Some (file x)) = o <-> first_file is file l o.
Proof.
  intros B. assert (U : forall l, first_file is file l (x <- List.find b l ;; Some (file x))).
  { induction l as [|y l IH]; cbn [List.find]; [constructor|]. destruct (b y) eqn:E; cbn [obind].
    - exists [], y, l. split; [reflexivity|]. split; [constructor|]. split; [apply B; exact E|reflexivity].
    - assert (Ny : ~ is y) by (intros H; apply B in H; congruence). destruct (List.find b l) as [x|]; cbn [obind first_file] in *.
      + destruct IH as (p & z & q & -> & F & I & E'). exists (y :: p), z, q. split; [reflexivity|]. split; [constructor; assumption|]. auto.
      + constructor; assumption. }
  intros l o. split; [intros <-; apply U|]. intros H. revert o H. induction l as [|y l IH]; intros o H; cbn [List.find].
  - destruct o as [f|]; [|reflexivity]. destruct H as (p & x & q & E & _). destruct p; discriminate.
  - destruct (b y) eqn:E; cbn [obind].
    + apply B in E. destruct o as [f|]; cbn [first_file] in H.
      * destruct H as (p & x & q & El & F & I & ->). destruct p as [|z p]; cbn [app] in El; injection El as -> El; [reflexivity|]. inversion F; contradiction.
      * inversion H; contradiction.
    + apply IH. destruct o as [f|]; cbn [first_file] in *.
      * destruct H as (p & x & q & El & F & I & ->). destruct p as [|z p]; cbn [app] in El; injection El as -> El; [apply B in I; congruence|]. inversion F; subst. exists p, x, q. auto.
      * inversion H; subst. assumption.
Qed.
Lemma ramsnap_iff l o : fetch_ramsnap_out l = o <-> ramsnap_file l o.
Proof. apply (first_iff is_ramsnap (fun w => wr_kind w = Ramsnap) wr_file). intros [f []]; cbn; split; intros H; try discriminate H; reflexivity. Qed.
Lemma ramtrj_iff l o : fetch_ramtrj_out l = o <-> ramtrj_file l o.
Proof. apply (first_iff rc_ramtrj (fun r => rc_ramtrj r = true) rc_file). tauto. Qed.

Definition lower (a b : text) : Prop := text_ltb b a = false.
Lemma lower_trans a b c : lower a b -> lower b c -> lower a c.
Proof.
  unfold lower. intros H1 H2. destruct (text_ltb c a) eqn:E; [|reflexivity]. exfalso. destruct (ltb_total a b) as [H|[->|H]].
  - rewrite (ltb_trans _ _ _ E H) in H2. discriminate.
  - congruence.
  - congruence.
Qed.
Lemma insert_perm t l : Permutation (insert_text t l) (t :: l).
Proof. induction l as [|u l IH]; [reflexivity|]. cbn [insert_text]. destruct (text_ltb u t); [|reflexivity]. rewrite IH. apply perm_swap. Qed.
Lemma sort_perm l : Permutation (sort_texts l) l.
Proof. induction l as [|t l IH]; [reflexivity|]. cbn [sort_texts fold_right]. rewrite insert_perm. constructor. exact IH. Qed.
Lemma insert_sorted t l : StronglySorted lower l -> StronglySorted lower (insert_text t l).
Proof.
  induction 1 as [|u l S IH F]; [repeat constructor|]. cbn [insert_text]. destruct (text_ltb u t) eqn:E.
  - constructor; [exact IH|]. eapply Permutation_Forall; [symmetry; apply insert_perm|]. constructor; [|exact F]. unfold lower. destruct (text_ltb t u) eqn:E'; [|reflexivity]. exfalso. pose proof (ltb_trans _ _ _ E E') as X. rewrite ltb_irrefl in X. discriminate.
  - constructor; [constructor; assumption|]. constructor; [exact E|]. eapply Forall_impl; [|exact F]. intros w H. eapply lower_trans; [exact E|exact H].
Qed.
Lemma sort_sorted l : StronglySorted lower (sort_texts l).
Proof. induction l as [|t l IH]; [constructor|]. cbn [sort_texts fold_right]. apply insert_sorted. exact IH. Qed.
Lemma adjacent_iff l : StronglySorted lower l -> (adjacent_equal l = false <-> NoDup l).
Proof.
  intros S. split.
  - induction S as [|a l S IH F]; [constructor|]. destruct l as [|b l]; [repeat constructor; intros []|]. change (adjacent_equal (a :: b :: l)) with (text_eqb a b || adjacent_equal (b :: l)). intros H. apply orb_false_iff in H. destruct H as [H1 H2]. constructor; [|apply IH; exact H2].
    inversion F as [|? ? F1 F2]; subst. inversion S as [|? ? S1 S2]; subst. intros [->|I]; [rewrite text_eqb_refl in H1; discriminate|]. rewrite Forall_forall in S2. specialize (S2 a I). unfold lower in *. destruct (ltb_total a b) as [H|[->|H]]; [congruence|rewrite text_eqb_refl in H1; discriminate|congruence].
  - intros N. induction N as [|a l Na N IH]; [reflexivity|]. inversion S as [|? ? S1 S2]; subst. destruct l as [|b l]; [reflexivity|]. change (adjacent_equal (a :: b :: l)) with (text_eqb a b || adjacent_equal (b :: l)). rewrite (IH S1), orb_false_r. destruct (text_eqb a b) eqn:E; [|reflexivity]. apply text_eqb_eq in E. subst. contradiction Na. left. reflexivity.
Qed.
Lemma unique_iff {Shp Obs Bulk} (l : list (@run Shp Obs Bulk)) : unique_names l = true <-> NoDup (map run_name l).
Proof.
  unfold unique_names. rewrite negb_true_iff, (adjacent_iff _ (sort_sorted _)). split; apply Permutation_NoDup; [|symmetry]; apply sort_perm.
Qed.

Lemma completed_iff {Par Smp Scl} (b r : @environment Par Smp Scl) : isComplete (combineEnv b r) = true <-> exists e, last_one_wins [b; r] e /\ complete e.
Proof.
  assert (W : last_one_wins [b] b) by (unfold last_one_wins; cbn [map]; auto using last_given_one). pose proof (wins [r] b [b] W) as W2. cbn [app fold_left] in W2. rewrite complete_iff. split; [eauto|].
  intros (e & He & C). destruct W2 as (A1 & A2 & A3 & A4), He as (B1 & B2 & B3 & B4). unfold complete in *.
  rewrite (last_given_unique _ _ _ A1 B1), (last_given_unique _ _ _ A2 B2), (last_given_unique _ _ _ A3 B3), (last_given_unique _ _ _ A4 B4). exact C.
Qed.

Section Runs.
Context {Arr Shp Obs Bulk : Type}.
Notation any := (@any Arr Shp Obs Bulk).
Notation mt := (matcher any).
Variable of_float : list Z -> R.

Ltac alts := rewrite !Exists_cons, Exists_nil.
Ltac typeds := repeat (apply Forall_cons; [first [apply typed_class|apply typed_float|apply typed_int|apply typed_none|apply typed_string|apply typed_array|apply typed_bool]|]); apply Forall_nil.

Lemma name_iff c : run_char c = true <-> word_char c.
Proof. unfold run_char, is_name, is_alpha, is_digit, word_char. lia. Qed.
Lemma run_name_denotes : denotes run_name_m (@AText Arr Shp Obs Bulk) run_word.
Proof.
  intros n t R. unfold run_name_m. rewrite string_node. unfold run_word. split.
  - intros (s & -> & F & E). injection E as ->. apply all_cons in F. destruct F as [F1 F]. apply all_cons in F. destruct F as [F2 _]. split; [reflexivity|]. split; [destruct s; discriminate|]. apply Forall_forall. intros c I. apply name_iff. rewrite forallb_forall in F2. auto.
  - intros (-> & N & F). exists t. split; [reflexivity|]. split; [|reflexivity]. apply all_cons. split; [destruct t; [contradiction N; reflexivity|reflexivity]|]. apply all_cons. split; [|constructor]. apply forallb_forall. intros c I. apply name_iff. rewrite Forall_forall in F. auto.
Qed.
Lemma cycles_denotes : denotes cycles_m (@AOptSize Arr Shp Obs Bulk) (or_none count).
Proof.
  intros n o R. unfold cycles_m. change (or_ (alone (match_int any [isPositive] (fun i => AOptSize (Some (to_size i))))) (match_none any (AOptSize None))) with (alternative_of [match_int any [isPositive] (fun i => @AOptSize Arr Shp Obs Bulk (Some (to_size i))); match_none any (AOptSize None)]).
  rewrite alt_iff by (reflexivity || typeds). alts. rewrite (count_iff Some (@AOptSize Arr Shp Obs Bulk) n o ltac:(congruence) R), none_node. unfold or_none. destruct o as [i|]; split.
  - intros [(j & H & E)|[[_ E]|[]]]; [injection E as ->; exact H|discriminate].
  - intros H. left. eauto.
  - intros [(j & H & E)|[[H _]|[]]]; [discriminate|exact H].
  - intros ->. right. left. auto.
Qed.
Lemma out_denotes : denotes out_m (@AOptText Arr Shp Obs Bulk) file_or_none.
Proof.
  intros n o R. unfold out_m. change (or_ (alone (match_string any [nonEmpty] (fun s => AOptText (Some s)))) (match_none any (AOptText None))) with (alternative_of [match_string any [nonEmpty] (fun s => @AOptText Arr Shp Obs Bulk (Some s)); match_none any (AOptText None)]).
  rewrite alt_iff by (reflexivity || typeds). alts. rewrite (file_denotes Some (@AOptText Arr Shp Obs Bulk) n o ltac:(congruence)), none_node. unfold file_or_none, or_none. destruct o as [i|]; split.
  - intros [(j & H & E)|[[_ E]|[]]]; [injection E as ->; exact H|discriminate].
  - intros H. left. eauto.
  - intros [(j & H & E)|[[H _]|[]]]; [discriminate|exact H].
  - intros ->. right. left. auto.
Qed.
Lemma version_denotes : denotes version_m (@AVersion Arr Shp Obs Bulk) release.
Proof.
  intros n v R. unfold version_m. rewrite string_node. unfold release. split.
  - intros (s & -> & F & E). symmetry in E. apply made_some in E; [|discriminate]. apply obind_some in E. destruct E as (w & E & X). injection X as ->. apply all_cons in F. destruct F as [_ F]. apply all_cons in F. destruct F as [F _]. rewrite E in F. cbn [obind truth] in F. apply andb_prop in F. destruct F as [F1 F2]. unfold version_geb, version_leb in *. apply negb_true_iff in F1, F2.
    exists s. split; [reflexivity|]. split; [exact E|]. split; intros O; apply version_ltb_iff in O; unfold input_revamp_version, current_version in *; congruence.
  - intros (s & -> & E & O1 & O2). exists s. split; [reflexivity|]. split; [|rewrite E; reflexivity]. apply all_cons. split; [rewrite E; reflexivity|]. apply all_cons. split; [|constructor]. rewrite E. cbn [obind truth]. unfold version_geb, version_leb, input_revamp_version, current_version. rewrite andb_true_iff, !negb_true_iff. split; apply not_true_iff_false; intros X; apply version_ltb_iff in X; contradiction.
Qed.
Lemma plain_list {A} (m : mt) (w : A -> any) (ws : list A -> any) cast P : denotes m w P -> (forall v x, cast v = Some x -> v = w x) -> (forall x, cast (w x) = Some x) -> (forall l, ws l <> ABad) -> (forall y z, ws y = ws z -> y = z) ->
  denotes (array_m m [] (fun l => x <- as_all cast l ;; Some (ws x))) ws (list_of P).
Proof. intros H1 H2 H3 H4 H5 n x R. rewrite (list_denotes m w ws cast P [] H1 H2 H3 H4 H5 n x R). split; [tauto|]. intros H. split; [exact H|constructor]. Qed.
Lemma writers_denotes : denotes writers_m (@AWriters Arr Shp Obs Bulk) (list_of writes).
Proof. unfold writers_m. apply (plain_list _ AWriter); [exact writer_denotes|exact c_writer|reflexivity|discriminate|congruence]. Qed.
Lemma recorders_denotes : denotes recorders_m (@ARecorders Arr Shp Obs Bulk) (list_of records).
Proof. unfold recorders_m. apply (plain_list _ ARecorder); [exact recorder_denotes|exact c_recorder|reflexivity|discriminate|congruence]. Qed.
Lemma observables_denotes (f : family Obs) : denotes (observables_m f) (@AObservables Arr Shp Obs Bulk) (list_of (member f)).
Proof. unfold observables_m. apply (plain_list _ AObs); [apply family_denotes; congruence|exact c_obs|reflexivity|discriminate|congruence]. Qed.
Lemma bulks_denotes (f : family Bulk) : denotes (bulks_m f) (@ABulks Arr Shp Obs Bulk) (list_of (member f)).
Proof. unfold bulks_m. apply (plain_list _ ABulk); [apply family_denotes; congruence|exact c_bulk|reflexivity|discriminate|congruence]. Qed.
Lemma nonEmpty_iff {A} (l : list A) : nonEmpty l = true <-> l <> [].
Proof. destruct l; cbn; split; intros H; try discriminate H; try reflexivity; [contradiction H; reflexivity|discriminate]. Qed.
Definition moves_or_none (n : node) (l : list move) : Prop := (n = NNone /\ l = []) \/ (list_of (moves of_float) n l /\ l <> []).
Lemma moves_denotes : denotes (move_types_m of_float) (@AMoves Arr Shp Obs Bulk) moves_or_none.
Proof.
  intros n l R. unfold move_types_m. change (or_ (alone (array_m (match_alternative any (move_a of_float)) [nonEmpty] (fun l => x <- as_all as_move l ;; Some (AMoves x)))) (match_none any (AMoves []))) with
    (alternative_of [array_m (match_alternative any (move_a of_float)) [nonEmpty] (fun l => x <- as_all as_move l ;; Some (@AMoves Arr Shp Obs Bulk x)); match_none any (AMoves [])]).
  rewrite alt_iff by (reflexivity || typeds). alts.
  rewrite (list_denotes _ AMove (@AMoves Arr Shp Obs Bulk) as_move _ [nonEmpty] (move_denotes of_float) c_move ltac:(reflexivity) ltac:(discriminate) ltac:(congruence) n l R), none_node, all_cons, nonEmpty_iff. unfold moves_or_none. split.
  - intros [[H [N _]]|[[-> E]|[]]]; [right; split; [exact H|destruct l; [contradiction N; reflexivity|discriminate]]|]. injection E as ->. left. auto.
  - intros [[-> ->]|[H N]]; [right; left; auto|]. left. split; [exact H|]. split; [destruct l; [contradiction N; reflexivity|discriminate]|constructor].
Qed.
Lemma status_inj (y z : @scaler_status scaler) : @a_status Arr Shp Obs Bulk y = a_status z -> y = z.
Proof. destruct y, z; cbn; unfold some_scaler; congruence. Qed.

(** *** Environments *)
Definition env_of (vt vp vm vb : any) : option (@env) :=
  temperature <- as_dyn vt ;; pressure <- as_dyn vp ;; samplers <- as_moves vm ;;
  let e0 := emptyEnv in
  let e1 := match temperature with Some t => setTemperature t e0 | None => e0 end in
  let e2 := match pressure with Some p => setPressure p e1 | None => e1 end in
  e3 <- (match samplers with [] => Some e2 | _ => setMoveSamplers samplers e2 end) ;;
  match vb with
  | ADisabled => Some (disableBoxScaling e3)
  | v => s <- as_scaler v ;; Some (match s with Some x => setBoxScaler x e3 | None => e3 end)
  end.
Lemma env_get (d : class_data any) : create_environment d = env_of (get d "temperature") (get d "pressure") (get d "move_types") (get d "box_move_type").
Proof. unfold create_environment, env_of. destruct (get d "box_move_type"); reflexivity. Qed.
Lemma env_iff vt vp vm vb e : env_of vt vp vm vb = Some e <-> vt = ADyn (ev_temperature e) /\ vp = ADyn (ev_pressure e) /\ vm = AMoves (ev_samplers e) /\ vb = a_status (ev_scaler e).
Proof.
  unfold env_of. split.
  - intros H. apply obind_some in H. destruct H as (t & Et & H). apply obind_some in H. destruct H as (p & Ep & H). apply obind_some in H. destruct H as (m & Em & H). apply c_dyn in Et, Ep. apply c_moves in Em. subst. cbv zeta in H.
    destruct m as [|m0 m]; cbn [setMoveSamplers obind] in H; (destruct vb; try discriminate; cbn [as_scaler obind] in H; [destruct o as [x|]|]); destruct t, p; injection H as <-; repeat split.
  - intros (-> & -> & -> & ->). destruct e as [[t|] [p|] [|m0 m] [| |x]]; reflexivity.
Qed.

Ltac unbind M := repeat (apply obind_some in M; let x := fresh "x" in let E := fresh "E" in destruct M as (x & E & M)).
Ltac uncast := repeat match goal with
  | E : env_of ?a ?b ?c ?d = Some _ |- _ => apply env_iff in E; destruct E as (-> & -> & -> & ->)
  | E : as_real ?v = Some _ |- _ => apply c_real in E; subst v
  | E : as_size ?v = Some _ |- _ => apply c_size in E; subst v
  | E : as_opt_size ?v = Some _ |- _ => apply c_opt_size in E; subst v
  | E : as_bool ?v = Some _ |- _ => apply c_bool in E; subst v
  | E : as_text ?v = Some _ |- _ => apply c_text in E; subst v
  | E : as_opt_text ?v = Some _ |- _ => apply c_opt_text in E; subst v
  | E : as_version ?v = Some _ |- _ => apply c_version in E; subst v
  | E : as_writers ?v = Some _ |- _ => apply c_writers in E; subst v
  | E : as_recorders ?v = Some _ |- _ => apply c_recorders in E; subst v
  | E : as_observables ?v = Some _ |- _ => apply c_observables in E; subst v
  | E : as_bulks ?v = Some _ |- _ => apply c_bulks in E; subst v
  | E : as_shape ?v = Some _ |- _ => apply c_shape in E; subst v
  | E : as_arr ?v = Some _ |- _ => apply c_arr in E; subst v
  | E : as_runs ?v = Some _ |- _ => apply c_runs in E; subst v
  | E : as_walls ?v = Some _ |- _ => apply c_walls in E; subst v
  | E : as_threads ?v = Some _ |- _ => apply c_threads in E; subst v
  | E : as_divisions ?v = Some _ |- _ => apply c_divisions in E; subst v
  end.
Variables (arrangements : family Arr) (shapes : family Shp) (observables : family Obs) (bulks : family Bulk).
Lemma first_app (l1 l2 : list mt) n : first_match any (l1 ++ l2) n = match first_match any l1 n with NoMatch => first_match any l2 n | r => r end.
Proof. induction l1 as [|m l1 IH]; [reflexivity|]. cbn [app first_match]. destruct (mt_match any m n); [reflexivity|exact IH|reflexivity]. Qed.
Lemma helper_denotes : denotes (helper_m shapes) (@AShape Arr Shp Obs Bulk) (or_none (member shapes)).
Proof.
  intros n o R. unfold helper_m. replace (or_ (family_a (fun s => AShape (Some s)) shapes) (match_none any (AShape None))) with (alternative_of (map (family_m (fun s => @AShape Arr Shp Obs Bulk (Some s))) shapes ++ [match_none any (AShape None)])) by (unfold alternative_of; rewrite fold_left_app; reflexivity).
  rewrite alternative_first by (apply Forall_app; split; [apply Forall_forall; intros m I; apply in_map_iff in I; destruct I as (c & <- & _); apply typed_family|typeds]). rewrite first_app.
  pose proof (family_first (fun s => @AShape Arr Shp Obs Bulk (Some s)) shapes n) as K. destruct o as [s|]; cbn [or_none].
  - specialize (K (AShape (Some s))). split.
    + intros H. destruct (first_match any (map _ shapes) n) eqn:E; [|destruct n; discriminate|discriminate]. injection H as ->. destruct (proj1 K eq_refl) as (t & Et & M). injection Et as ->. exact M.
    + intros M. rewrite (proj2 K ltac:(eauto)). reflexivity.
  - split.
    + intros H. destruct (first_match any (map _ shapes) n) eqn:E; [|destruct n; try discriminate; reflexivity|discriminate]. injection H as ->. destruct (proj1 (K _) eq_refl) as (t & Et & _). discriminate.
    + intros ->. rewrite family_no by discriminate. reflexivity.
Qed.
Lemma helper_default : optional "helper_shape" (helper_m shapes) NNone = Param any (tx "helper_shape") (Some (helper_m shapes)) (Some (AShape None)).
Proof. unfold optional. rewrite (proj2 (helper_denotes NNone None Reg_none) eq_refl). reflexivity. Qed.
Lemma threads_denotes : denotes threads_m (@AThreads Arr Shp Obs Bulk) threads.
Proof.
  intros n o R. unfold threads_m. change (or_ (alone (match_string any [text_eqb (tx "max")] (fun _ => AThreads None))) (match_int any [isPositive] (fun i => AThreads (Some (to_size i))))) with
    (alternative_of [match_string any [text_eqb (tx "max")] (fun _ => @AThreads Arr Shp Obs Bulk None); match_int any [isPositive] (fun i => AThreads (Some (to_size i)))]).
  rewrite alt_iff by (reflexivity || typeds). alts. rewrite (count_iff Some (@AThreads Arr Shp Obs Bulk) n o ltac:(congruence) R), string_node. unfold threads. destruct o as [i|]; split.
  - intros [(s & _ & _ & E)|[(j & H & E)|[]]]; [discriminate|injection E as ->; exact H].
  - intros H. right. left. eauto.
  - intros [(s & -> & F & _)|[(j & H & E)|[]]]; [|discriminate]. apply all_cons in F. destruct F as [F _]. apply text_eqb_eq in F. rewrite F. reflexivity.
  - intros ->. left. exists (tx "max"). split; [reflexivity|]. split; [apply all_cons; split; [apply text_eqb_refl|constructor]|reflexivity].
Qed.
Lemma three_denotes {A} (m : mt) (w : A -> any) (ws : A * A * A -> any) cast P : denotes m w P -> (forall v x, cast v = Some x -> v = w x) -> (forall x, cast (w x) = Some x) -> (forall l, ws l <> ABad) -> (forall y z, ws y = ws z -> y = z) ->
  denotes (array_m m [size_three] (fun l => x <- as_all cast l ;; t <- three x ;; Some (ws t))) ws (three_of P).
Proof.
  intros D C W Nb Wi n [[x y] z] R. unfold array_m. rewrite array_node. unfold three_of. cbn [fst snd]. split.
  - intros (l & vs & -> & H & E). apply array_iff in H. destruct H as [H F]. cbn [am_element am_filters] in *. symmetry in E. apply made_some in E; [|apply Nb]. apply obind_some in E. destruct E as (ys & E & X). apply (all_of cast w C W) in E. apply obind_some in X. destruct X as (t & T & X). injection X as X. apply Wi in X. subst t vs.
    destruct ys as [|a [|b [|c [|]]]]; try discriminate. cbn in T. injection T as -> -> ->. inversion R as [| | | | |? Rl| |]; subst. cbn [map] in H. inversion H as [|na ? la ? H1 H2]; subst. inversion H2 as [|nb ? lb ? H3 H4]; subst. inversion H4 as [|nc ? lc ? H5 H6]; subst. inversion H6; subst.
    inversion Rl as [|? ? R1 Rl1]; subst. inversion Rl1 as [|? ? R2 Rl2]; subst. inversion Rl2 as [|? ? R3 Rl3]; subst. exists na, nb, nc. split; [reflexivity|]. split; [apply (D na x R1); exact H1|]. split; [apply (D nb y R2); exact H3|apply (D nc z R3); exact H5].
  - intros (a & b & c & -> & H1 & H2 & H3). inversion R as [| | | | |? Rl| |]; subst. inversion Rl as [|? ? R1 Rl1]; subst. inversion Rl1 as [|? ? R2 Rl2]; subst. inversion Rl2 as [|? ? R3 Rl3]; subst.
    exists [a; b; c], (map w [x; y; z]). split; [reflexivity|]. split; [apply array_iff; split; [|apply all_cons; split; [reflexivity|constructor]]|symmetry; apply made_some; [apply Nb|]; apply obind_some; exists [x; y; z]; split; [apply (all_of cast w C W); reflexivity|reflexivity]].
    cbn [map am_element]. repeat constructor; apply (D _ _); assumption.
Qed.
Lemma divisions_denotes : denotes divisions_m (@ADivisions Arr Shp Obs Bulk) (three_of count).
Proof. unfold divisions_m. apply (three_denotes _ ASize); [exact count_denotes|exact c_size|reflexivity|discriminate|congruence]. Qed.
Lemma walls_denotes : denotes walls_m (@AWalls Arr Shp Obs Bulk) (three_of yes_no).
Proof. unfold walls_m. apply (three_denotes _ ABool); [exact bool_denotes|exact c_bool|reflexivity|discriminate|congruence]. Qed.
Lemma seed_denotes : denotes seed_m (@ASize Arr Shp Obs Bulk) wrapped. Proof. exact wrapped_denotes. Qed.
Lemma null_denotes : denotes nullable_every (@ASize Arr Shp Obs Bulk) wrapped. Proof. exact wrapped_denotes. Qed.
Lemma every_denotes : denotes not_null_every (@ASize Arr Shp Obs Bulk) count. Proof. exact count_denotes. Qed.
Lemma arr_denotes : denotes (arrangement_m arrangements) (@AArr Arr Shp Obs Bulk) (member arrangements).
Proof. apply family_denotes. congruence. Qed.
Definition some_shape (s : Shp) : any := AShape (Some s).
Lemma shape_denotes : denotes (shape_m shapes) some_shape (member shapes).
Proof. apply (family_denotes (fun s => @AShape Arr Shp Obs Bulk (Some s))). congruence. Qed.

Ltac den := lazymatch goal with
  | |- denotes run_name_m _ _ => exact run_name_denotes
  | |- denotes cycles_m _ _ => exact cycles_denotes
  | |- denotes not_null_every _ _ => exact every_denotes
  | |- denotes nullable_every _ _ => exact null_denotes
  | |- denotes seed_m _ _ => exact seed_denotes
  | |- denotes (dynamic_m _) _ _ => exact (dynamic_denotes of_float)
  | |- denotes (move_types_m _) _ _ => exact moves_denotes
  | |- denotes (box_scaler_m _) _ _ => exact (status_denotes of_float)
  | |- denotes writers_m _ _ => exact writers_denotes
  | |- denotes recorders_m _ _ => exact recorders_denotes
  | |- denotes out_m _ _ => exact out_denotes
  | |- denotes (observables_m _) _ _ => exact (observables_denotes observables)
  | |- denotes (bulks_m _) _ _ => exact (bulks_denotes bulks)
  | |- denotes (helper_m _) _ _ => exact helper_denotes
  | |- denotes version_m _ _ => exact version_denotes
  | |- denotes (arrangement_m _) _ _ => exact arr_denotes
  | |- denotes (shape_m _) _ _ => exact shape_denotes
  | |- denotes walls_m _ _ => exact walls_denotes
  | |- denotes threads_m _ _ => exact threads_denotes
  | |- denotes divisions_m _ _ => exact divisions_denotes
  | |- denotes (match_bool _ _ _) _ _ => exact bool_denotes
  end.
Ltac defaults := first [reflexivity | split; [reflexivity|lia] | left; split; reflexivity | exists []; split; [reflexivity|constructor] | exists 0; split; reflexivity | exists (NBool false), (NBool false), (NBool false); solve [repeat split] | exists (NInt 1), (NInt 1), (NInt 1); repeat split; reflexivity].
Ltac reg := first [apply Reg_none | apply Reg_bool | apply Reg_string | apply Reg_int; lia | apply Reg_array; repeat constructor; lia | repeat constructor].
Ltac req Ra := eapply req_iff'; [|exact Ra|eassumption]; den.
Ltac opt Ra := eapply opt_iff; [|exact Ra| | | |eassumption]; [den|reg|defaults|first [exact status_inj|congruence]].
Ltac fwd SG R := intros (a & vs & O & B & F & M); pose proof (object_regular _ _ _ _ R O) as Ra; cbn [binds fst SG] in B; values vs B; decompose [and] B; clear B; symmetry in M; apply made_some in M; [|discriminate]; revert M F; rewrite ?all_cons, ?env_get; gets; intros M F; unbind M; uncast.

Lemma has_iff {A} (o : option A) : has o = true <-> o <> None. Proof. destruct o; cbn; split; congruence. Qed.
Lemma integration_iff n r : regular n -> (mt_match any (integration_class of_float observables bulks) n = Match (ARun r) <-> exists r', r = RunIntegration r' /\ exists a, object n "integration" integration_sig a /\ integration_args of_float observables bulks a r').
Proof.
  intros R. unfold integration_class. rewrite class_object with (sg := integration_sig); [|reflexivity|reflexivity|exact R]. split.
  - fwd integration_sig R. injection M as <-. eexists. split; [reflexivity|]. exists a. split; [exact O|]. destruct F as (F1 & F2 & F3 & F4 & _). cbn [as_opt_size as_size as_opt_text as_bulks obind truth] in F1, F2, F3, F4.
    rewrite orb_true_iff, !has_iff in F1. rewrite orb_true_iff, negb_true_iff in F2. rewrite orb_true_iff, andb_true_iff, !negb_true_iff, has_iff in F3. rewrite orb_true_iff, negb_true_iff, has_iff in F4.
    constructor; cbn [in_name in_env in_thermalization in_averaging in_snapshot_every in_averaging_every in_inline_every in_fix_every in_writers in_ramsnap in_recorders in_ramtrj in_observables in_bulk in_averages_out in_observables_out in_bulk_pattern]; try solve [req Ra|opt Ra].
    + constructor; opt Ra.
    + apply ramsnap_iff. reflexivity.
    + apply ramtrj_iff. reflexivity.
    + exact F1.
    + intros N. unfold isPositive in F2. destruct F2 as [F2|F2]; [apply has_iff in N; congruence|lia].
    + intros ->. destruct F3 as [F3|[F3 F5]]; [contradiction F3; reflexivity|]. split; [destruct x11; [discriminate|reflexivity]|destruct x10; [reflexivity|discriminate]].
    + intros N. destruct F4 as [F4|F4]; [apply nonEmpty_iff in N; congruence|exact F4].
  - intros (r' & -> & a & O & [I1 [W1 W2 W3 W4] I2 I3 I4 I5 I6 I7 I8 I9 I10 I11 I12 I13 I14 I15 I16 I17 I18 I19 I20]). destruct r' as [nm e th av sn ae ie fe wr rs rc rt ob bu ao oo bp].
    cbn [in_name in_env in_thermalization in_averaging in_snapshot_every in_averaging_every in_inline_every in_fix_every in_writers in_ramsnap in_recorders in_ramtrj in_observables in_bulk in_averages_out in_observables_out in_bulk_pattern] in *.
    pose proof (object_regular _ _ _ _ R O) as Ra. fold moves_or_none in W3.
    exists a, [AText nm; AOptSize th; AOptSize av; ASize sn; ADyn (ev_temperature e); ADyn (ev_pressure e); AMoves (ev_samplers e); a_status (ev_scaler e); ASize ae; ASize ie; ASize fe; AWriters wr; ARecorders rc; AOptText ao; AObservables ob; AOptText oo; ABulks bu; AOptText bp].
    split; [exact O|]. split; [cbn [binds fst integration_sig]; repeat (split; [first [req Ra|opt Ra]|]); exact Logic.I|]. rewrite !all_cons, ?env_get. gets. cbn [as_opt_size as_size as_opt_text as_bulks as_text as_writers as_recorders as_observables obind truth].
    rewrite (proj2 (env_iff _ _ _ _ e)) by auto. cbn [obind]. rewrite (proj2 (ramsnap_iff wr rs) I15), (proj2 (ramtrj_iff rc rt) I16). split; [|reflexivity].
    rewrite !orb_true_iff, andb_true_iff, !negb_true_iff, !has_iff. split; [exact I17|]. split; [|split; [|split; [|constructor]]].
    + destruct av; [right; unfold isPositive; apply Z.ltb_lt; apply I18; discriminate|left; reflexivity].
    + destruct av; [left; discriminate|right]. destruct (I19 eq_refl) as [-> ->]. auto.
    + destruct bu; [left; reflexivity|right; apply I20; discriminate].
Qed.
Lemma overlap_iff n r : regular n -> (mt_match any (overlap_class of_float shapes observables) n = Match (ARun r) <-> exists r', r = RunOverlap r' /\ exists a, object n "overlap_relaxation" overlap_sig a /\ overlap_args of_float shapes observables a r').
Proof.
  intros R. unfold overlap_class. rewrite class_object with (sg := overlap_sig); [|rewrite helper_default; reflexivity|reflexivity|exact R]. split.
  - fwd overlap_sig R. injection M as <-. eexists. split; [reflexivity|]. exists a. split; [exact O|].
    constructor; cbn [ov_name ov_env ov_snapshot_every ov_inline_every ov_fix_every ov_helper ov_writers ov_ramsnap ov_recorders ov_ramtrj ov_observables ov_observables_out]; try solve [req Ra|opt Ra].
    + constructor; opt Ra.
    + apply ramsnap_iff. reflexivity.
    + apply ramtrj_iff. reflexivity.
  - intros (r' & -> & a & O & [I1 [W1 W2 W3 W4] I2 I3 I4 I5 I6 I7 I8 I9 I10 I11]). destruct r' as [nm e sn ie fe he wr rs rc rt ob oo].
    cbn [ov_name ov_env ov_snapshot_every ov_inline_every ov_fix_every ov_helper ov_writers ov_ramsnap ov_recorders ov_ramtrj ov_observables ov_observables_out] in *.
    pose proof (object_regular _ _ _ _ R O) as Ra. fold moves_or_none in W3.
    exists a, [AText nm; ASize sn; ADyn (ev_temperature e); ADyn (ev_pressure e); AMoves (ev_samplers e); a_status (ev_scaler e); ASize ie; ASize fe; AShape he; AWriters wr; ARecorders rc; AObservables ob; AOptText oo].
    split; [exact O|]. split; [cbn [binds fst overlap_sig]; repeat (split; [first [req Ra|opt Ra]|]); exact Logic.I|]. split; [constructor|]. rewrite ?env_get. gets. cbn [as_opt_size as_size as_opt_text as_bulks as_text as_writers as_recorders as_observables as_shape obind truth].
    rewrite (proj2 (env_iff _ _ _ _ e)) by auto. cbn [obind]. rewrite (proj2 (ramsnap_iff wr rs) I10), (proj2 (ramtrj_iff rc rt) I11). reflexivity.
Qed.
Definition some_run (r : @run Shp Obs Bulk) : any := ARun r.
Lemma run_denotes : denotes (match_alternative any (run_a of_float shapes observables bulks)) some_run (runs of_float shapes observables bulks).
Proof.
  intros n r R. change (run_a of_float shapes observables bulks) with (alternative_of [integration_class (Arr := Arr) (Shp := Shp) of_float observables bulks; overlap_class of_float shapes observables]).
  rewrite alt_iff by (reflexivity || typeds). alts. unfold some_run. rewrite (integration_iff n r R), (overlap_iff n r R). unfold runs. split.
  - intros [(r' & -> & H)|[(r' & -> & H)|[]]]; exact H.
  - destruct r as [r|r]; intros H; [left|right; left]; exists r; auto.
Qed.
Lemma runs_denotes : denotes (runs_m of_float shapes observables bulks) (@ARuns Arr Shp Obs Bulk) (fun n l => list_of (runs of_float shapes observables bulks) n l /\ l <> []).
Proof.
  intros n l R. unfold runs_m. rewrite (list_denotes _ some_run (@ARuns Arr Shp Obs Bulk) as_run _ [nonEmpty] run_denotes c_run ltac:(reflexivity) ltac:(discriminate) ltac:(congruence) n l R), all_cons, nonEmpty_iff. split.
  - intros [H [N _]]. split; [exact H|destruct l; [contradiction N; reflexivity|discriminate]].
  - intros [H N]. split; [exact H|]. split; [destruct l; [contradiction N; reflexivity|discriminate]|constructor].
Qed.
Lemma rampack_iff n p : regular n -> (mt_match any (rampack_class of_float arrangements shapes observables bulks) n = Match (AParams p) <-> input of_float arrangements shapes observables bulks n p).
Proof.
  intros R. unfold rampack_class, input. rewrite class_object with (sg := rampack_sig); [|reflexivity|reflexivity|exact R]. split.
  - fwd rampack_sig R. injection M as <-. exists a. split; [exact O|]. destruct F as (F1 & F2 & _). cbn [as_runs obind truth] in F1, F2.
    rewrite (proj2 (env_iff _ _ _ _ x4)) in F2 by auto. cbn [obind] in F2. subst x1. rewrite truth_true, obind_some in F2. destruct F2 as (r & Er & C). injection C as C. change (AShape (Some x2)) with (some_shape x2) in H0. eapply req_iff' in H3; [|exact runs_denotes|exact Ra].
    constructor; cbn [bp_version bp_arrangement bp_env bp_seed bp_shape bp_walls bp_threads bp_divisions bp_signals pr_runs]; try solve [req Ra|opt Ra].
    + destruct H3 as (m & Em & H3 & _). exists m. auto.
    + constructor; opt Ra.
    + apply unique_iff. exact F1.
    + apply completed_iff in C. destruct C as (e & C). exists r, e. auto.
  - intros (a & O & [I1 I2 I3 I4 I5 [W1 W2 W3 W4] I6 I7 I8 I9 I10 (r & c & Er & C)]). destruct p as [v ar e sd sh wl th dv sg rn]. cbn [bp_version bp_arrangement bp_env bp_seed bp_shape bp_walls bp_threads bp_divisions bp_signals pr_runs] in *.
    pose proof (object_regular _ _ _ _ R O) as Ra. fold moves_or_none in W3.
    exists a, [AVersion v; AArr ar; some_shape sh; ASize sd; ARuns rn; ADyn (ev_temperature e); ADyn (ev_pressure e); AMoves (ev_samplers e); a_status (ev_scaler e); AWalls wl; AThreads th; ADivisions dv; ABool sg].
    assert (I5' : arg a "runs" (fun n l => list_of (runs of_float shapes observables bulks) n l /\ l <> []) rn) by (destruct I5 as (m & Em & H5); exists m; split; [exact Em|split; [exact H5|intros ->; discriminate]]).
    split; [exact O|]. split; [cbn [binds fst rampack_sig]; repeat (split; [first [req Ra|opt Ra|eapply req_iff'; [exact runs_denotes|exact Ra|exact I5']]|]); exact Logic.I|].
    rewrite !all_cons, ?env_get. gets. cbn [as_version as_arr as_shape some_shape as_size as_runs as_walls as_threads as_divisions as_bool obind truth]. rewrite (proj2 (env_iff _ _ _ _ e)) by auto. cbn [obind]. rewrite Er. cbn [obind truth]. split; [|reflexivity].
    split; [apply unique_iff; exact I10|]. split; [|constructor]. apply completed_iff. eauto.
Qed.
Lemma read_iff erange s p : read_input of_float arrangements shapes observables bulks erange s = Some p <-> exists n, parse erange s = Ok n /\ input of_float arrangements shapes observables bulks n p.
Proof.
  unfold read_input. split.
  - destruct (parse erange s) as [n| |] eqn:E; try discriminate. intros H. exists n. split; [reflexivity|]. apply rampack_iff; [eapply parse_regular; exact E|]. destruct (mt_match _ _ n) as [v| |]; try discriminate. destruct v; try discriminate. injection H as ->. reflexivity.
  - intros (n & E & H). rewrite E. apply rampack_iff in H; [rewrite H; reflexivity|eapply parse_regular; exact E].
Qed.
End Runs.
