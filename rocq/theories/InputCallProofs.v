(** Calls of classes, defaults, alternatives. *)
From Coq Require Import Reals ZArith List Bool Lia ZifyBool Sorted String.
From Verif Require Import TextModel TextProofs StringsModel ScalingModel PyonModel MatchModel MatchSpec MatchProofs SimModel OptModel InputModel InputSpec.
Import ListNotations.
Open Scope Z_scope.

Lemma obind_some {A B} (o : option A) (f : A -> option B) b : (x <- o ;; f x) = Some b <-> exists a, o = Some a /\ f a = Some b.
Proof. destruct o as [a|]; cbn [obind]; split; [eauto|intros (x & E & H); injection E as ->; exact H|discriminate|intros (x & E & _); discriminate]. Qed.

Lemma keyword_in kw k : NoDup (map fst kw) -> forall n, keyword kw k = Some n <-> In (k, n) kw.
Proof.
  unfold keyword. induction kw as [|[k' n'] kw IH]; intros N n; cbn [List.find fst map] in *; [split; [discriminate|intros []]|]. inversion N as [|? ? N1 N2]; subst.
  destruct (text_eqb k k') eqn:E.
  - apply text_eqb_eq in E. subst k'. cbn [option_map snd]. split; [intros H; injection H as ->; left; reflexivity|]. intros [H|H]; [congruence|]. exfalso. apply N1. apply in_map_iff. exists (k, n). auto.
  - apply text_eqb_neq in E. rewrite (IH N2). split; [right; assumption|]. intros [H|H]; [congruence|assumption].
Qed.
Lemma keyword_none kw k : keyword kw k = None <-> ~ In k (map fst kw).
Proof.
  unfold keyword. induction kw as [|[k' n'] kw IH]; cbn [List.find fst map In]; [split; [tauto|reflexivity]|]. destruct (text_eqb k k') eqn:E.
  - apply text_eqb_eq in E. subst k'. split; [discriminate|tauto].
  - apply text_eqb_neq in E. rewrite IH. split; [intros H [X|X]; [congruence|tauto]|tauto].
Qed.
Lemma given_nth ns kw k : NoDup ns -> forall pos i, nth_error ns i = Some k -> given ns pos kw k = match nth_error pos i with Some n => Some n | None => keyword kw k end.
Proof.
  induction ns as [|n ns IH]; intros N pos i H; [destruct i; discriminate|]. inversion N as [|? ? N1 N2]; subst. cbn [given]. destruct i as [|i]; cbn [nth_error] in H.
  - injection H as ->. rewrite text_eqb_refl. destruct pos; reflexivity.
  - destruct (text_eqb k n) eqn:E; [apply text_eqb_eq in E; subst n; exfalso; apply N1; eapply nth_error_In; eauto|]. rewrite (IH N2 (tl pos) i H). destruct pos as [|p pos]; [destruct i; reflexivity|reflexivity].
Qed.
Lemma given_regular ns kw k n : Forall (fun e => regular (snd e)) kw -> forall pos, Forall regular pos -> given ns pos kw k = Some n -> regular n.
Proof.
  intros K. induction ns as [|m ns IH]; intros pos P H; [discriminate|]. cbn [given] in H. destruct (text_eqb k m).
  - destruct pos as [|p pos]; [|injection H as ->; inversion P; assumption]. unfold keyword in H. destruct (List.find _ kw) as [e|] eqn:E; [|discriminate]. injection H as <-. apply find_some in E. rewrite Forall_forall in K. apply K. tauto.
  - apply (IH (tl pos)); [destruct P; [constructor|assumption]|exact H].
Qed.

Section Calls.
Context {Arr Shp Obs Bulk : Type}.
Notation any := (@any Arr Shp Obs Bulk).
Notation mt := (matcher any).
Notation parm := (param any).
Notation acc := (accepts (@ANode Arr Shp Obs Bulk)).

Definition valued (p : parm) (o : option node) (v : any) : Prop := match o with Some n => acc (p_matcher any p) n v | None => p_default any p = Some v end.
Fixpoint binds (sg : signature) (ps : list parm) (a : string -> option node) (vs : list any) : Prop :=
  match sg, ps, vs with
  | [], [], [] => True
  | s :: sg', p :: ps', v :: vs' => valued p (a (fst s)) v /\ binds sg' ps' a vs'
  | _, _, _ => False
  end.
(** Parameters as in the signature. *)
Fixpoint declared (sg : signature) (ps : list parm) : bool :=
  match sg, ps with
  | [], [] => true
  | s :: sg', p :: ps' => text_eqb (p_name any p) (tx (fst s)) && Bool.eqb (snd s) (match p_default any p with None => true | Some _ => false end) && declared sg' ps'
  | _, _ => false
  end.
Lemma declared_names sg : forall ps, declared sg ps = true -> map (p_name any) ps = names sg.
Proof. induction sg as [|s sg IH]; intros [|p ps] D; try discriminate; [reflexivity|]. cbn [declared] in D. apply andb_prop in D. destruct D as [D D']. apply andb_prop in D. destruct D as [D _]. apply text_eqb_eq in D. cbn [map names]. unfold names in IH. rewrite D, (IH ps D'). reflexivity. Qed.
Lemma declared_nth sg : forall ps, declared sg ps = true -> forall i p, nth_error ps i = Some p <-> exists s, nth_error sg i = Some s /\ nth_error ps i = Some p /\ p_name any p = tx (fst s) /\ (snd s = true <-> p_default any p = None).
Proof.
  intros ps D i p. split; [|intros (s & _ & H & _); exact H]. revert ps D i p. induction sg as [|s sg IH]; intros [|q ps] D i p H; try discriminate; [destruct i; discriminate|]. cbn [declared] in D. apply andb_prop in D. destruct D as [D D']. apply andb_prop in D. destruct D as [D D1]. apply text_eqb_eq in D. apply eqb_prop in D1.
  destruct i as [|i]; cbn [nth_error] in *; [|exact (IH ps D' i p H)]. injection H as ->. exists s. repeat split; auto; rewrite D1; destruct (p_default any p); try discriminate; auto.
Qed.
Lemma declared_length sg : forall ps, declared sg ps = true -> List.length ps = List.length sg.
Proof. intros ps D. apply declared_names in D. apply (f_equal (@List.length _)) in D. unfold names in D. rewrite !map_length in D. exact D. Qed.

Lemma call_iff c sg pos kw : declared sg (cm_params any c) = true -> NoDup (names sg) -> NoDup (map fst kw) -> cm_args any c = None ->
  (~ call_error c pos kw <-> call (match cm_kwargs any c with Some _ => true | None => false end) sg pos kw).
Proof.
  intros D N Nk Ha. pose proof (declared_nth sg _ D) as Dn. pose proof (declared_length sg _ D) as Dl. pose proof (declared_names sg _ D) as Ds. split.
  - intros H. constructor.
    + destruct (Nat.le_gt_cases (List.length pos) (List.length sg)) as [L|L]; [exact L|]. exfalso. apply H. apply E_excessive; [exact Ha|]. rewrite Dl. exact L.
    + intros M k I. destruct (in_dec (list_eq_dec Z.eq_dec) k (names sg)) as [Y|Y]; [exact Y|]. exfalso. apply H. apply (E_unknown c pos kw k); [destruct (cm_kwargs any c); [discriminate|reflexivity]|exact I|rewrite Ds; exact Y].
    + intros i k L E I. destruct (nth_error (cm_params any c) i) as [p|] eqn:Ep.
      * assert (p_name any p = k). { assert (X : nth_error (map (p_name any) (cm_params any c)) i = Some (p_name any p)) by (apply map_nth_error; exact Ep). rewrite Ds in X. congruence. }
        destruct (nth_error pos i) as [n|] eqn:En; [|apply nth_error_None in En; lia]. apply H. apply (E_twice c pos kw i p n Ep En). rewrite H0. exact I.
      * apply nth_error_None in Ep. apply (f_equal (@List.length _)) in Ds. rewrite map_length in Ds. assert (X : (i < List.length (names sg))%nat) by (apply nth_error_Some; congruence). lia.
    + intros k I X. apply In_nth_error in I. destruct I as (i & I). destruct (nth_error (cm_params any c) i) as [p|] eqn:Ep; [|apply nth_error_None in Ep; rewrite Dl in Ep; assert ((i < List.length sg)%nat) by (apply nth_error_Some; congruence); lia].
      pose proof (proj1 (Dn i p) Ep) as (s & Es & _ & En & Er). rewrite I in Es. injection Es as <-. cbn [fst snd] in *. rewrite (given_nth (names sg) kw (tx k) N pos i) in X by (unfold names; rewrite (map_nth_error _ _ _ I); reflexivity).
      destruct (nth_error pos i) as [n|] eqn:Eo; [discriminate|]. apply keyword_none in X. apply H. apply (E_missing c pos kw i p Ep Eo); [rewrite En; exact X|apply Er; reflexivity].
  - intros [F K O R] H. destruct H as [Ha' L|i p Ep Eo X Dp|i p n Ep Eo X|k Hk I X].
    + rewrite Dl in L. lia.
    + pose proof (proj1 (Dn i p) Ep) as (s & Es & _ & En & Er). destruct s as [k b]. cbn [fst snd] in *. assert (b = true) by (apply Er; exact Dp). subst b. apply (R k (nth_error_In _ _ Es)). rewrite (given_nth (names sg) kw (tx k) N pos i) by (unfold names; rewrite (map_nth_error _ _ _ Es); reflexivity). rewrite Eo. apply keyword_none. rewrite <- En. exact X.
    + apply (O i (p_name any p)); [apply nth_error_Some; congruence|rewrite <- Ds; apply map_nth_error; exact Ep|exact X].
    + rewrite Hk in K. apply X. rewrite Ds. apply K; auto.
Qed.
Lemma bound_iff sg c pos kw i p v : declared sg (cm_params any c) = true -> NoDup (names sg) -> NoDup (map fst kw) -> nth_error (cm_params any c) i = Some p ->
  (bound (@ANode Arr Shp Obs Bulk) pos kw i p v <-> valued p (given (names sg) pos kw (p_name any p)) v).
Proof.
  intros D N Nk Ep. rewrite (given_nth (names sg) kw (p_name any p) N pos i) by (rewrite <- (declared_names sg _ D); apply map_nth_error; exact Ep). split.
  - intros [n u Eo H|n u Eo I H|u Eo I H]; rewrite Eo; [exact H| |].
    + apply keyword_in in I; [|exact Nk]. rewrite I. exact H.
    + apply keyword_none in I. rewrite I. exact H.
  - destruct (nth_error pos i) as [n|] eqn:Eo; intros H; [exact (B_positional _ _ _ _ _ n v Eo H)|]. destruct (keyword kw (p_name any p)) as [n|] eqn:Ek.
    + apply keyword_in in Ek; [|exact Nk]. exact (B_keyword _ _ _ _ _ n v Eo Ek H).
    + apply keyword_none in Ek. exact (B_default _ _ _ _ _ v Eo Ek H).
Qed.
Lemma binds_iff (a : string -> option node) (g : text -> option node) : (forall k, a k = g (tx k)) -> forall sg ps, declared sg ps = true -> forall vs, binds sg ps a vs <->
  List.length vs = List.length ps /\ forall i p, nth_error ps i = Some p -> exists v, nth_error (combine (names sg) vs) i = Some (p_name any p, v) /\ valued p (g (p_name any p)) v.
Proof.
  intros G. induction sg as [|s sg IH]; intros [|p ps] D vs; try discriminate.
  - destruct vs as [|v vs]; cbn [binds]; split; try tauto; [intros _; split; [reflexivity|intros [|i] q H; discriminate]|intros [H _]; discriminate].
  - cbn [declared] in D. apply andb_prop in D. destruct D as [D D']. apply andb_prop in D. destruct D as [D _]. apply text_eqb_eq in D. destruct vs as [|v vs]; cbn [binds]; [split; [tauto|intros [H _]; discriminate]|]. rewrite (IH ps D' vs). rewrite G. cbn [names map combine List.length]. split.
    + intros (H & L & K). split; [lia|]. intros [|i] q E; cbn [nth_error] in *; [injection E as <-; exists v; rewrite D; auto|apply K; exact E].
    + intros (L & K). split; [|split; [lia|intros i q E; exact (K (S i) q E)]]. destruct (K O p eq_refl) as (v' & E & H). cbn [nth_error] in E. injection E as E1 E2. subst v'. rewrite <- D. exact H.
Qed.

Lemma combine_names sg : forall (ps : list parm) std, declared sg ps = true -> List.length std = List.length ps -> (forall i p, nth_error ps i = Some p -> exists v : any, nth_error std i = Some (p_name any p, v)) -> std = combine (names sg) (map snd std).
Proof.
  induction sg as [|s sg IH]; intros [|p ps] std D L H; try discriminate; [destruct std; [reflexivity|discriminate]|]. destruct std as [|e std]; [discriminate|]. cbn [declared] in D. apply andb_prop in D. destruct D as [D D']. apply andb_prop in D. destruct D as [D _]. apply text_eqb_eq in D.
  cbn [names map combine]. destruct (H O p eq_refl) as (v & E). cbn [nth_error] in E. injection E as ->. cbn [snd]. rewrite D. f_equal. apply (IH ps std D'); [cbn [List.length] in L; lia|intros i q E; exact (H (S i) q E)].
Qed.

(** Matching of a class without variadic positional arguments. *)
Lemma class_call name ps kwargs fs mapping sg n v : declared sg ps = true -> repeated (names sg) = false -> regular n ->
  (mt_match any (class_m name ps None kwargs fs mapping) n = Match v <->
   exists pos kw a vs kwd, n = NClass (tx name) pos kw /\ call (match kwargs with Some _ => true | None => false end) sg pos kw /\ (forall k, a k = given (names sg) pos kw (tx k)) /\ binds sg ps a vs /\
     match kwargs with None => kwd = [] | Some m => dict_matched (@ANode Arr Shp Obs Bulk) m (filter (fun e => negb (existsb (text_eqb (fst e)) (names sg))) kw) kwd end /\
     all_true fs (ClassData any (combine (names sg) vs) [] kwd) /\ v = made (mapping (ClassData any (combine (names sg) vs) [] kwd))).
Proof.
  intros D Rn R. apply repeated_iff in Rn. unfold class_m. rewrite class_node. cbn [cm_name]. set (c := ClassMatcher any (tx name) ps None kwargs fs). split.
  - intros (pos & kw & d & -> & H & ->). inversion R as [| | | | | | |? ? ? Rp Nk Rk]; subst. apply class_iff in H; [|cbn [cm_params c]; rewrite (declared_names _ _ D); exact Rn|exact Nk]. destruct H as (C & L & B & A1 & A2 & F). cbn [cm_args cm_kwargs cm_params cm_filters c] in *.
    assert (Ed : d = ClassData any (combine (names sg) (map snd (cd_standard any d))) [] (cd_kwargs any d)).
    { destruct d as [std ar kw']. cbn [cd_standard cd_args cd_kwargs] in *. subst ar. f_equal. apply (combine_names sg ps std D L). intros i p E. destruct (B i p E) as (u & E' & _). eauto. }
    exists pos, kw, (fun k => given (names sg) pos kw (tx k)), (map snd (cd_standard any d)), (cd_kwargs any d). rewrite <- Ed. split; [reflexivity|]. split; [exact (proj1 (call_iff c sg pos kw D Rn Nk eq_refl) C)|]. split; [reflexivity|].
    split; [|split; [|split; [exact F|reflexivity]]].
    + apply (binds_iff _ (given (names sg) pos kw) ltac:(reflexivity) sg ps D). rewrite map_length. split; [exact L|]. intros i p E. destruct (B i p E) as (u & E' & Bd). exists u. split; [|apply (bound_iff sg c pos kw i p u D Rn Nk E); exact Bd].
      rewrite Ed in E'. exact E'.
    + destruct kwargs as [m|]; [|exact A2]. rewrite (declared_names _ _ D) in A2. exact A2.
  - intros (pos & kw & a & vs & kwd & -> & C & G & B & K & F & ->). inversion R as [| | | | | | |? ? ? Rp Nk Rk]; subst. exists pos, kw, (ClassData any (combine (names sg) vs) [] kwd). split; [reflexivity|]. split; [|reflexivity].
    apply class_iff; [cbn [cm_params c]; rewrite (declared_names _ _ D); exact Rn|exact Nk|]. apply (binds_iff _ (given (names sg) pos kw) G sg ps D) in B. destruct B as [L B]. unfold class_matched. cbn [cm_args cm_kwargs cm_params cm_filters cd_standard cd_args cd_kwargs c].
    split; [exact (proj2 (call_iff c sg pos kw D Rn Nk eq_refl) C)|]. split; [rewrite combine_length; unfold names; rewrite map_length, L, (declared_length sg ps D); apply Nat.min_id|].
    split; [|split; [reflexivity|split; [destruct kwargs as [m|]; [rewrite (declared_names _ _ D); exact K|exact K]|exact F]]]. intros i p E. destruct (B i p E) as (u & E' & V). exists u. split; [exact E'|]. apply (bound_iff sg c pos kw i p u D Rn Nk E). exact V.
Qed.
Lemma class_object name ps fs mapping sg n v : declared sg ps = true -> repeated (names sg) = false -> regular n ->
  (mt_match any (class_m name ps None None fs mapping) n = Match v <->
   exists a vs, object n name sg a /\ binds sg ps a vs /\ all_true fs (ClassData any (combine (names sg) vs) [] []) /\ v = made (mapping (ClassData any (combine (names sg) vs) [] []))).
Proof.
  intros D Rn R. rewrite (class_call name ps None fs mapping sg n v D Rn R). split.
  - intros (pos & kw & a & vs & kwd & E & C & G & B & -> & H). exists a, vs. split; [exists pos, kw; auto|]. auto.
  - intros (a & vs & (pos & kw & E & C & G) & B & H). exists pos, kw, a, vs, []. tauto.
Qed.
Lemma object_regular n name sg a : regular n -> object n name sg a -> forall k m, a k = Some m -> regular m.
Proof. intros R (pos & kw & -> & _ & G) k m H. inversion R; subst. rewrite G in H. eapply given_regular; eauto. Qed.

(** Values taken by names. *)
Fixpoint index (k : text) (ns : list text) : option nat := match ns with [] => None | n :: ns' => if text_eqb k n then Some O else option_map S (index k ns') end.
Lemma get_nth k ns (vs : list any) x y : get (ClassData any (combine ns vs) x y) k = match index (tx k) ns with Some i => nth i vs ABad | None => ABad end.
Proof.
  unfold get. cbn [cd_standard]. revert vs. induction ns as [|n ns IH]; intros vs; cbn [combine List.find index]; [reflexivity|]. destruct vs as [|v vs]; cbn [List.find fst].
  - destruct (text_eqb (tx k) n); [reflexivity|]. destruct (index (tx k) ns); reflexivity.
  - destruct (text_eqb (tx k) n); [reflexivity|]. rewrite IH. destruct (index (tx k) ns); reflexivity.
Qed.

(** A matcher and what it means. *)
Definition denotes {A} (m : mt) (w : A -> any) (P : node -> A -> Prop) : Prop := forall n x, regular n -> (mt_match any m n = Match (w x) <-> P n x).
Definition regular_args (a : string -> option node) : Prop := forall k m, a k = Some m -> regular m.
Lemma req_iff {A} k m (w : A -> any) P a x : denotes m w P -> regular_args a -> (valued (required k m) (a k) (w x) /\ a k <> None <-> arg a k P x).
Proof.
  intros H R. unfold valued, arg, required. cbn [p_matcher p_default accepts]. destruct (a k) as [n|] eqn:E; [|split; [intros [X _]; discriminate|intros (n & X & _); discriminate]]. split; [intros [X _]|intros (n' & X & Y); injection X as <-; split; [|discriminate]].
  - exists n. split; [reflexivity|]. apply (H n x (R k n E)). exact X.
  - apply (H n x (R k n E)). exact Y.
Qed.
Lemma req_iff' {A} k m (w : A -> any) P a x : denotes m w P -> regular_args a -> (valued (required k m) (a k) (w x) <-> arg a k P x).
Proof. intros H R. rewrite <- (req_iff k m w P a x H R). split; [|tauto]. intros V. split; [exact V|]. unfold valued, required in V. destruct (a k); [discriminate|]. cbn [p_default] in V. discriminate. Qed.
Lemma opt_iff {A} k m (w : A -> any) P a d0 dn x : denotes m w P -> regular_args a -> regular dn -> P dn d0 -> (forall y z, w y = w z -> y = z) -> (valued (optional k m dn) (a k) (w x) <-> arg_or a k P d0 x).
Proof.
  intros H R Rd Hd Wi. unfold valued, arg_or, optional. cbn [p_matcher p_default accepts]. destruct (a k) as [n|] eqn:E; [exact (H n x (R k n E))|]. apply (H dn d0 Rd) in Hd. rewrite Hd. split; [intros X; injection X as X; symmetry; apply Wi; exact X|intros ->; reflexivity].
Qed.
Lemma made_some (o : option any) v : v <> ABad -> (made o = v <-> o = Some v).
Proof. intros N. destruct o as [u|]; cbn [made]; split; intros H; [congruence|congruence| |discriminate]. subst v. contradiction N. reflexivity. Qed.
Lemma truth_true o : truth o = true <-> o = Some true.
Proof. destruct o as [[]|]; cbn; split; try discriminate; reflexivity. Qed.

(** *** Alternatives *)
Definition apart (m m' : mt) : bool :=
  forallb (fun t => negb (mt_type any m t && mt_type any m' t)) [TInt; TFloat; TBool; TString; TNone; TArray; TDict] &&
  match mt_class any m, mt_class any m' with Some k, Some k' => negb (text_eqb k k') | _, _ => true end.
Fixpoint all_apart (ms : list mt) : bool := match ms with [] => true | m :: ms' => forallb (apart m) ms' && all_apart ms' end.
Lemma apart_no m m' n : typed m -> typed m' -> apart m m' = true -> mt_match any m' n <> NoMatch -> mt_match any m n = NoMatch.
Proof.
  intros T T' A H. destruct (mt_match any m n) eqn:E; [|reflexivity|].
  all: exfalso; assert (X : mt_match any m n <> NoMatch) by congruence; destruct (T n X) as [T1 T2]; destruct (T' n H) as [T1' T2']; unfold apart in A; apply andb_prop in A; destruct A as [A1 A2]; rewrite forallb_forall in A1;
    destruct n as [| | | | | | |k p q]; cbn [getType] in *;
    try (match type of T1 with mt_type _ _ ?t = true => assert (Y : In t [TInt; TFloat; TBool; TString; TNone; TArray; TDict]) by (cbn; tauto); specialize (A1 _ Y); rewrite T1, T1' in A1; discriminate end).
  all: rewrite (T2 k p q eq_refl), (T2' k p q eq_refl), text_eqb_refl in A2; discriminate.
Qed.
Lemma first_apart ms n v : Forall typed ms -> all_apart ms = true -> (first_match any ms n = Match v <-> Exists (fun m => mt_match any m n = Match v) ms).
Proof.
  induction ms as [|m ms IH]; intros T A; cbn [first_match]; [split; [discriminate|intros X; inversion X]|]. inversion T as [|? ? T1 T2]; subst. cbn [all_apart] in A. apply andb_prop in A. destruct A as [A1 A2]. specialize (IH T2 A2).
  assert (Q : Exists (fun m => mt_match any m n = Match v) ms -> mt_match any m n = NoMatch).
  { intros X. apply Exists_exists in X. destruct X as (m' & I & X). rewrite forallb_forall in A1. rewrite Forall_forall in T2. apply (apart_no m m' n T1 (T2 _ I) (A1 _ I)). congruence. }
  split.
  - destruct (mt_match any m n) eqn:E; intros H; [left; congruence|right; apply IH; exact H|discriminate].
  - intros X. inversion X as [? ? X1|? ? X1]; subst; [rewrite X1; reflexivity|]. rewrite (Q X1). apply IH. exact X1.
Qed.
Lemma alt_iff ms n v : Forall typed ms -> all_apart ms = true -> (mt_match any (match_alternative any (alternative_of ms)) n = Match v <-> Exists (fun m => mt_match any m n = Match v) ms).
Proof. intros T A. rewrite alternative_first by exact T. apply first_apart; assumption. Qed.
Lemma typed_family {T} (w : T -> any) c : typed (family_m w c).
Proof.
  intros n. destruct n as [| | | | | | |k p q]; cbn; try (intros N; contradiction N; reflexivity). destruct (text_eqb k (fst c)) eqn:E; [|intros N; contradiction N; reflexivity]. intros _. split; [reflexivity|]. intros k' p' q' H. injection H as <- <- <-. apply text_eqb_eq in E. subst k. reflexivity.
Qed.
Lemma family_no {T} (w : T -> any) (f : family T) n : (forall k p q, n <> NClass k p q) -> first_match any (map (family_m w) f) n = NoMatch.
Proof. intros H. induction f as [|c f IH]; [reflexivity|]. destruct n as [| | | | | | |k p q]; try exact IH. contradiction (H k p q). reflexivity. Qed.
Lemma family_first {T} (w : T -> any) (f : family T) n v : first_match any (map (family_m w) f) n = Match v <-> exists t, v = w t /\ member f n t.
Proof.
  assert (D : (exists k pos kw, n = NClass k pos kw) \/ forall k pos kw, n <> NClass k pos kw) by (destruct n; try (right; discriminate); left; eauto). destruct D as [(k & pos & kw & ->)|D].
  2:{ rewrite family_no by exact D. split; [discriminate|]. intros (t & _ & k & pos & kw & p & c & q & E & _). contradiction (D k pos kw). }
  induction f as [|c f IH]; cbn [map first_match].
  - split; [discriminate|]. intros (t & _ & k' & pos' & kw' & p & c & q & _ & E & _). destruct p; discriminate.
  - cbn [family_m mt_match]. destruct (text_eqb k (fst c)) eqn:E.
    + apply text_eqb_eq in E. destruct (snd c pos kw) as [t| |] eqn:Ec.
      * split; [intros H; injection H as <-; exists t; split; [reflexivity|]; exists k, pos, kw, [], c, f; repeat split; auto|]. intros (t' & -> & k' & pos' & kw' & p & d & q & H & Ef & Ek & Em & Fp). injection H as <- <- <-. destruct p as [|c' p]; cbn [app] in Ef; injection Ef as <- ->; [rewrite Ec in Em; injection Em as ->; reflexivity|]. inversion Fp as [|? ? F1 F2]; subst. rewrite F1 in Ec by auto. discriminate.
      * rewrite IH. split; intros (t & -> & k' & pos' & kw' & p & d & q & H & Ef & Ek & Em & Fp); injection H as <- <- <-; exists t; (split; [reflexivity|]).
        -- exists k, pos, kw, (c :: p), d, q. subst f. repeat split; auto; constructor; auto.
        -- destruct p as [|c' p]; cbn [app] in Ef; injection Ef as <- ->; [congruence|]. inversion Fp as [|? ? F1 F2]. exists k, pos, kw, p, d, q. repeat split; auto.
      * split; [discriminate|]. intros (t & -> & k' & pos' & kw' & p & d & q & H & Ef & Ek & Em & Fp). injection H as <- <- <-. destruct p as [|c' p]; cbn [app] in Ef; injection Ef as <- ->; [congruence|]. inversion Fp as [|? ? F1 F2]; subst. rewrite F1 in Ec by auto. discriminate.
    + apply text_eqb_neq in E. rewrite IH. split; intros (t & -> & k' & pos' & kw' & p & d & q & H & Ef & Ek & Em & Fp); injection H as <- <- <-; exists t; (split; [reflexivity|]).
      * exists k, pos, kw, (c :: p), d, q. subst f. repeat split; auto. constructor; [intros X; congruence|exact Fp].
      * destruct p as [|c' p]; cbn [app] in Ef; injection Ef as <- ->; [congruence|]. inversion Fp as [|? ? F1 F2]. exists k, pos, kw, p, d, q. repeat split; auto.
Qed.
Lemma family_denotes {T} (w : T -> any) (f : family T) : (forall y z, w y = w z -> y = z) -> denotes (match_alternative any (family_a w f)) w (member f).
Proof.
  intros Wi n x _. change (family_a w f) with (alternative_of (map (family_m w) f)). rewrite alternative_first by (apply Forall_forall; intros m I; apply in_map_iff in I; destruct I as (c & <- & _); apply typed_family). rewrite family_first. split; [intros (t & E & M); rewrite (Wi _ _ E); exact M|eauto].
Qed.
End Calls.
